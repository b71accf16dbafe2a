(** * Property theorems: the DOT drawing of a kernel (C53). *)
From Coq Require Import ZArith Bool String Lia Permutation DecimalString DecimalZ.
From stdpp Require Import gmap list strings.
From Verif Require Import TypingSpec Instance InstanceSpec InstanceFlow Types Word Value OpSpec Graph GraphSpec GraphFacts BuilderTopo KernelSort TopSort Dfcir Sched SchedFinal SchedFacts
     KernelSpec SimInput SimRunSpec RtlSpec RtlFacts Dot DotSpec DotProofs PropertiesSched PropertiesRtl.
Local Open Scope Z_scope.

(** ** C53: the drawing shows every node, every operand and nothing else, for every order
    in which the node set is walked, if the names of the ports are distinct and none has
    the form [node<number>] *)
Theorem C53_partial : forall F h w k g hash, irun F init_world h = Ok w -> instances_ok F init_world h -> only_kernel w k -> w_kern w !! k = Some g ->
  (forall l, Permutation (hash l) l) -> user_names_ok w (g_nodes g) ->
  exists D nm, compile_dot w hash k = Ok D /\ draws w k nm D.
Proof.
  intros F h w k g hash R I OK Hk PH UN. pose proof (irun_sound F h init_world w R I init_sound) as [[C _] _ _]. exact (draws_kernel w k g hash C Hk OK PH UN).
Qed.

(** a drawing determines the graph: two kernels with the same drawing have the same nodes
    and operands up to renaming, and operations with the same marks *)
Theorem C53_faithful : forall F h h' w w' k k' nm nm' D,
  irun F init_world h = Ok w -> instances_ok F init_world h -> only_kernel w k ->
  irun F init_world h' = Ok w' -> instances_ok F init_world h' -> only_kernel w' k' ->
  draws w k nm D -> draws w' k' nm' D ->
  exists f : nat -> nat,
    (forall n nd, w_nodes w !! n = Some nd -> exists nd', w_nodes w' !! f n = Some nd' /\ exists s x l, mark (n_op nd) s x l /\ mark (n_op nd') s x l) /\
    (forall n', is_Some (w_nodes w' !! n') -> exists n, is_Some (w_nodes w !! n) /\ f n = n') /\
    (forall n m, is_Some (w_nodes w !! n) -> is_Some (w_nodes w !! m) -> f n = f m -> n = m) /\
    (forall n nd, w_nodes w !! n = Some nd -> operands w' (f n) = map f (operands w n)).
Proof.
  intros F h h' w w' k k' nm nm' D R I O R' I' O' A B.
  pose proof (irun_sound F h init_world w R I init_sound) as [[C _] _ _]. pose proof (irun_sound F h' init_world w' R' I' init_sound) as [[C' _] _ _].
  destruct (draws_same w k nm w' k' nm' D A B O O') as (f & F1 & F2 & F3 & F4). exists f. repeat (split; [assumption|]).
  intros n nd Hn. apply (F4 n nd Hn); intros a Ha; [apply (operands_live w n a C Ha)|apply (operands_live w' (f n) a C' Ha)].
Qed.
(** the marks tell operations apart, except the two meanings of [-] and the operations
    drawn as plain boxes: constants, casts, slices, concatenations, unconnected variables *)
Definition plain_box (o : opk) : Prop := match o with CONST _ | CAST | BITS _ _ | CAT | NONE => True | _ => False end.
Lemma zdec_inj a b : zdec a = zdec b -> a = b.
Proof.
  unfold zdec. intros H. assert (E : Some (Z.to_int a) = Some (Z.to_int b)) by (rewrite <- !DecimalString.NilEmpty.isi; now rewrite H). injection E as E.
  rewrite <- (DecimalZ.of_to a), <- (DecimalZ.of_to b). now rewrite E.
Qed.
Theorem C53_marks : forall o o' s x l, generated_name s -> mark o s x l -> mark o' s x l ->
  o = o' \/ (o = BIN SUB /\ o' = UN NEG) \/ (o = UN NEG /\ o' = BIN SUB) \/ (plain_box o /\ plain_box o').
Proof.
  intros o o' s x l (k & ->) A B.
  assert (Q : forall p q, mark p ("node" ++ dec k) x l -> mark q ("node" ++ dec k) x l -> plain_box p -> ~ plain_box q -> False).
  { intros p q P1 P2 P3 P4. assert (x = "box"%string /\ l = ("node" ++ dec k)%string) as [-> ->] by (destruct P1; try (destruct P3; fail); auto).
    inversion P2 as [| | | | | |o0 s0 nm HIn| | |]; subst; try discriminate; try (apply P4; assumption). repeat (apply elem_of_cons in HIn as [HIn|HIn]; [discriminate HIn|]). inversion HIn. }
  assert (DP : forall p, plain_box p \/ ~ plain_box p) by (intros []; cbn; tauto).
  destruct (DP o) as [Po|Po], (DP o') as [Po'|Po'].
  - auto.
  - destruct (Q o o' A B Po Po').
  - destruct (Q o' o B A Po' Po).
  - clear Q DP. inversion A as [| | | | | |b1 s1 n1 H1| | |]; subst; inversion B as [| | | | | |b2 s2 n2 H2| | |]; subst; try discriminate; try contradiction; auto;
      try (match goal with H : zdec _ = zdec _ |- _ => apply zdec_inj in H; subst; auto end; fail);
      try (match goal with H : (_ ++ zdec _)%string = (_ ++ zdec _)%string |- _ => injection H as H; apply zdec_inj in H; subst; auto end; fail);
      repeat match goal with H : _ ∈ _ :: _ |- _ => apply elem_of_cons in H as [H|H]; [try discriminate H; inversion H; clear H; subst; auto|] | H : _ ∈ [] |- _ => inversion H end; auto;
      try congruence.
Qed.

(** a port called [node0] and an unnamed operation get the same name, in every order: the
    drawing then has fewer nodes than the kernel *)
Definition clash_h : list cmd :=
  [ CType (TFixed false 8 0); CInput 0 false "node0" 0; CBin ADD 1 1; COutput 0 false "o" 0; CConnect 5 2 ].
Lemma perm3 {A} (l : list A) a b c : Permutation l [a; b; c] -> l ∈ [[a; b; c]; [a; c; b]; [b; a; c]; [b; c; a]; [c; a; b]; [c; b; a]].
Proof.
  intros P. pose proof (Permutation_length P) as L. destruct l as [|x [|y [|z [|? l]]]]; cbn in L; try lia. clear L.
  assert (X : x ∈ [a; b; c]) by (rewrite <- P; left). apply elem_of_cons in X as [->|X].
  { apply Permutation_cons_inv, Permutation_length_2_inv in P as [P|P]; injection P as -> ->; repeat first [apply elem_of_list_here|apply elem_of_list_further]. }
  apply elem_of_cons in X as [->|X].
  { rewrite (perm_swap b a) in P. apply Permutation_cons_inv, Permutation_length_2_inv in P as [P|P]; injection P as -> ->; repeat first [apply elem_of_list_here|apply elem_of_list_further]. }
  apply elem_of_list_singleton in X as ->.
  rewrite (perm_swap c b [] : Permutation [b; c] [c; b]) in P. rewrite (perm_swap c a) in P. apply Permutation_cons_inv, Permutation_length_2_inv in P as [P|P]; injection P as -> ->; repeat first [apply elem_of_list_here|apply elem_of_list_further].
Qed.
Theorem C53_refuted : exists w order, built noflt0 (calls clash_h) w order /\
  forall hash, (forall l, Permutation (hash l) l) -> exists D, compile_dot w hash 0 = Ok D /\ length D = 3%nat /\ forall nm, ~ draws w 0 nm D.
Proof.
  assert (Fl : flow_ok noflt0 clash_h [ Def 1 (DIn false "node0") VStream (TFixed false 8 0) (-1) []; Def 2 (DBin ADD) VStream (TFixed false 8 0) (-1) [1%nat; 1%nat];
      Def 5 (DOut false "o") VStream (TFixed false 8 0) (-1) []; Con 5 2 ]
    (fun w => match w_kern w !! 0%nat with
       | Some g => bool_decide (g_nodes g = [5; 2; 1]%nat) && forallb (fun ns => match dot_elems w ns (∅, 0%nat) with
            | Ok (D, _) => Nat.eqb (length D) 3 && negb (bool_decide (NoDup (map d_name D)))
            | _ => false end) [[5; 2; 1]; [5; 1; 2]; [2; 5; 1]; [2; 1; 5]; [1; 5; 2]; [1; 2; 5]]%nat
       | None => false end) = true) by (vm_compute; reflexivity).
  destruct (flow_check _ _ _ _ Fl) as (w & o & R & D & K & C & S & B & X). clear Fl.
  exists w, o. split; [exact (ex_intro _ 0%nat (conj R (conj D (conj K (conj C S)))))|].
  destruct (w_kern w !! 0%nat) as [g|] eqn:Hk; [|discriminate X]. apply andb_true_iff in X as [G X]. apply bool_decide_eq_true in G.
  intros hash PH. specialize (PH (g_nodes g)). unfold compile_dot. rewrite Hk. cbn [of_opt rbind]. pose proof PH as PH'. rewrite G in PH' at 2. apply perm3 in PH'.
  rewrite forallb_forall in X. apply elem_of_list_In in PH'. specialize (X _ PH'). cbn beta in X.
  destruct (dot_elems w (hash (g_nodes g)) (∅, 0%nat)) as [[es st]| | |]; try discriminate X. cbn [rbind]. apply andb_true_iff in X as [X1 X2]. apply Nat.eqb_eq in X1.
  exists es. split; [reflexivity|]. split; [exact X1|]. intros nm Dr. apply negb_true_iff, bool_decide_eq_false in X2. apply X2, (dr_names _ _ _ _ Dr).
Qed.

(** the kernel of C50_case is drawn *)
Definition unamesb (w : world) (ns : list nat) : bool :=
  forallb (fun n => forallb (fun m => match w_nodes w !! n, w_nodes w !! m with
     | Some a, Some b => if String.eqb (n_name a) "" then true else negb (String.prefix "node" (n_name a)) && (negb (String.eqb (n_name a) (n_name b)) || Nat.eqb n m)
     | _, _ => true end) ns) ns.
Lemma unamesb_sound w ns : unamesb w ns = true -> user_names_ok w ns.
Proof.
  unfold unamesb. intros H n m nd md Hn Hm En Em Ne. rewrite forallb_forall in H. specialize (H n ltac:(now apply elem_of_list_In)). rewrite forallb_forall in H. specialize (H m ltac:(now apply elem_of_list_In)).
  cbn beta in H. rewrite En, Em in H. destruct (String.eqb_spec (n_name nd) "") as [E|E]; [congruence|]. apply andb_true_iff in H as [H1 H2]. split.
  - intros (j & Ej). rewrite Ej in H1. apply negb_true_iff in H1. cbn in H1. destruct (dec j); discriminate H1.
  - intros E2. apply orb_true_iff in H2 as [H2|H2]; [apply negb_true_iff, String.eqb_neq in H2; congruence|now apply Nat.eqb_eq].
Qed.
Example C53_case : exists w g D nm, irun noflt0 init_world (calls rt_h) = Ok w /\ instances_ok noflt0 init_world (calls rt_h) /\ only_kernel w 0 /\ w_kern w !! 0%nat = Some g /\
  user_names_ok w (g_nodes g) /\ compile_dot w (fun l => rev l) 0 = Ok D /\ draws w 0 nm D /\ length D = 17%nat.
Proof.
  assert (Fl : flow_ok noflt0 rt_h rt_P (fun w => match w_kern w !! 0%nat with Some g => unamesb w (g_nodes g) && match compile_dot w (fun l => rev l) 0 with Ok D => Nat.eqb (length D) 17 | _ => false end | None => false end) = true) by (vm_compute; reflexivity).
  destruct (flow_check _ _ _ _ Fl) as (w & o & R & D & K & C & S & B & X). clear Fl.
  destruct (w_kern w !! 0%nat) as [g|] eqn:Hk; [|discriminate X]. apply andb_true_iff in X as [X1 X2]. apply unamesb_sound in X1.
  pose proof (disciplined_instances noflt0 _ _ D) as IO.
  destruct (C53_partial noflt0 (calls rt_h) w 0%nat g (fun l => rev l) R IO K Hk ltac:(intro; symmetry; apply Permutation_rev) X1) as (Dr & nm & E & DD).
  rewrite E in X2. apply Nat.eqb_eq in X2. exists w, g, Dr, nm. auto 10.
Qed.

Definition PropertiesDot_theorems := (C53_partial, C53_faithful, C53_marks, C53_refuted, C53_case).
Print Assumptions PropertiesDot_theorems.
