(** * Property theorems: instances of sub-kernels (C38).

    [elaborates F h w]: the calls of [h] (which may contain [instance] calls, made as
    [instance_ok] says) all return and [w] is the state afterwards; InstanceSpec.v says
    what [instance_ok], [link], [removed], [feeds] and [ordered] are. *)
From Coq Require Import ZArith Bool String Relations Permutation.
From stdpp Require Import gmap list.
From Verif Require Import Types Word Value Graph GraphSpec GraphFacts BuilderTopo KernelSort TopSort Dfcir StreamSpec KernelValues
  Instance InstanceSpec InstanceProofs InstanceLoop InstanceMain InstanceFlow InstanceFacts KernelSpec SchedFacts PropertiesSched.

Lemma elab_sound F h w : elaborates F h w -> sound w.
Proof. intros [R D]. exact (irun_sound F h init_world w R D init_sound). Qed.

(** the call returns *)
Theorem C38_instance_succeeds :
  forall F h w p k bs, elaborates F h w -> instance_ok w p k bs ->
  exists w' rs, istep F w (IInst p k bs) = Ok (w', rs) /\ length rs = length bs.
Proof.
  intros F h w p k bs E IO. destruct (elab_sound _ _ _ E) as [W N L].
  destruct (instance_runs w p k bs W N L IO) as (w' & rs & σ & H). exists w', rs. split; [exact (in_run _ _ _ _ _ _ _ H)|apply (in_ret _ _ _ _ _ _ _ H)].
Qed.

(** the merged graph is well formed; it has exactly the variables of both kernels except
    the bound ports and the placeholders bound to outputs; what the sub-kernel owned now
    belongs to the instantiating kernel, and the sub-kernel is gone *)
Theorem C38_merged_well_formed :
  forall F h w p k bs w' rs, elaborates F h w -> instance_ok w p k bs -> istep F w (IInst p k bs) = Ok (w', rs) ->
  consistent w' /\ well_shaped w' /\
  (forall m, is_Some (w_nodes w' !! m) <-> is_Some (w_nodes w !! m) /\ ~ removed w k bs m) /\
  (forall m, is_Some (w_nodes w' !! m) -> type_of w' m = type_of w m /\ owner w' m = if decide (owner w m = k) then p else owner w m) /\
  (forall k', is_Some (w_kern w' !! k') <-> is_Some (w_kern w !! k') /\ k' <> k) /\
  (ordered w k bs -> forall r, r ∈ rs -> is_Some (w_nodes w' !! r)).
Proof.
  intros F h w p k bs w' rs E IO St. pose proof (elab_sound _ _ _ E) as S. destruct (inst_sigma F w p k bs w' rs S IO St) as (σ & H).
  split; [apply (in_WF _ _ _ _ _ _ _ H)|]. split; [apply (in_WF _ _ _ _ _ _ _ H)|]. split; [exact (inst_live F w p k bs w' rs S IO St)|]. split; [|split; [exact (in_kern _ _ _ _ _ _ _ H)|]].
  - intros m Lm. split; [exact (merged_type w p k bs w' rs σ H m Lm)|exact (inst_owner F w p k bs w' rs S IO St m Lm)].
  - intros O r Hr. apply elem_of_list_lookup_1 in Hr as [j Hj]. destruct (lookup_lt_is_Some_2 bs j) as ((v & s) & Hb).
    { rewrite <- (proj1 (in_ret _ _ _ _ _ _ _ H)). apply lookup_lt_Some in Hj. exact Hj. }
    exact (proj1 (inst_result F w p k bs w' rs S IO St j v s r O Hb Hj)).
Qed.

(** the function: let [I] interpret the inputs of the instantiating kernel, and let [I']
    give the inputs of the sub-kernel the values the bound variables have.  Then what a
    variable bound to an output has become has exactly the values of that output in the
    sub-kernel; and all other variables keep their values *)
Theorem C38_function_partial :
  forall F h w p k bs w' rs, elaborates F h w -> instance_ok w p k bs -> ordered w k bs -> istep F w (IInst p k bs) = Ok (w', rs) ->
  forall V (I I' : interp V), feeds w k bs I I' ->
  (forall j v s n r i x, bs !! j = Some (v, s) -> rs !! j = Some r -> port w k s n -> has_op w n OUT -> kval I' w n i x ->
     forall y, kval I w' r i y <-> y = x) /\
  (forall m i x, is_Some (w_nodes w' !! m) -> owner w m = k -> kval I' w m i x -> forall y, kval I w' m i y <-> y = x) /\
  (forall m i x, is_Some (w_nodes w' !! m) -> owner w m <> k -> kval I w m i x -> forall y, kval I w' m i y <-> y = x).
Proof.
  intros F h w p k bs w' rs E IO O St V I I' Fd. pose proof (elab_sound _ _ _ E) as S. pose proof S as [W N L].
  assert (U : forall m i x, kval I w' m i x -> forall y, kval I w' m i y <-> y = x).
  { intros m i x K y. split; [intro K'; symmetry; exact (kval_det I w' m i x K y K')|intros ->; exact K]. }
  split; [|split].
  - intros j v s n r i x Hj Hr P Ho K. apply U. apply (proj2 (inst_result F w p k bs w' rs S IO St j v s r O Hj Hr)).
    apply (ru_link _ _ _ _ (lval_rules I (link w k bs) w) v n).
    + exists v, s, n. split; [eapply elem_of_list_lookup_2; exact Hj|]. split; [exact P|]. right. auto.
    + apply (inner_lval w p k bs W N L IO I I' n i x Fd); [left; exact (port_owner w k N s n P)|exact K].
  - intros m i x Lm Om K. apply U. apply (inst_values F w p k bs w' rs S IO St I m i x Lm). apply (inner_lval w p k bs W N L IO I I' m i x Fd); auto.
  - intros m i x Lm Om K. apply U. apply (inst_values F w p k bs w' rs S IO St I m i x Lm). apply (outer_lval w p k bs W N L IO); assumption.
Qed.

(** without any assumption on what feeds what (an input may be bound to something that
    depends on a bound output): the values of the merged graph are those of the two
    kernels where each bound port and the variable bound to it have the same value *)
Theorem C38_linked_values :
  forall F h w p k bs w' rs, elaborates F h w -> instance_ok w p k bs -> istep F w (IInst p k bs) = Ok (w', rs) ->
  forall V (I : interp V) m i x, is_Some (w_nodes w' !! m) -> (kval I w' m i x <-> lval I (link w k bs) w m i x).
Proof. intros F h w p k bs w' rs E IO St V I m i x. exact (inst_values F w p k bs w' rs (elab_sound _ _ _ E) IO St I m i x). Qed.

(** the order of the bindings does not matter *)
Theorem C38_order_partial :
  forall F h w p k bs bs' w1 rs1, elaborates F h w -> instance_ok w p k bs -> Permutation bs bs' ->
  istep F w (IInst p k bs) = Ok (w1, rs1) ->
  instance_ok w p k bs' /\
  exists w2 rs2, istep F w (IInst p k bs') = Ok (w2, rs2) /\
  (forall m, is_Some (w_nodes w1 !! m) <-> is_Some (w_nodes w2 !! m)) /\
  forall V (I : interp V),
    (forall m i x, is_Some (w_nodes w1 !! m) -> (kval I w1 m i x <-> kval I w2 m i x)) /\
    (ordered w k bs -> ordered w k bs' -> forall a b v s r1 r2, bs !! a = Some (v, s) -> bs' !! b = Some (v, s) ->
       rs1 !! a = Some r1 -> rs2 !! b = Some r2 -> forall i x, kval I w1 r1 i x <-> kval I w2 r2 i x).
Proof.
  intros F h w p k bs bs' w1 rs1 E IO P St. pose proof (elab_sound _ _ _ E) as S. pose proof (instance_ok_perm _ _ _ _ _ P IO) as IO'. split; [exact IO'|].
  destruct (C38_instance_succeeds F h w p k bs' E IO') as (w2 & rs2 & St2 & _). exists w2, rs2. split; [exact St2|].
  assert (LV : forall m, is_Some (w_nodes w1 !! m) <-> is_Some (w_nodes w2 !! m)).
  { intro m. rewrite (inst_live F w p k bs w1 rs1 S IO St), (inst_live F w p k bs' w2 rs2 S IO' St2), (perm_removed w k bs bs' P). tauto. }
  assert (LE : forall V (I : interp V) m i x, lval I (link w k bs) w m i x <-> lval I (link w k bs') w m i x).
  { intros V I m i x. split; apply lval_ext; intros a b; [|symmetry]; apply perm_link, P. }
  split; [exact LV|]. intros V I. split.
  - intros m i x Lm. rewrite (inst_values F w p k bs w1 rs1 S IO St I m i x Lm), (inst_values F w p k bs' w2 rs2 S IO' St2 I m i x (proj1 (LV m) Lm)). apply LE.
  - intros O O' a b v s r1 r2 Ha Hb H1 H2 i x.
    rewrite (proj2 (inst_result F w p k bs w1 rs1 S IO St a v s r1 O Ha H1)), (proj2 (inst_result F w p k bs' w2 rs2 S IO' St2 b v s r2 O' Hb H2)). apply LE.
Qed.

(** a kernel built from feed-forward calls and feed-forward bindings has no cycles, and
    when it is complete the sort orders all of it *)
Theorem C38_acyclic :
  forall F h w, irun F init_world h = Ok w -> idisciplined F init_world h ->
  (forall n, ~ clos_trans nat (fun a b => a ∈ operands w b) n n) /\
  forall k g, w_kern w !! k = Some g -> complete w k -> only_kernel w k ->
    forall hash, (forall l, Permutation (hash l) l) -> exists r, sort_by hash w k = Some (TSOk r) /\ Permutation r (g_nodes g) /\
      forall i j a b, r !! i = Some a -> r !! j = Some b -> a ∈ operands w b -> i < j.
Proof.
  intros F h w R D. destruct (irun_forward F h init_world w R D init_sound init_forward) as [[W _ _] [Rk Cl _]].
  split; [exact (ranked_acyclic w Rk)|]. intros k g Hg C K. exact (ranked_sorts w k g W Rk Cl Hg C K).
Qed.

(** ** A concrete kernel: examples/polynomial2_inst (its input renamed) *)
Definition poly_child : list icmd := map ICall
  [ KNew; CType (TFixed false 32 0);                                       (* kernel 3, type 1 *)
    CInput 3 false "x" 1; CBin MUL 4 4; CBin ADD 5 4; CBin ADD 8 4;         (* 4, 5, 8, 11 *)
    COutput 3 false "out" 1; CConnect 14 11 ].                              (* 14 *)
Definition poly_before : list icmd :=
  map ICall [ KNew; CType (TFixed false 32 0); CInput 0 false "y" 0; CNewVar 0 false 0 ] ++ poly_child.  (* 1, 2 *)
Definition poly_bs : list (nat * string) := [(1, "x"%string); (2, "out"%string)].
Definition poly_inst : list icmd :=
  poly_before ++ [ IInst 0 3 poly_bs ] ++ map ICall [ COutput 0 false "res" 0; CConnect 16 11 ].
Definition poly_rank (n : nat) : nat := if n =? 2 then 15 else n.
Definition poly_flow (w : world) : bool :=
  completeb w 0 && forallb (fun q : nat * node => n_meta (snd q) =? 0) (map_to_list (w_nodes w)) &&
  schedulableb w && match sort_kernel w 0 with Some (TSOk r) => nat_list_eqb r [1; 5; 8; 11; 16] | _ => false end.
(** the theorems about compiled and scheduled kernels apply to it *)
Example C38_built : exists w, built noflt0 poly_inst w [1; 5; 8; 11; 16] /\ schedulable w.
Proof.
  assert (X : irun_ok noflt0 poly_rank poly_inst poly_flow = true) by (vm_compute; reflexivity).
  destruct (irun_check _ _ _ _ X) as (w & R & D & _ & Y). exists w. unfold poly_flow in Y. rewrite !andb_true_iff in Y. destruct Y as [[[Y1 Y2] Y3] Y4].
  split; [|apply schedulableb_sound, Y3]. exists 0. split; [exact R|]. split; [exact D|]. split; [|split; [apply completeb_sound, Y1|]].
  - intros n nd Hn. pose proof (map_forallb w _ Y2 n nd Hn) as Z. apply Nat.eqb_eq, Z.
  - destruct (sort_kernel w 0) as [[r| |]|] eqn:ES; try discriminate Y4. apply nat_list_eqb_eq in Y4 as ->. exact (sort_sorts _ _ _ ES).
Qed.
(** and so do the theorems above, at the call of [instance]: the instantiating kernel gets
    y*y + y + y for every stream y *)
Definition poly_ops (o : opk) (xs : list Z) : option Z :=
  match o, xs with BIN MUL, [a; b] => Some (a * b)%Z | BIN ADD, [a; b] => Some (a + b)%Z | _, _ => None end.
Definition poly_I (name : string) (s : Z -> Z) : interp Z :=
  {| i_op := fun o _ xs => poly_ops o xs; i_idx := Z.to_nat; i_const := fun _ c => c; i_scalar := fun _ => 0%Z;
     i_stream := fun n i => if String.eqb n name then s i else 0%Z |}.
Definition node_is (w : world) (n : nat) (f : opk -> bool) (vk : vkind) (name : string) (ty : option dftype) (args : list nat) : bool :=
  match w_nodes w !! n with
  | Some nd => f (n_op nd) && bool_decide (n_vk nd = vk) && String.eqb (n_name nd) name && bool_decide (type_of w n = ty) && bool_decide (operands w n = args)
  | None => false end.
Lemma node_is_sound w n f vk name ty args : node_is w n f vk name ty args = true ->
  exists nd, w_nodes w !! n = Some nd /\ f (n_op nd) = true /\ n_vk nd = vk /\ n_name nd = name /\ type_of w n = ty /\ operands w n = args.
Proof.
  unfold node_is. destruct (w_nodes w !! n) as [nd|]; [|discriminate]. rewrite !andb_true_iff. intros [[[[A B] C] D] E]. exists nd.
  apply bool_decide_eq_true in B, D, E. apply String.eqb_eq in C. auto 7.
Qed.
Definition is_mul (o : opk) : bool := match o with BIN MUL => true | _ => false end.
Definition is_add (o : opk) : bool := match o with BIN ADD => true | _ => false end.
Lemma is_mul_eq o : is_mul o = true -> o = BIN MUL.
Proof. destruct o; try discriminate; match goal with b : bop |- _ => destruct b; try discriminate; reflexivity end. Qed.
Lemma is_add_eq o : is_add o = true -> o = BIN ADD.
Proof. destruct o; try discriminate; match goal with b : bop |- _ => destruct b; try discriminate; reflexivity end. Qed.
Lemma is_in_eq o : is_in o = true -> o = IN.
Proof. destruct o; try discriminate; reflexivity. Qed.
Lemma is_out_eq o : is_out o = true -> o = OUT.
Proof. destruct o; try discriminate; reflexivity. Qed.
Definition u32 := Some (TFixed false 32 0).
Definition poly_facts (w : world) : bool :=
  instance_okb w 0 3 poly_bs && orderedb w 3 poly_bs &&
  node_is w 1 is_in VStream "y" u32 [] && node_is w 4 is_in VStream "x" u32 [] && node_is w 5 is_mul VStream "" u32 [4; 4] &&
  node_is w 8 is_add VStream "" u32 [5; 4] && node_is w 11 is_add VStream "" u32 [8; 4] && node_is w 14 is_out VStream "out" u32 [11] &&
  bool_decide (name_lookup (names w 3) "x" = Some 4) && bool_decide (name_lookup (names w 3) "out" = Some 14).
Example C38_case : exists w w' r, elaborates noflt0 poly_before w /\ instance_ok w 0 3 poly_bs /\ ordered w 3 poly_bs /\
  istep noflt0 w (IInst 0 3 poly_bs) = Ok (w', [1; r]) /\
  forall s i, (0 <= i)%Z -> forall y, kval (poly_I "y" s) w' r i y <-> y = (s i * s i + s i + s i)%Z.
Proof.
  assert (X : irun_ok noflt0 poly_rank poly_before poly_facts = true) by (vm_compute; reflexivity).
  destruct (irun_check _ _ _ _ X) as (w & _ & _ & El & Y). clear X. unfold poly_facts in Y. rewrite !andb_true_iff in Y.
  destruct Y as (((((((((Y0 & Yo) & Y1) & Y4) & Y5) & Y8) & Y11) & Y14) & Px) & Po). apply bool_decide_eq_true in Px, Po. apply instance_okb_sound in Y0. apply orderedb_sound in Yo.
  apply node_is_sound in Y1 as (n1 & H1 & O1 & V1 & N1 & T1 & A1), Y4 as (n4 & H4 & O4 & V4 & N4 & T4 & A4), Y5 as (n5 & H5 & O5 & V5 & N5 & T5 & A5), Y8 as (n8 & H8 & O8 & V8 & N8 & T8 & A8),
    Y11 as (n11 & H11 & O11 & V11 & N11 & T11 & A11), Y14 as (n14 & H14 & O14 & V14 & N14 & T14 & A14).
  pose proof (is_in_eq _ O1) as Q1. pose proof (is_in_eq _ O4) as Q4. pose proof (is_mul_eq _ O5) as Q5. pose proof (is_add_eq _ O8) as Q8.
  pose proof (is_add_eq _ O11) as Q11. pose proof (is_out_eq _ O14) as Q14.
  destruct (C38_instance_succeeds noflt0 _ w 0 3 poly_bs El Y0) as (w' & rs & St & Len).
  destruct (inst_sigma noflt0 w 0 3 poly_bs w' rs (elab_sound _ _ _ El) Y0 St) as (σ & Hi).
  destruct rs as [|r1 [|r [|? ?]]]; try discriminate Len. 
  assert (r1 = 1) as ->.
  { pose proof (proj2 (in_ret _ _ _ _ _ _ _ Hi) Yo 0 1 "x"%string eq_refl) as Z. injection Z as ->. apply (in_id _ _ _ _ _ _ _ Hi). intros (v & s & n & Hb & P & Z).
    unfold port in P. unfold poly_bs in Hb. apply elem_of_cons in Hb as [Hb|Hb]; [|apply elem_of_list_singleton in Hb]; injection Hb as -> ->.
    - rewrite Px in P. injection P as <-. destruct Z as [Z|(_ & Z & _)]; [discriminate Z|]. pose proof (has_op_det _ _ _ _ Z (ex_intro _ n4 (conj H4 Q4))) as E. discriminate E.
    - rewrite Po in P. injection P as <-. destruct Z as [Z|(Z & _)]; discriminate Z. }
  exists w, w', r. split; [exact El|]. split; [exact Y0|]. split; [exact Yo|]. split; [exact St|].
  intros s i Pi y.
  assert (Fd : feeds w 3 poly_bs (poly_I "y" s) (poly_I "x" s)).
  { split; [reflexivity|]. split; [reflexivity|]. split; [reflexivity|]. intros v t n nd Hb P Hn Ho. unfold port in P. unfold poly_bs in Hb.
    apply elem_of_cons in Hb as [Hb|Hb]; [|apply elem_of_list_singleton in Hb]; injection Hb as -> ->.
    - rewrite Px in P. injection P as <-. rewrite H4 in Hn. injection Hn as <-. split; [|rewrite V4; congruence]. intros _ j Pj.
      pose proof (kv_stream (poly_I "y" s) w 1 n1 j H1 Q1 V1 Pj) as Z. rewrite N1 in Z. exact Z.
    - rewrite Po in P. injection P as <-. congruence. }
  refine (proj1 (C38_function_partial noflt0 _ w 0 3 poly_bs w' [1; r] El Y0 Yo St Z _ _ Fd) 1 2 "out"%string 14 r i _ eq_refl eq_refl Po (ex_intro _ n14 (conj H14 Q14)) _ y).
  assert (K4 : kval (poly_I "x" s) w 4 i (s i)) by (pose proof (kv_stream (poly_I "x" s) w 4 n4 i H4 Q4 V4 Pi) as Z; rewrite N4 in Z; exact Z).
  apply (kv_out _ w 14 n14 11 i _ H14 Q14 A14).
  assert (OP : forall n nd a b x z q t, w_nodes w !! n = Some nd -> (n_op nd = BIN MUL \/ n_op nd = BIN ADD) -> type_of w n = Some t -> operands w n = [a; b] ->
     kval (poly_I "x" s) w a i x -> kval (poly_I "x" s) w b i z -> poly_ops (n_op nd) [x; z] = Some q -> kval (poly_I "x" s) w n i q).
  { intros n nd a b x z q t Hn Ho Ht Oa Ka Kb Eq. apply (kv_op _ w n nd t i [x; z] q Hn); auto; [destruct Ho as [-> | ->]; exact I|]. rewrite Oa. repeat constructor; assumption. }
  apply (OP 11 n11 8 4 (s i * s i + s i)%Z (s i) _ (TFixed false 32 0)); auto; [|rewrite Q11; reflexivity].
  apply (OP 8 n8 5 4 (s i * s i)%Z (s i) _ (TFixed false 32 0)); auto; [|rewrite Q8; reflexivity].
  apply (OP 5 n5 4 4 (s i) (s i) _ (TFixed false 32 0)); auto. rewrite Q5; reflexivity.
Qed.

(** ** Where the property fails *)
(** The order matters for a sub-kernel that passes an input through: bound after the
    input, the output variable becomes the variable bound to the input; bound before it,
    it is left denoting a deleted node (kernel.h:82-90 reads the driver of the output
    before rebindInput redirects it). *)
Definition pass_before : list icmd := map ICall
  [ KNew; CType (TFixed false 8 0); CInput 0 false "y" 0; CNewVar 0 false 0;                       (* 1, 2 *)
    KNew; CType (TFixed false 8 0); CInput 3 false "x" 1; COutput 3 false "out" 1; CConnect 5 4 ].  (* kernel 3; 4, 5 *)
Definition ends (r : res (world * list nat)) (f : world -> list nat -> bool) : bool := match r with Ok (w, l) => f w l | _ => false end.
Lemma ends_sound r f : ends r f = true -> exists w l, r = Ok (w, l) /\ f w l = true.
Proof. destruct r as [[w l]| | |]; try discriminate. cbn. eauto. Qed.
Theorem C38_refuted : exists F h w p k v s u t w1 w2 rs1 rs2 r1 r2,
  elaborates F h w /\ instance_ok w p k [(v, s); (u, t)] /\ instance_ok w p k [(u, t); (v, s)] /\
  istep F w (IInst p k [(v, s); (u, t)]) = Ok (w1, rs1) /\ istep F w (IInst p k [(u, t); (v, s)]) = Ok (w2, rs2) /\
  rs1 !! 1 = Some r1 /\ rs2 !! 0 = Some r2 /\ is_Some (w_nodes w1 !! r1) /\ w_nodes w2 !! r2 = None.
Proof.
  set (b1 := (1, "x"%string)). set (b2 := (2, "out"%string)).
  set (f := fun w => instance_okb w 0 3 [b1; b2] && instance_okb w 0 3 [b2; b1] &&
     ends (istep noflt0 w (IInst 0 3 [b1; b2])) (fun w' l => match l !! 1 with Some r => bool_decide (is_Some (w_nodes w' !! r)) | None => false end) &&
     ends (istep noflt0 w (IInst 0 3 [b2; b1])) (fun w' l => match l !! 0 with Some r => bool_decide (w_nodes w' !! r = None) | None => false end)).
  assert (X : irun_ok noflt0 (fun n => n) pass_before f = true) by (vm_compute; reflexivity).
  destruct (irun_check _ _ _ _ X) as (w & _ & _ & El & Y). unfold f in Y. rewrite !andb_true_iff in Y. destruct Y as [[[Y1 Y2] Y3] Y4].
  apply ends_sound in Y3 as (w1 & l1 & E1 & Z1), Y4 as (w2 & l2 & E2 & Z2).
  destruct (l1 !! 1) as [r1|] eqn:R1; [|discriminate]. destruct (l2 !! 0) as [r2|] eqn:R2; [|discriminate]. apply bool_decide_eq_true in Z1, Z2.
  exists noflt0, pass_before, w, 0, 3, 1, "x"%string, 2, "out"%string, w1, w2, l1, l2, r1, r2.
  split; [exact El|]. split; [apply instance_okb_sound, Y1|]. split; [apply instance_okb_sound, Y2|]. auto 7.
Qed.

(** An input that is not bound stays in the merged kernel but is no longer one of its
    start nodes: transferFrom (graph.cpp:110-117) takes over constants only, so the
    topological sort misses it. *)
Theorem C38_unbound_input : exists F h w p k bs w' rs,
  elaborates F h w /\ bindings_ok w p k bs /\ istep F w (IInst p k bs) = Ok (w', rs) /\ ~ consistent w'.
Proof.
  set (bs := [(2, "out"%string)]).
  set (f := fun w => negb (0 =? 3) && bool_decide (NoDup (map snd bs)) && eachb w 3 bs (fun v s n => binding_okb w 0 3 v n) && targetsb w 3 bs &&
    ends (istep noflt0 w (IInst 0 3 bs)) (fun w' _ => match w_kern w' !! 0, w_nodes w' !! 4 with Some g, Some nd => is_in (n_op nd) && bool_decide (4 ∈ g_nodes g) && bool_decide (4 ∉ g_starts g) | _, _ => false end)).
  assert (X : irun_ok noflt0 (fun n => n) pass_before f = true) by (vm_compute; reflexivity).
  destruct (irun_check _ _ _ _ X) as (w & _ & _ & El & Y). unfold f in Y. rewrite !andb_true_iff in Y. destruct Y as [[[[Y1 Y2] Y3] Y4] Y5].
  apply ends_sound in Y5 as (w' & l & E & Z). destruct (w_kern w' !! 0) as [g|] eqn:Hg; [|discriminate]. destruct (w_nodes w' !! 4) as [nd|] eqn:Hn; [|discriminate].
  rewrite !andb_true_iff in Z. destruct Z as [[Z1 Z2] Z3]. apply bool_decide_eq_true in Z2, Z3.
  exists noflt0, pass_before, w, 0, 3, bs, w', l. split; [exact El|]. split; [exact (bindingsb_sound w 0 3 bs Y1 Y2 Y3 Y4)|]. split; [exact E|].
  intro C. apply Z3. apply (cs_starts _ C 0 g 4 Hg). split; [exact Z2|]. exists nd. split; [exact Hn|]. left. destruct (n_op nd); try discriminate Z1; reflexivity.
Qed.

(** A sub-kernel that reads its own output leaves a channel whose source was deleted
    (rebindOutput redirects only the channel into the output). *)
Definition read_before : list icmd := map ICall
  [ KNew; CType (TFixed false 8 0); CInput 0 false "y" 0; CNewVar 0 false 0; CNewVar 0 false 0;     (* 1, 2, 3 *)
    KNew; CType (TFixed false 8 0); CInput 4 false "x" 1; CUn NOT 5;                                 (* kernel 4; 5, 6 *)
    COutput 4 false "a" 1; CConnect 8 6; CUn NOT 8; COutput 4 false "b" 1; CConnect 12 10 ].         (* 8, 10, 12 *)
Theorem C38_read_output : exists F h w p k bs w' rs,
  elaborates F h w /\ istep F w (IInst p k bs) = Ok (w', rs) /\ ~ consistent w'.
Proof.
  set (bs := [(1, "x"%string); (2, "a"%string); (3, "b"%string)]).
  set (f := fun w => ends (istep noflt0 w (IInst 0 4 bs)) (fun w' _ => match w_chans w' !! 11 with Some ch => bool_decide (w_nodes w' !! c_src ch = None) | None => false end)).
  assert (X : irun_ok noflt0 (fun n => n) read_before f = true) by (vm_compute; reflexivity).
  destruct (irun_check _ _ _ _ X) as (w & _ & _ & El & Y). unfold f in Y.
  apply ends_sound in Y as (w' & l & E & Z). destruct (w_chans w' !! 11) as [ch|] eqn:Hc; [|discriminate]. apply bool_decide_eq_true in Z.
  exists noflt0, read_before, w, 0, 4, bs, w', l. split; [exact El|]. split; [exact E|]. intro C. destruct (cs_src _ C 11 ch Hc) as (nd & Hn & _). congruence.
Qed.

(** A kernel that is itself being instantiated cannot bind a constant to an input of its
    own sub-kernel: the constant lives in the top kernel, where rebindInput does not look,
    and a null pointer is dereferenced. *)
Definition const_before : list icmd := map ICall
  [ KNew; CType (TFixed false 8 0);                                                                  (* kernel 0 *)
    KNew; CType (TFixed false 8 0); CConst 1 5; CNewVar 1 false 1;                                   (* kernel 1; 2, 3 *)
    KNew; CType (TFixed false 8 0); CInput 4 false "x" 2; CUn NOT 5; COutput 4 false "a" 2; CConnect 8 6 ].  (* kernel 4; 5, 6, 8 *)
Theorem C38_constant_binding : exists F h w p k v s n u t o,
  elaborates F h w /\ is_const w v /\ port w k s n /\ has_op w n IN /\ type_of w v = type_of w n /\
  output_binding w p k u t o /\ istep F w (IInst p k [(v, s); (u, t)]) = UB.
Proof.
  set (bs := [(2, "x"%string); (3, "a"%string)]).
  set (f := fun w => match w_nodes w !! 2 with Some nd => bool_decide (n_vk nd = VConst) | None => false end &&
     eachb w 4 [(2, "x"%string)] (fun v s n => op_is w n is_in && bool_decide (type_of w v = type_of w n)) &&
     eachb w 4 [(3, "a"%string)] (fun v s n => negb (op_is w n is_in) && binding_okb w 1 4 v n) &&
     match istep noflt0 w (IInst 1 4 bs) with UB => true | _ => false end).
  assert (X : irun_ok noflt0 (fun n => n) const_before f = true) by (vm_compute; reflexivity).
  destruct (irun_check _ _ _ _ X) as (w & _ & _ & El & Y). unfold f in Y. rewrite !andb_true_iff in Y. destruct Y as [[[Y1 Y2] Y3] Y4].
  destruct (w_nodes w !! 2) as [nd|] eqn:Hn; [|discriminate]. apply bool_decide_eq_true in Y1.
  destruct (eachb_sound _ _ _ _ Y2 2 "x"%string ltac:(constructor)) as (n & P & Z). apply andb_true_iff in Z as [Z1 Z2]. apply bool_decide_eq_true in Z2.
  destruct (eachb_sound _ _ _ _ Y3 3 "a"%string ltac:(constructor)) as (o & Po & Z). apply andb_true_iff in Z as [Z3 Z4].
  exists noflt0, const_before, w, 1, 4, 2, "x"%string, n, 3, "a"%string, o. split; [exact El|]. split; [exists nd; auto|]. split; [exact P|]. split; [apply op_in, Z1|]. split; [exact Z2|].
  split; [|fold bs; destruct (istep noflt0 w (IInst 1 4 bs)); try discriminate Y4; reflexivity].
  destruct (binding_okb_sound w 1 4 3 "a"%string o Po Z4) as [(_ & Q & _)|Q]; [|exact Q]. apply op_in in Q. rewrite Q in Z3. discriminate.
Qed.

(** one report for all theorems of this file *)
Definition C38_theorems := (C38_instance_succeeds, C38_merged_well_formed, C38_function_partial, C38_linked_values, C38_order_partial, C38_acyclic, C38_refuted, C38_unbound_input, C38_read_output, C38_constant_binding).
Print Assumptions C38_theorems.
