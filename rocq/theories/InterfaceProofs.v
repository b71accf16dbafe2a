(** * The ports of the generated hardware module (proofs). *)
From Coq Require Import ZArith Bool String Lia.
From stdpp Require Import gmap list.
From Verif Require Import Types Word Value Graph GraphSpec BuilderProofs BuilderProofs2 BuilderTopo GraphFacts KernelSort TopSort TypingSpec TypesProofs
  Instance InstanceSpec InstanceMain InstanceDrop InstanceFlow Dfcir StreamSpec Sched SchedSpec DfcirProofs SchedStream SchedMain SchedFinal DfcirBuild KernelFlow
  Linear Pipeline ProgTyping Stubs Verilog Naming Interface InterfaceSpec.
Local Open Scope Z_scope.

(** ** The passes keep the ports *)
(** whatever is read off the port operations *)
Section Read.
Context {B : Type} (f : stmt -> option B).
Hypothesis f_con : forall d s, f (Con d s) = None.
Hypothesis f_off : forall r n k t l a, f (Def r (DOffset n) k t l a) = None.
Hypothesis f_lat : forall r k t l a, f (Def r DLatency k t l a) = None.
Hypothesis f_same : forall r o k t l a l' a', f (Def r o k t l a) = f (Def r o k t l' a').
Lemma cfg_ports cfg P : omap f (apply_config cfg P) = omap f P.
Proof. unfold apply_config. induction P as [|[r o k t l a|d s] P IH]; cbn [map omap list_omap]; [reflexivity| |rewrite f_con; exact IH].
  erewrite f_same. rewrite IH. reflexivity. Qed.
Lemma mjoin_ports (g : stmt -> list stmt) P : (forall s, omap f (g s) = omap f [s]) -> omap f (mjoin (map g P)) = omap f P.
Proof. intro H. induction P as [|s P IH]; [reflexivity|]. cbn [map mjoin list_join]. rewrite omap_app, H. change (s :: P) with ([s] ++ P). rewrite omap_app. f_equal. exact IH. Qed.
Lemma insert_ports P c lat fr P' : insert_buffer P c lat fr = Some P' -> omap f P' = omap f P.
Proof.
  unfold insert_buffer. intro E. destruct (lat <=? 0); [discriminate|]. destruct (0 <=? sc_ind c).
  - destruct (def_of _ _) as [[[[[? ?] ?] ?] args]|]; [|discriminate]. destruct (args !! _); [|discriminate]. destruct (val_ty _ _). injection E as <-.
    apply mjoin_ports. intros [r o k1 t l a|e s]; [|reflexivity]. destruct (Nat.eqb _ _); [|reflexivity]. cbn [omap list_omap]. rewrite f_lat. erewrite f_same. reflexivity.
  - destruct (_ =? _); [|discriminate]. destruct (con_of _ _); [|discriminate]. destruct (val_ty _ _). injection E as <-.
    apply mjoin_ports. intros [r o k t l a|e s]; [reflexivity|]. destruct (Nat.eqb _ _); cbn [omap list_omap]; rewrite ?f_lat, ?f_con; reflexivity.
Qed.
Lemma inserts_ports : forall bs P fr P', insert_buffers P bs fr = Some P' -> omap f P' = omap f P.
Proof.
  induction bs as [|[c lat] bs IH]; intros P fr P' E; cbn in E; [injection E as <-; reflexivity|].
  destruct (insert_buffer P c lat fr) as [P1|] eqn:E1; [|discriminate]. rewrite (IH _ _ _ E). eapply insert_ports. exact E1.
Qed.
Lemma erase_ports P v : NoDup (defs P) -> omap f (erase_offset P v) = omap f P.
Proof.
  intro N. unfold erase_offset. destruct (def_of P v) as [[[[[o0 k0] t0] l0] args]|] eqn:E; [|reflexivity].
  destruct o0; try reflexivity. destruct args as [|s args]; try reflexivity. pose proof (def_of_in _ _ _ _ _ _ _ E) as Hv.
  assert (A : forall r o k t l a, Def r o k t l a ∈ P -> r = v -> o = DOffset offset).
  { intros r o k t l a H ->. pose proof (def_unique _ _ _ _ _ _ _ _ _ _ _ _ N H Hv) as X. now injection X. }
  clear -A f_con f_off f_same. induction P as [|st P IH]; [reflexivity|].
  assert (IH' := IH (fun r o k t l a H => A r o k t l a (elem_of_list_further _ _ _ H))). destruct st as [r o k t l a|d x]; cbn [List.filter is_def negb map omap list_omap subst_stmt]; [|rewrite !f_con; exact IH'].
  destruct (Nat.eqb_spec r v) as [->|Nr].
  - rewrite (A v o k t l a ltac:(left) eq_refl). cbn [negb]. rewrite f_off. exact IH'.
  - cbn [negb map omap list_omap subst_stmt]. erewrite f_same. rewrite IH'. reflexivity.
Qed.
Lemma erases_ports P : ptyped P -> omap f (erase_offsets P) = omap f P.
Proof.
  unfold erase_offsets. generalize (offset_ids P). intro ids. revert P. induction ids as [|v ids IH]; intros P T; cbn; [reflexivity|].
  rewrite IH by (apply erase_ptyped; exact T). apply erase_ports. apply T.
Qed.
Lemma scheduled_read P Q : ptyped P -> scheduled P Q -> omap f Q = omap f P.
Proof.
  intros T SC. destruct SC as [(cfg & perm & L & E)|[(solve & cfg & perm & L & E)|(rnd & eps & m & perm & E)]].
  - unfold asap_pass in E. destruct (sgraph _) as [[ns cs]|]; [|discriminate]. destruct (asap ns cs) as [[[mm bs] mx]|]; [|discriminate].
    destruct (insert_buffers _ _ _) as [P2|] eqn:E2; [|discriminate]. injection E as <- _.
    rewrite erases_ports; [|eapply inserts_ptyped; [apply cfg_ptyped; exact T|apply fresh_lt|exact E2]]. rewrite (inserts_ports _ _ _ _ E2). apply cfg_ports.
  - unfold linear_pass in E. destruct (sgraph _) as [[ns cs]|]; [|discriminate]. destruct (lp_schedule _ _ _) as [bs|]; [|discriminate].
    destruct (insert_buffers _ _ _) as [P2|] eqn:E2; [|discriminate]. injection E as <- _.
    rewrite erases_ports; [|eapply inserts_ptyped; [apply cfg_ptyped; exact T|apply fresh_lt|exact E2]]. rewrite (inserts_ports _ _ _ _ E2). apply cfg_ports.
  - unfold Pipeline.comb_pass in E. destruct (Z.eqb_spec m 0); [injection E as <-; reflexivity|]. set (P1 := apply_config _ P) in E.
    destruct (Pipeline.cgraph P1) as [[ns cs]|]; [|discriminate]. destruct (Pipeline.comb_layers ns cs) as [mm mx].
    destruct (Pipeline.cascades _ _ _ _) as [ks|]; [|discriminate]. destruct (Pipeline.comb_buffers _ _ _ _) as [bs|]; [|discriminate].
    rewrite (inserts_ports _ _ _ _ E). apply cfg_ports.
Qed.
End Read.
Lemma scheduled_ports P Q : ptyped P -> scheduled P Q -> module_ports Q = module_ports P.
Proof.
  intros T SC. unfold module_ports. f_equal. apply scheduled_read; auto; intros r o k t l a l' a'; destruct o; reflexivity.
Qed.
Lemma scheduled_out P Q : ptyped P -> scheduled P Q -> forall d sc nm k t l a, Def d (DOut sc nm) k t l a ∈ Q -> exists sc nm k t l a, Def d (DOut sc nm) k t l a ∈ P.
Proof.
  intros T SC d sc nm k t l a H. set (f := fun s => match s with Def r (DOut _ _) _ _ _ _ => Some r | _ => None end).
  assert (E : omap f Q = omap f P) by (apply scheduled_read; auto; intros r o ? ? ? ? ? ?; destruct o; reflexivity).
  assert (X : d ∈ omap f Q) by (apply elem_of_list_omap; eexists; split; [exact H|reflexivity]). rewrite E in X.
  apply elem_of_list_omap in X as (s & Hs & Es). destruct s as [r o k' t' l' a'|]; [|discriminate]. destruct o; try discriminate. injection Es as ->. eauto 10.
Qed.

(** ** The port variables of a kernel are those the calls declare *)
(** [n] is the variable of the declared port [d] of kernel [k] *)
Definition shows (w : world) (k n : nat) (d : decl) : Prop :=
  exists nd t, w_nodes w !! n = Some nd /\ n_meta nd = k /\ n_name nd = d_name d /\ n_op nd = (if d_input d then IN else OUT) /\
    w_types w !! n_ty nd = Some t /\ w_types w !! d_type d = Some t.
Definition port_var (w : world) (k n : nat) : Prop := exists nd, w_nodes w !! n = Some nd /\ n_meta nd = k /\ (n_op nd = IN \/ n_op nd = OUT).
Definition lists (w : world) (k : nat) (l : list decl) : Prop :=
  exists ns, NoDup ns /\ (forall n, n ∈ ns <-> port_var w k n) /\ Forall2 (shows w k) ns l.

Lemma forall2_in {A B} (R : A -> B -> Prop) l m x : Forall2 R l m -> x ∈ l -> exists y, y ∈ m /\ R x y.
Proof. intro F. induction F as [|a b l m H F IH]; intro X; [inversion X|]. apply elem_of_cons in X as [->|X]; [exists b; split; [left|exact H]|]. destruct (IH X) as (y & Y & Z). exists y. split; [right; exact Y|exact Z]. Qed.

(** a call that makes no port *)
Lemma lists_keep w w' k l :
  (forall n nd, w_nodes w !! n = Some nd -> exists nd', w_nodes w' !! n = Some nd' /\ same_head nd nd') ->
  (forall t ty, w_types w !! t = Some ty -> w_types w' !! t = Some ty) ->
  (forall n, port_var w' k n -> is_Some (w_nodes w !! n)) ->
  lists w k l -> lists w' k l.
Proof.
  intros K T B (ns & ND & IN & F2). exists ns. split; [exact ND|]. split.
  - intro n. rewrite IN. split.
    + intros (nd & H & M & O). destruct (K n nd H) as (nd' & H' & (E1 & _ & _ & _ & E5)). exists nd'. split; [exact H'|]. rewrite <- E1, <- E5. auto.
    + intros PV. destruct (B n PV) as (nd & H). destruct PV as (nd' & H' & M & O). destruct (K n nd H) as (nd2 & H2 & (E1 & _ & _ & _ & E5)).
      assert (nd2 = nd') by congruence. subst nd2. exists nd. rewrite E1, E5. auto.
  - eapply forall2_mono; [|exact F2]. intros n d (nd & t & H & M & Nm & O & Ty & Td). destruct (K n nd H) as (nd' & H' & (E1 & E2 & E3 & E4 & E5)).
    exists nd', t. split; [exact H'|]. rewrite <- E1, <- E2, <- E4, <- E5. auto 10.
Qed.
Lemma lists_add w w' r k d :
  preserved w w' r -> w_nodes w !! r = None -> shows w' k r d ->
  (forall q l, lists w q l -> lists w' q (if Nat.eqb q k then l ++ [d] else l)).
Proof.
  intros (K & _ & T & B) NR SH q l L. destruct (Nat.eqb_spec q k) as [->|Nq].
  - destruct L as (ns & ND & IN & F2). pose proof SH as (nr & tr & Hr & Mr & Nr & Or & Tr & Dr). exists (ns ++ [r]).
    assert (RN : r ∉ ns) by (intro X; apply IN in X as (nd & X & _); congruence). split.
    { apply NoDup_app. split; [exact ND|]. split; [|apply NoDup_singleton]. intros x X Y. apply elem_of_list_singleton in Y as ->. contradiction. }
    split.
    + intro n. rewrite elem_of_app, elem_of_list_singleton, IN. split.
      * intros [(nd & H & M & O)| ->].
        -- destruct (K n nd H) as (nd' & H' & (E1 & _ & _ & _ & E5)). exists nd'. split; [exact H'|]. rewrite <- E1, <- E5. auto.
        -- exists nr. split; [exact Hr|]. split; [exact Mr|]. rewrite Or. destruct (d_input d); auto.
      * intros PV. destruct (decide (n = r)) as [->|Nn]; [auto|]. left. pose proof PV as (nd' & H' & M & O).
        destruct (B n ltac:(eauto) Nn) as (nd & H). destruct (K n nd H) as (nd2 & H2 & (E1 & _ & _ & _ & E5)).
        assert (nd2 = nd') by congruence. subst nd2. exists nd. rewrite E1, E5. auto.
    + apply Forall2_app; [|constructor; [exact SH|constructor]].
      eapply forall2_mono; [|exact F2]. intros n d0 (nd & t & H & M & Nm & O & Ty & Td). destruct (K n nd H) as (nd' & H' & (E1 & E2 & E3 & E4 & E5)).
      exists nd', t. split; [exact H'|]. rewrite <- E1, <- E2, <- E4, <- E5. auto 10.
  - apply (lists_keep w); auto. intros n PV. destruct (decide (n = r)) as [->|Nn].
    + exfalso. destruct PV as (nd & H & M & _). destruct SH as (nr & tr & Hr & Mr & _). congruence.
    + destruct PV as (nd & H & _). apply B; eauto.
Qed.

Lemma step_lists F w c w' r : step F w c = Ok (w', r) -> WF w ->
  forall I, (forall q, lists w q (I q)) -> forall q, lists w' q (declare I (ICall c) q).
Proof.
  intros H W I L q. destruct (step_ext F _ _ _ _ H W) as [[W' P] Q].
  assert (SAME : w_nodes w' = w_nodes w -> lists w' q (I q)).
  { intro E. apply (lists_keep w); [|apply P| |apply L].
    - intros n nd X. rewrite E. exists nd. split; [exact X|]. unfold same_head. auto.
    - intros n (nd & X & _). rewrite E in X. eauto. }
  assert (NEW : forall k o ty vk nm args, new_node w w' r k o ty vk nm args -> o <> IN -> o <> OUT -> lists w' q (I q)).
  { intros k o ty vk nm args (_ & (nd & X & O & _) & _) N1 N2. apply (lists_keep w); [apply P|apply P| |apply L].
    intros n PV. destruct (decide (n = r)) as [->|Nn].
    - exfalso. destruct PV as (nd' & X' & _ & [Y|Y]); congruence.
    - destruct PV as (nd' & X' & _). apply P; eauto. }
  assert (CON : forall t v, const_result w w' r t v -> lists w' q (I q)).
  { intros t v [(nd & X & _ & O & _) _]. apply (lists_keep w); [apply P|apply P| |apply L].
    intros n PV. destruct (decide (n = r)) as [->|Nn].
    - exfalso. destruct PV as (nd' & X' & _ & [Y|Y]); congruence.
    - destruct PV as (nd' & X' & _). apply P; eauto. }
  assert (PORT : forall k o ty t vk nm b, w_types w !! ty = Some t -> new_node w w' r k o t vk nm [] -> o = (if b : bool then IN else OUT) -> lists w' q (on k (I k ++ [(nm, ty, b)]) I q)).
  { intros k o ty t vk nm b Ht (NR & (nd & X & O & Ty & _ & Nm & M) & _) Eo.
    assert (SH : shows w' k r (nm, ty, b)).
    { exists nd, t. split; [exact X|]. split; [exact M|]. split; [exact Nm|]. split; [cbn; congruence|]. split; [exact Ty|]. apply P. exact Ht. }
    pose proof (lists_add w w' r k _ P NR SH q (I q) (L q)) as Z. unfold on. destruct (Nat.eqb_spec q k) as [->|]; exact Z. }
  destruct c; cbn [declare call_post] in *.
  - apply SAME, Q.
  - apply SAME, Q.
  - destruct Q as (t & Ht & Q). eapply PORT; [exact Ht|exact Q|reflexivity].
  - destruct Q as (t & Ht & Q). eapply PORT; [exact Ht|exact Q|reflexivity].
  - destruct Q as (t & Ht & Q). eapply NEW; [exact Q|discriminate|discriminate].
  - destruct Q as (t & Ht & Q). eapply CON, Q.
  - destruct Q as [(ta & tb & va & vb & v & _ & _ & _ & Q)|(ta & _ & _ & Q)]; [eapply CON, Q|eapply NEW; [exact Q|discriminate|discriminate]].
  - destruct Q as [(ta & va & v & _ & _ & Q)|(ta & _ & _ & Q)]; [eapply CON, Q|eapply NEW; [exact Q|discriminate|discriminate]].
  - destruct Q as [(ta & va & v & _ & Q & _)|(ta & _ & _ & Q)]; [eapply CON, Q|eapply NEW; [exact Q|destruct left; discriminate|destruct left; discriminate]].
  - destruct Q as (ta & _ & _ & Q). eapply NEW; [exact Q|discriminate|discriminate].
  - destruct Q as (ta & tb & _ & _ & Q). eapply NEW; [exact Q|discriminate|discriminate].
  - destruct Q as (t & _ & [(_ & -> & _)|Q]); [apply L|eapply NEW; [exact Q|discriminate|discriminate]].
  - destruct Q as (a0 & rest & t & _ & _ & Q). eapply NEW; [exact Q|discriminate|discriminate].
  - destruct Q as (t & nd & _ & _ & _ & Q). eapply NEW; [exact Q|discriminate|discriminate].
  - destruct Q as (_ & _ & _ & _ & Q). apply (lists_keep w); [apply P|apply P| |apply L]. intros n (nd & X & _). apply Q. eauto.
Qed.

Lemma nodup_images {A B C} (R : A -> B -> Prop) (f : B -> C) l m : Forall2 R l m -> NoDup (map f m) ->
  forall x y x' y', x ∈ l -> R x y -> x' ∈ l -> R x' y' -> (forall a b, R x a -> R x b -> f a = f b) -> (forall a b, R x' a -> R x' b -> f a = f b) -> f y = f y' -> x = x'.
Proof.
  intros F2 ND x y x' y' Hx Rx Hx' Rx' U U' E. revert Hx Hx'. induction F2 as [|a b l m H F2 IH]; intros Hx Hx'; [inversion Hx|].
  cbn in ND. apply NoDup_cons in ND as [N1 N2]. apply elem_of_cons in Hx as [->|Hx]; apply elem_of_cons in Hx' as [->|Hx']; auto.
  - exfalso. apply N1. destruct (forall2_in _ _ _ _ F2 Hx') as (z & Z & RZ). apply elem_of_list_fmap. exists z. split; [|exact Z]. rewrite (U _ _ H Rx), E. apply U'; assumption.
  - exfalso. apply N1. destruct (forall2_in _ _ _ _ F2 Hx) as (z & Z & RZ). apply elem_of_list_fmap. exists z. split; [|exact Z]. rewrite (U' _ _ H Rx'), <- E. apply U; assumption.
Qed.
Lemma forall2_filter {A B} (R S : A -> B -> Prop) (p : B -> bool) l m : Forall2 R l m -> NoDup l -> (forall x y, R x y -> x ∈ l -> p y = true -> S x y) ->
  exists l', NoDup l' /\ (forall x, x ∈ l' -> exists y, x ∈ l /\ R x y /\ p y = true) /\ (forall x, x ∈ l -> x ∈ l' \/ exists y, R x y /\ p y = false) /\ Forall2 S l' (List.filter p m).
Proof.
  induction 1 as [|a b l m H F2 IH]; intros ND HS.
  - exists []. split; [constructor|]. split; [intros x X; inversion X|]. split; [auto|constructor].
  - apply NoDup_cons in ND as [N1 N2]. destruct (IH N2) as (l' & L1 & L2 & L3 & L4); [intros x y X Y; apply HS; [exact X|right; exact Y]|].
    cbn. destruct (p b) eqn:Eb.
    + exists (a :: l'). split; [|split; [|split]].
      * apply NoDup_cons. split; [|exact L1]. intro X. apply L2 in X as (y & X & _). contradiction.
      * intros x X. apply elem_of_cons in X as [->|X]; [exists b; split; [left|auto]|]. destruct (L2 x X) as (y & Y1 & Y2). exists y. split; [right; exact Y1|exact Y2].
      * intros x X. apply elem_of_cons in X as [->|X]; [left; left|]. destruct (L3 x X) as [Y|Y]; [left; right; exact Y|auto].
      * constructor; [apply HS; [exact H|left|exact Eb]|exact L4].
    + exists l'. split; [exact L1|]. split; [|split; [|exact L4]].
      * intros x X. destruct (L2 x X) as (y & Y1 & Y2). exists y. split; [right; exact Y1|exact Y2].
      * intros x X. apply elem_of_cons in X as [->|X]; [right; eauto|auto].
Qed.
Lemma unbound_spec bs d : unbound bs d = true <-> forall v, (v, d_name d) ∉ bs.
Proof.
  unfold unbound. rewrite negb_true_iff. split.
  - intros E v X. rewrite <- not_true_iff_false in E. apply E. apply existsb_exists. exists (v, d_name d). split; [apply elem_of_list_In; exact X|apply String.eqb_refl].
  - intro A. apply not_true_iff_false. intro X. apply existsb_exists in X as ((v & s) & X & E). cbn in E. apply String.eqb_eq in E as ->. apply (A v). apply elem_of_list_In. exact X.
Qed.

Section Inst.
Variables (w : world) (p k : nat) (bs : list (nat * string)).
Hypothesis (W : WF w) (N : named w) (Lo : local w) (IO : instance_ok w p k bs).
Variables (w' : world) (rs : list nat) (σ : nat -> nat).
Hypothesis (H : instanced w p k bs w' rs σ).
Let BO : bindings_ok w p k bs := io_bindings _ _ _ _ IO.

Lemma name_port s n : port w k s n -> (s, n) ∈ names w k.
Proof.
  unfold port, name_lookup. intro X. destruct (List.find _ _) as [[s' n']|] eqn:E; [|discriminate]. injection X as ->.
  apply find_some in E as [E1 E2]. cbn in E2. apply String.eqb_eq in E2 as ->. apply elem_of_list_In. exact E1.
Qed.
Lemma inst_port_var q n : q <> k -> port_var w' q n <-> (exists nd, w_nodes w !! n = Some nd /\ (n_op nd = IN \/ n_op nd = OUT) /\ (n_meta nd = q \/ q = p /\ n_meta nd = k) /\ ~ removed w k bs n).
Proof.
  intro Nq. assert (PK := bo_diff _ _ _ _ BO). split.
  - intros (x & Hx & M & O). destruct (in_back _ _ _ _ _ _ _ H n x Hx) as (y & Hy & G & E1 & E2 & E3 & E4 & E5). exists y. split; [exact Hy|].
    rewrite <- E1. split; [exact O|]. split; [|exact G]. rewrite E5 in M. destruct (decide (n_meta y = k)); [right; split; congruence|left; exact M].
  - intros (y & Hy & O & M & G). destruct (in_keep _ _ _ _ _ _ _ H n y Hy G) as (x & Hx & E1 & E2 & E3 & E4 & E5). exists x. split; [exact Hx|]. rewrite E1.
    split; [|exact O]. rewrite E5. destruct (decide (n_meta y = k)) as [E|E]; destruct M as [M|[M1 M2]]; congruence.
Qed.
(** a port of another kernel is kept *)
Lemma other_kept n y : w_nodes w !! n = Some y -> (n_op y = IN \/ n_op y = OUT) -> n_meta y <> k -> ~ removed w k bs n.
Proof.
  intros Hy O M (v & s & m & X & P & [->|(-> & _ & (z & Hz & Ez))]).
  - destruct (N k s m (name_port s m P)) as (z & Hz & _ & Mz & _). congruence.
  - assert (z = y) by congruence. subst. destruct O; congruence.
Qed.
Lemma inst_shows q n d : q <> k -> shows w q n d -> shows w' q n d.
Proof.
  intros Nq (y & t & Hy & M & Nm & O & T1 & T2).
  destruct (in_keep _ _ _ _ _ _ _ H n y Hy) as (x & Hx & E1 & E2 & E3 & E4 & E5); [eapply other_kept; [exact Hy|destruct (d_input d); auto|congruence]|].
  exists x, t. rewrite (in_types _ _ _ _ _ _ _ H), E1, E2, E4, E5. destruct (decide _); [congruence|]. auto 10.
Qed.
Lemma inst_lists I : NoDup (map d_name (I k)) -> (forall q, lists w q (I q)) -> forall q, lists w' q (declare I (IInst p k bs) q).
Proof.
  intros DN L q. assert (PK := bo_diff _ _ _ _ BO). cbn [declare]. unfold on.
  destruct (Nat.eqb_spec q k) as [->|Nk].
  { exists []. split; [constructor|]. split; [|constructor]. intro n. split; [intro X; inversion X|]. intros (x & Hx & M & _).
    destruct (in_back _ _ _ _ _ _ _ H n x Hx) as (y & _ & _ & _ & _ & _ & _ & E). rewrite M in E. destruct (decide _); congruence. }
  assert (FORW : forall q, q <> k -> forall n, port_var w q n -> port_var w' q n).
  { intros q0 Nq n (y & Hy & M & O). apply inst_port_var; [exact Nq|]. exists y. split; [exact Hy|]. split; [exact O|]. split; [auto|]. eapply other_kept; eauto. congruence. }
  destruct (Nat.eqb_spec q p) as [->|Np].
  - destruct (L p) as (ns & ND & IN1 & F2). destruct (L k) as (ms & MD & IN2 & G2).
    assert (UNIQ : forall x a b, shows w k x a -> shows w k x b -> d_name a = d_name b).
    { intros x a b (y & t & Hy & _ & E & _) (y' & t' & Hy' & _ & E' & _). congruence. }
    assert (REM : forall n d, n ∈ ms -> shows w k n d -> (removed w k bs n <-> unbound bs d = false)).
    { intros n d Hn SH. pose proof SH as (y & t & Hy & M & Nm & O & T1 & T2). rewrite <- not_true_iff_false, unbound_spec. split.
      - intros (v & s & m & X & P & [->|(-> & _ & (z & Hz & Ez))]) A.
        + destruct (N k s m (name_port s m P)) as (z & Hz & Nz & _). apply (A v). rewrite <- Nm. replace (n_name y) with s by congruence. exact X.
        + assert (z = y) by congruence. subst. rewrite Ez in O. destruct (d_input d); discriminate.
      - intros A. destruct (decide (d_name d ∈ map snd bs)) as [X|X].
        + apply elem_of_list_fmap in X as ((v & s) & Es & X). cbn in Es. subst s. destruct (bo_each _ _ _ _ BO _ _ X) as (m & B0).
          assert (P : port w k (d_name d) m) by (destruct B0 as [B0|B0]; apply B0).
          destruct (N k _ m (name_port _ m P)) as (z & Hz & Nz & Mz & Oz).
          assert (Hm : m ∈ ms) by (apply IN2; exists z; auto). destruct (forall2_in _ _ _ _ G2 Hm) as (dm & _ & Sm).
          assert (n = m); [|subst; exists v, (d_name d), m; auto].
          eapply (nodup_images (shows w k) d_name ms (I k) G2 DN n d m dm); auto; [apply UNIQ|apply UNIQ|].
          destruct Sm as (z' & t' & Hz' & _ & Nz' & _). congruence.
        + exfalso. apply A. intros v Y. apply X. apply elem_of_list_fmap. exists (v, d_name d). auto. }
    destruct (forall2_filter (shows w k) (shows w' p) (unbound bs) ms (I k) G2 MD) as (ms' & M1 & M2 & M3 & M4).
    { intros n d SH Hn E. pose proof SH as (y & t & Hy & M & Nm & O & T1 & T2).
      destruct (in_keep _ _ _ _ _ _ _ H n y Hy) as (x & Hx & E1 & E2 & E3 & E4 & E5); [intro X; apply (REM n d Hn SH) in X; congruence|].
      exists x, t. rewrite (in_types _ _ _ _ _ _ _ H), E1, E2, E4, E5. destruct (decide _); [|congruence]. auto 10. }
    exists (ns ++ ms'). split; [|split].
    + apply NoDup_app. split; [exact ND|]. split; [|exact M1]. intros n X Y. apply IN1 in X as (y & Hy & My & _). apply M2 in Y as (d & Y & _). apply IN2 in Y as (y' & Hy' & My' & _). congruence.
    + intro n. rewrite elem_of_app. split.
      * intros [X|X]; [apply FORW; [exact PK|apply IN1; exact X]|]. destruct (M2 n X) as (d & Y & SH & E). apply inst_port_var; [exact PK|].
        pose proof SH as (y & t & Hy & M & Nm & O & T1 & T2). exists y. split; [exact Hy|]. split; [rewrite O; destruct (d_input d); auto|]. split; [auto|].
        intro R. apply (REM n d Y SH) in R. congruence.
      * intro X. apply inst_port_var in X as (y & Hy & O & M & G); [|exact PK]. destruct M as [M|[_ M]].
        -- left. apply IN1. exists y. auto.
        -- right. assert (Hn : n ∈ ms) by (apply IN2; exists y; auto). destruct (M3 n Hn) as [Y|(d & SH & E)]; [exact Y|]. exfalso. apply G. apply (REM n d Hn SH). exact E.
    + apply Forall2_app; [|exact M4]. eapply forall2_mono; [|exact F2]. intros n d. apply inst_shows. exact PK.
  - destruct (L q) as (ns & ND & IN1 & F2). exists ns. split; [exact ND|]. split.
    + intro n. rewrite IN1. split; [apply FORW; exact Nk|]. intro X. apply inst_port_var in X as (y & Hy & O & M & G); [|exact Nk]. exists y. destruct M as [M|[M _]]; [auto|congruence].
    + eapply forall2_mono; [|exact F2]. intros n d. apply inst_shows. exact Nk.
Qed.
End Inst.

Lemma drop_lists w k w' : dropped w k w' -> forall I, (forall q, lists w q (I q)) -> forall q, lists w' q (declare I (IDrop k) q).
Proof.
  intros H I L q. cbn [declare]. unfold on. destruct (Nat.eqb_spec q k) as [->|Nq].
  - exists []. split; [constructor|]. split; [|constructor]. intro n. split; [intro X; inversion X|]. intros (x & Hx & M & _).
    rewrite (dd_nodes _ _ _ H) in Hx. destruct (w_nodes w !! n) as [y|]; [|discriminate]. destruct (decide _); [discriminate|]. congruence.
  - destruct (L q) as (ns & ND & IN1 & F2).
    assert (K : forall n nd, n_meta nd = q -> w_nodes w' !! n = Some nd <-> w_nodes w !! n = Some nd).
    { intros n nd M. rewrite (dd_nodes _ _ _ H). destruct (w_nodes w !! n) as [y|]; [|tauto]. destruct (decide (n_meta y = k)); split; intro X; try discriminate X; try exact X. injection X as ->. congruence. }
    exists ns. split; [exact ND|]. split.
    + intro n. rewrite IN1. split; intros (x & Hx & M & O); exists x; (split; [apply (K n x M); exact Hx|auto]).
    + eapply forall2_mono; [|exact F2]. intros n d (y & t & Hy & M & Nm & O & T1 & T2). exists y, t. rewrite (dd_types _ _ _ H). split; [apply K; assumption|auto 10].
Qed.

Lemma irun_lists F : forall h w w' I, irun F w h = Ok w' -> instances_ok F w h -> sound w -> sub_names_distinct I h -> (forall q, lists w q (I q)) ->
  forall q, lists w' q (fold_left declare h I q).
Proof.
  induction h as [|c h IH]; intros w w' I R O S DN L; cbn [irun instances_ok sub_names_distinct fold_left] in *; [injection R as <-; exact L|].
  ropen R. destruct x as [w1 r]. rewrite Hx in O. destruct O as [O1 O2]. destruct DN as [D1 D2]. assert (S1 := istep_sound F _ _ _ _ Hx O1 S).
  apply (IH w1); [exact Hy|exact O2|exact S1|exact D2|]. destruct c as [c|p k bs|k].
  - cbn in Hx. ropen Hx. destruct x as [w2 r2]. injection Hy0 as <- <-. intro q. exact (step_lists F w c w2 r2 Hx0 (so_WF _ S) I L q).
  - destruct S as [W N Lo]. destruct (instance_runs w p k bs W N Lo O1) as (w2 & rs & σ & H). change (do_instance w p k bs = Ok (w1, r)) in Hx. rewrite (in_run _ _ _ _ _ _ _ H) in Hx. injection Hx as <- <-.
    exact (inst_lists w p k bs N O1 w2 rs σ H I D1 L).
  - destruct S as [W N Lo]. destruct (drop_runs w k W N Lo O1) as (w2 & X). cbn in Hx. rewrite (dd_run _ _ _ X) in Hx. injection Hx as <- <-. exact (drop_lists w k w2 X I L).
Qed.
Lemma init_lists q : lists init_world q [].
Proof. exists []. split; [constructor|]. split; [|constructor]. intro n. split; [intro X; inversion X|]. intros (nd & X & _). cbn in X. rewrite lookup_empty in X. discriminate. Qed.

(** if everything is bound, a kernel has the ports it declared itself (as long as it lives) *)
Lemma own_all : forall h I k, all_bound I h -> (forall p bs, IInst p k bs ∉ h) -> IDrop k ∉ h -> fold_left declare h I k = I k ++ own_ports h k.
Proof.
  induction h as [|c h IH]; intros I k B NI NDr; [cbn; rewrite app_nil_r; reflexivity|].
  cbn [all_bound fold_left] in *. destruct B as [B1 B2]. rewrite IH; [|exact B2|intros p bs X; eapply NI; right; exact X|intro X; apply NDr; right; exact X].
  unfold own_ports. destruct c as [c|p q bs|q]; cbn [omap list_omap].
  - destruct c; cbn [declare]; try reflexivity; unfold on; rewrite (Nat.eqb_sym k); destruct (Nat.eqb_spec k0 k) as [->|]; try reflexivity; rewrite <- app_assoc; reflexivity.
  - cbn [declare]. unfold on. destruct (Nat.eqb_spec k q) as [->|]; [exfalso; eapply NI; left|].
    destruct (Nat.eqb_spec k p) as [->|]; [|reflexivity].
    replace (List.filter (unbound bs) (I q)) with (@nil decl); [rewrite app_nil_r; reflexivity|]. symmetry.
    assert (X : forall d, d ∈ List.filter (unbound bs) (I q) -> False).
    { intros d X. apply elem_of_list_In, List.filter_In in X as [X1 X2]. pose proof (proj1 (unbound_spec bs d) X2) as X3. destruct (B1 d) as (v & Y); [apply elem_of_list_In; exact X1|]. exact (X3 v Y). }
    destruct (List.filter _ _) as [|d l]; [reflexivity|]. exfalso. apply (X d). left.
  - cbn [declare]. unfold on. destruct (Nat.eqb_spec k q) as [->|]; [exfalso; apply NDr; left|reflexivity].
Qed.

(** ** The program of a kernel *)
Lemma omap_all {A B} (f : A -> option B) l : (forall x, x ∈ l -> f x = None) -> omap f l = [].
Proof. induction l as [|x l IH]; intro H; [reflexivity|]. cbn. rewrite (H x) by left. apply IH. intros y Y. apply H. right. exact Y. Qed.
Lemma omap_perm {A B} (f : A -> option B) l m : l ≡ₚ m -> omap f l ≡ₚ omap f m.
Proof.
  induction 1 as [|x l m _ IH|x y l|l m k _ IH1 _ IH2]; cbn; [reflexivity| | |etransitivity; eassumption].
  - destruct (f x); [apply perm_skip; exact IH|exact IH].
  - destruct (f x), (f y); try reflexivity. apply perm_swap.
Qed.
Definition def_port (P : program) (v : nat) : option hwport :=
  match def_of P v with Some (o, k, t, l, a) => stmt_port (Def v o k t l a) | None => None end.
Lemma ports_defs P : NoDup (defs P) -> omap stmt_port P = omap (def_port P) (defs P).
Proof.
  intro N. assert (A : forall Q, (forall s, s ∈ Q -> s ∈ P) -> omap stmt_port Q = omap (def_port P) (defs Q)).
  { induction Q as [|s Q IH]; intro S; [reflexivity|]. assert (IH' := IH (fun x X => S x (elem_of_list_further _ _ _ X))).
    destruct s as [r o k t l a|d x]; [|exact IH']. unfold defs in *. cbn [omap list_omap]. unfold def_port at 1. rewrite (def_of_def P r o k t l a N (S _ ltac:(left))).
    rewrite IH'. reflexivity. }
  apply A. auto.
Qed.

Section Kernel.
Variables (F : fltops) (h : list icmd) (w : world) (order : list nat).
Hypothesis R : irun F init_world h = Ok w.
Hypothesis D : idisciplined F init_world h.
Context {kern : nat}.
Hypothesis K1 : only_kernel w kern.
Hypothesis C : complete w kern.
Hypothesis S : sorts w kern order.
Variable P : program.
Hypothesis EP : build w order = Ok P.
Hypothesis DN : sub_names_distinct (fun _ => []) h.

Definition conv_port (d : decl) : option hwport :=
  match w_types w !! d_type d with Some t => Some (mkPort (d_name d) (HBits (port_type t)) (d_input d)) | None => None end.
Lemma kernel_lists : lists w kern (declared h kern).
Proof. apply (irun_lists F h init_world w); [exact R|apply disciplined_instances; exact D|apply init_sound|exact DN|intro q; apply init_lists]. Qed.
Lemma kernel_ports : omap stmt_port P ≡ₚ omap conv_port (declared h kern).
Proof.
  destruct (flow_facts F h w order R D K1 C S) as (W & DR & ND & LV & TO & NP).
  destruct (build_spec w order W DR ND LV TO NP) as (P' & E' & ED & WP & CB & DD & DC). rewrite EP in E'. injection E' as <-.
  assert (NP' : NoDup (defs P)) by (rewrite ED; exact ND).
  rewrite (ports_defs P NP'), ED. destruct kernel_lists as (ns & NS & IN1 & F2).
  assert (SUB : ns ⊆+ order) by (apply NoDup_submseteq; [exact NS|]; intros n X; apply IN1 in X as (nd & X & _); apply LV; eauto).
  apply submseteq_Permutation in SUB as (rest & PR). rewrite (omap_perm _ _ _ PR), omap_app.
  assert (DP : forall n nd t, w_nodes w !! n = Some nd -> w_types w !! n_ty nd = Some t -> (n_op nd = IN -> def_port P n = Some (mkPort (n_name nd) (HBits (port_type t)) true)) /\
     (n_op nd = OUT -> def_port P n = Some (mkPort (n_name nd) (HBits (port_type t)) false))).
  { intros n nd t Hn Ht. assert (On : n ∈ order) by (apply LV; eauto).
    assert (Q : forall o, translate_op nd (operands w n) = Ok (o, []) -> (forall d, n_op nd <> OFFSET d) -> Def n o (n_vk nd) t (-1) [] ∈ P).
    { intros o E NO. apply DD. split; [exact On|]. split; [|reflexivity]. exists nd. rewrite (result_other w nd [] NO). auto. }
    unfold def_port. split; intro E.
    - rewrite (def_of_def P n (DIn (match n_vk nd with VStream => false | _ => true end) (n_name nd)) (n_vk nd) t (-1) [] NP'); [reflexivity|].
      apply Q; [unfold translate_op; rewrite E; reflexivity|intros d X; congruence].
    - rewrite (def_of_def P n (DOut (match n_vk nd with VStream => false | _ => true end) (n_name nd)) (n_vk nd) t (-1) [] NP'); [reflexivity|].
      apply Q; [unfold translate_op; rewrite E; reflexivity|intros d X; congruence]. }
  rewrite (omap_all (def_port P) rest).
  - rewrite app_nil_r. clear -F2 DP. induction F2 as [|n d ns l (nd & t & Hn & M & Nm & O & T1 & T2) F2 IH]; [reflexivity|]. cbn.
    unfold conv_port at 1. rewrite T2, <- Nm. destruct (DP n nd t Hn T1) as [A B]. destruct (d_input d); [rewrite (A O)|rewrite (B O)]; apply perm_skip; exact IH.
  - intros n Hn. unfold def_port. destruct (def_of P n) as [[[[[o k] t] l] a]|] eqn:E; [|reflexivity]. apply def_of_in in E.
    assert (NDall : NoDup (ns ++ rest)) by (rewrite <- PR; exact ND). apply NoDup_app in NDall as (_ & DJ & _).
    apply DD in E as (_ & (nd & Hnd & _ & _ & T) & _).
    assert (NO : n_op nd <> IN /\ n_op nd <> OUT).
    { split; intro X; apply (DJ n); [|exact Hn| |exact Hn]; apply IN1; exists nd; (split; [exact Hnd|]); (split; [exact (K1 n nd Hnd)|auto]). }
    unfold translate_op in T. destruct (n_op nd); try (destruct NO; congruence); destruct (operands w n) as [|x [|y r]]; try discriminate T; injection T as <- _; reflexivity.
Qed.
Lemma kernel_out d sc nm k t l a nd : Def d (DOut sc nm) k t l a ∈ P -> w_nodes w !! d = Some nd -> n_op nd = OUT.
Proof.
  destruct (flow_facts F h w order R D K1 C S) as (W & DR & ND & LV & TO & NP).
  destruct (build_spec w order W DR ND LV TO NP) as (P' & E' & ED & WP & CB & DD & DC). rewrite EP in E'. injection E' as <-.
  intros H Hn. apply DD in H as (_ & (nd' & Hn' & _ & _ & T) & _). assert (nd' = nd) by congruence. subst.
  unfold translate_op in T. destruct (n_op nd); try reflexivity; try discriminate T; destruct (operands w d) as [|x [|y r]]; discriminate T.
Qed.
End Kernel.
