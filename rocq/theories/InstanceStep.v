(** * API calls keep names and locality (proofs). *)
From Coq Require Import ZArith Bool String Lia.
From stdpp Require Import gmap list.
From Verif Require Import Types Word Value Graph GraphSpec BuilderProofs BuilderProofs2 BuilderTopo StreamSpec Instance InstanceSpec InstanceLoop.

Section Step.
Context (F : fltops).

(** every successful call is one of these *)
Inductive shape (w w' : world) (r : nat) : cmd -> Prop :=
| sh_kernel : (w', r) = do_kernel w -> shape w w' r KNew
| sh_type t : (w', r) = add_type w t -> shape w w' r (CType t)
| sh_io c k o ty vk name : add_node w k o ty vk name = Ok (w', r) -> is_Some (w_types w !! ty) -> vk <> VConst -> o = IN \/ o = OUT \/ o = NONE /\ name = EmptyString ->
    (forall a b, c <> CConnect a b) -> c <> KNew -> shape w w' r c
| sh_op c w1 k o ty args : (w1 = w \/ exists t, w1 = fst (add_type w t)) -> mk_op w1 k o ty args = Ok (w', r) -> is_Some (w_types w1 !! ty) -> 
    match o with IN | OUT | NONE | CONST _ => False | _ => True end -> (forall a b, c <> CConnect a b) -> c <> KNew -> shape w w' r c
| sh_const c ty v : create_or_use_const w ty v = Ok (w', r) -> (forall a b, c <> CConnect a b) -> c <> KNew -> shape w w' r c
| sh_same c : w' = w -> is_Some (w_nodes w !! r) -> (forall a b, c <> CConnect a b) -> c <> KNew -> shape w w' r c
| sh_connect b na : w_nodes w !! r = Some na -> add_chan w (n_meta na) b r 0 true = Ok w' -> shape w w' r (CConnect r b).

Lemma step_shape w c w' r : step F w c = Ok (w', r) -> WF w -> shape w w' r c.
Proof.
  intros H W. pose proof (proj1 W) as C. pose proof (cs_type _ C) as Hty.
  assert (Hnt : forall t, is_Some (w_types (fst (add_type w t)) !! length (w_types w))).
  { intros t. cbn. rewrite lookup_app_r, Nat.sub_diag by lia. eauto. }
  destruct c; cbn [step] in H.
  - injection H as <- <-. constructor. reflexivity.
  - injection H as <- <-. constructor. reflexivity.
  - unfold do_io in H. ropen H. apply get_type_ok in Hx. eapply sh_io; eauto; try discriminate; destruct scalar; discriminate.
  - unfold do_io in H. ropen H. apply get_type_ok in Hx. eapply sh_io; eauto; try discriminate; destruct scalar; discriminate.
  - unfold do_io in H. ropen H. apply get_type_ok in Hx. eapply sh_io; eauto; try discriminate; destruct scalar; discriminate.
  - eapply sh_const; eauto; discriminate.
  - unfold do_bin in H. ropen H. ropen Hy. apply get_node_ok in Hx, Hx0.
    destruct (const_value x), (const_value x0).
    1: { ropen Hy0. ropen Hy. eapply sh_const; eauto; discriminate. }
    all: destruct (is_comp o);
      [eapply (sh_op w w' r _ (fst (add_type w mkBool))); [right; eauto|exact Hy0|apply Hnt|exact Logic.I|discriminate|discriminate]
      |eapply sh_op; [left; reflexivity|exact Hy0|eapply Hty; eauto|exact Logic.I|discriminate|discriminate]].
  - unfold do_un in H. ropen H. apply get_node_ok in Hx. destruct (const_value x).
    + ropen Hy. ropen Hy0. eapply sh_const; eauto; discriminate.
    + eapply sh_op; [left; reflexivity|exact Hy|eapply Hty; eauto|exact Logic.I|discriminate|discriminate].
  - unfold do_shift in H. ropen H. apply get_node_ok in Hx. destruct (const_value x).
    + ropen Hy. eapply sh_const; eauto; discriminate.
    + eapply sh_op; [left; reflexivity|exact Hy|eapply Hty; eauto|destruct left; exact Logic.I|discriminate|discriminate].
  - unfold do_slice in H. ropen H. ropen Hy. destruct (_ <=? _)%Z; [discriminate|].
    eapply (sh_op w w' r _ (fst (add_type w _))); [right; eauto|exact Hy0|apply Hnt|exact Logic.I|discriminate|discriminate].
  - unfold do_cat in H. ropen H. ropen Hy. ropen Hy0. ropen Hy.
    eapply (sh_op w w' r _ (fst (add_type w _))); [right; eauto|exact Hy0|apply Hnt|exact Logic.I|discriminate|discriminate].
  - unfold do_cast in H. ropen H. ropen Hy. apply get_node_ok in Hx. apply get_type_ok in Hx0.
    destruct (Nat.eqb ty (n_ty x)); [injection Hy0 as <- <-; apply sh_same; eauto; discriminate|].
    eapply sh_op; [left; reflexivity|exact Hy0|eauto|exact Logic.I|discriminate|discriminate].
  - unfold do_mux in H. destruct args; [discriminate|]. ropen H. apply get_node_ok in Hx.
    eapply sh_op; [left; reflexivity|exact Hy|eapply Hty; eauto|exact Logic.I|discriminate|discriminate].
  - unfold do_offset in H. ropen H. apply get_node_ok in Hx. destruct (n_vk x); try discriminate.
    eapply sh_op; [left; reflexivity|exact Hy|eapply Hty; eauto|exact Logic.I|discriminate|discriminate].
  - ropen H. injection Hy as <- <-. unfold do_connect in Hx. ropen Hx. apply get_node_ok in Hx0. eapply sh_connect; eauto.
Qed.

(** ** names *)
Lemma names_add_node w k o ty vk name w' n : add_node w k o ty vk name = Ok (w', n) ->
  forall k', names w' k' = if decide (k' = k /\ name <> EmptyString) then (name, n) :: names w k' else names w k'.
Proof.
  intros H k'. apply add_node_inv in H as (g & Hg & -> & ->). unfold names. cbn [w_kern]. destruct (decide (k' = k)) as [->|N].
  - rewrite lookup_insert, Hg. cbn. destruct (String.eqb_spec name EmptyString); destruct (decide _) as [X|X]; try reflexivity; exfalso; tauto.
  - rewrite lookup_insert_ne by auto. rewrite decide_False by tauto. reflexivity.
Qed.
Lemma add_chan_kern w k s t i b w' : add_chan w k s t i b = Ok w' -> w_kern w' = w_kern w.
Proof. intros H. apply add_chan_inv in H as [H _]. apply add_chan_nodes_heads in H as (_ & _ & _ & -> & _). reflexivity. Qed.
Lemma add_chans_kern : forall args w k t i w', add_chans w k args t i = Ok w' -> w_kern w' = w_kern w.
Proof.
  induction args as [|a args IH]; intros w k t i w' H; cbn in H; [injection H as <-; reflexivity|].
  ropen H. rewrite (IH _ _ _ _ _ Hy). eapply add_chan_kern; eauto.
Qed.
Lemma names_mk_op w k o ty args w' n : mk_op w k o ty args = Ok (w', n) -> forall k', names w' k' = names w k'.
Proof.
  unfold mk_op. destruct (forallb _ _); [|discriminate]. intros H k'. ropen H. destruct x as [w1 n1]. ropen Hy. injection Hy0 as -> ->.
  unfold names at 1. rewrite (add_chans_kern _ _ _ _ _ _ Hx0). fold (names w1 k'). rewrite (names_add_node _ _ _ _ _ _ _ _ Hx). rewrite decide_False by tauto. reflexivity.
Qed.
Lemma named_ext w w' r : preserved w w' r -> named w -> 
  (forall k s n, (s, n) ∈ names w' k -> (s, n) ∈ names w k \/ exists nd, w_nodes w' !! n = Some nd /\ n_name nd = s /\ n_meta nd = k /\ (n_op nd = IN \/ n_op nd = OUT)) -> named w'.
Proof.
  intros (P1 & _) N H k s n X. destruct (H k s n X) as [Y|Y]; [|exact Y]. destruct (N k s n Y) as (nd & Hn & A & B & D).
  destruct (P1 n nd Hn) as (nd' & Hn' & E1 & E2 & E3 & E4 & E5). exists nd'. split; [exact Hn'|]. rewrite <- E1, <- E4, <- E5. auto.
Qed.
Lemma step_named w c w' r : step F w c = Ok (w', r) -> WF w -> named w -> named w'.
Proof.
  intros H W N. destruct (step_ext F _ _ _ _ H W) as [[W' P] _]. eapply (named_ext w w' r); eauto. intros k s n X.
  pose proof (step_shape _ _ _ _ H W) as S. inversion S; subst.
  - left. unfold do_kernel in H0. injection H0 as -> ->. unfold names in X. cbn in X. destruct (decide (k = w_next w)) as [->|Nk]; [rewrite lookup_insert in X; inversion X|].
    rewrite lookup_insert_ne in X by auto. exact X.
  - left. injection H0 as -> ->. exact X.
  - rewrite (names_add_node _ _ _ _ _ _ _ _ H0) in X. destruct (decide (k = k0 /\ name <> EmptyString)) as [[-> Ne]|]; [|auto]. apply elem_of_cons in X as [X|X]; [|auto].
    injection X as -> ->. right. apply add_node_inv in H0 as (g & Hg & -> & ->). cbn [w_nodes]. rewrite lookup_insert. eexists. split; [reflexivity|]. cbn. repeat split. destruct H3 as [->|[->|[-> E]]]; auto; contradiction.
  - left. rewrite (names_mk_op _ _ _ _ _ _ _ H1) in X. destruct H0 as [->|(t & ->)]; exact X.
  - left. unfold create_or_use_const in H0. ropen H0. ropen Hy. ropen Hy0. destruct (List.find _ _); [injection Hy as <- <-; exact X|].
    rewrite (names_add_node _ _ _ _ _ _ _ _ Hy) in X. rewrite decide_False in X by tauto. exact X.
  - left. exact X.
  - left. unfold names in X. rewrite (add_chan_kern _ _ _ _ _ _ _ H1) in X. exact X.
Qed.

(** ** locality *)
Lemma add_chan_local w k s t i b w' : consistent w -> add_chan w k s t i b = Ok w' -> (is_const w s \/ owner w s = k) /\ owner w t = k.
Proof.
  intros C H. unfold add_chan in H. ropen H. ropen Hy. ropen Hy0. ropen Hy. apply get_node_ok in Hx. destruct (x1 && x2) eqn:E; [|discriminate]. apply andb_true_iff in E as [-> ->].
  assert (FN : forall k n, find_node w k n = Ok true -> owner w n = k).
  { intros k0 n Hf. unfold find_node in Hf. ropen Hf. apply of_opt_UB in Hx3. injection Hy as Hb. apply bool_decide_eq_true in Hb. destruct (cs_member _ C _ _ _ Hx3 Hb) as (nd & Hn & Em). unfold owner. rewrite Hn. exact Em. }
  split; [|exact (FN _ _ Hx2)]. destruct (n_vk x) eqn:Ev; [right|right|left; exists x; auto]; injection Hx0 as <-; exact (FN _ _ Hx1).
Qed.
Lemma owner_heads w w' n : heads_eq w w' -> is_Some (w_nodes w !! n) -> owner w' n = owner w n.
Proof. intros [A _] (nd & Hn). destruct (A n nd Hn) as (nd' & Hn' & (_ & _ & _ & _ & E)). unfold owner. rewrite Hn, Hn'. auto. Qed.
Lemma const_heads w w' n : heads_eq w w' -> is_const w' n -> is_const w n.
Proof. intros [_ A] (nd & Hn & Hv). destruct (A n nd Hn) as (nd' & Hn' & (_ & _ & E & _)). exists nd'. split; [exact Hn'|congruence]. Qed.

Lemma add_chans_local : forall args w k t i w', add_chans w k args t i = Ok w' -> consistent w -> forall a, a ∈ args -> is_const w a \/ owner w a = k.
Proof.
  induction args as [|b args IH]; intros w k t i w' H C a Ha; cbn in H; [inversion Ha|]. ropen H. apply elem_of_cons in Ha as [->|Ha].
  - apply (add_chan_local _ _ _ _ _ _ _ C Hx).
  - apply add_chan_inv in Hx as [Hx _]. pose proof (add_chan_nodes_consistent _ _ _ _ _ _ Hx C) as C1. pose proof (add_chan_nodes_heads _ _ _ _ _ _ Hx) as (Hh & _).
    assert (La : is_Some (w_nodes w !! a)). { destruct (add_chans_spec _ _ _ _ _ _ Hy C1) as (_ & _ & _ & _ & _ & _ & _ & _ & J). destruct (J a Ha) as (nd & Hn). destruct Hh as [_ Hh]. destruct (Hh a nd Hn) as (x0 & Hx0 & _). eauto. }
    destruct (IH _ _ _ _ _ Hy C1 a Ha) as [X|X]; [left; eapply const_heads; eauto|right]. rewrite <- X. symmetry. apply owner_heads; assumption.
Qed.
Lemma mk_op_local w k o ty args w' n : mk_op w k o ty args = Ok (w', n) -> is_Some (w_types w !! ty) -> (forall v, o <> CONST v) -> consistent w -> forall a, a ∈ args -> is_const w a \/ owner w a = k.
Proof.
  intros H Hty Ho C a Ha. pose proof (mk_op_spec _ _ _ _ _ _ _ H Hty Ho C) as P. unfold mk_op in H. destruct (forallb _ _); [|discriminate]. ropen H. destruct x as [w1 n1]. ropen Hy. injection Hy0 as -> ->.
  assert (C1 : consistent w1). { eapply add_node_consistent; eauto; [|discriminate]. split; [intros [v Hv]; destruct (Ho v Hv)|discriminate]. }
  assert (La : is_Some (w_nodes w !! a)) by (eapply mp_args; eauto). pose proof (add_chans_local _ _ _ _ _ _ Hx0 C1 a Ha) as D.
  apply add_node_inv in Hx as (g & Hg & E1 & ->). assert (Na : a <> n) by (intros ->; pose proof (cs_fresh_n _ C _ La); lia).
  destruct D as [(nd & Hn & Hv)|D]; [left|right].
  - cbn [w_nodes] in Hn. rewrite lookup_insert_ne in Hn by auto. exists nd. auto.
  - unfold owner in D. cbn [w_nodes] in D. rewrite lookup_insert_ne in D by auto. exact D.
Qed.
Lemma preserved_owner w w' r n : preserved w w' r -> is_Some (w_nodes w !! n) -> owner w' n = owner w n.
Proof. intros (P & _) (nd & Hn). destruct (P n nd Hn) as (nd' & Hn' & (_ & _ & _ & _ & E)). unfold owner. rewrite Hn, Hn'. auto. Qed.
Lemma preserved_isconst w w' r n : preserved w w' r -> is_const w n -> is_const w' n.
Proof. intros (P & _) (nd & Hn & Hv). destruct (P n nd Hn) as (nd' & Hn' & (_ & _ & E & _)). exists nd'. split; [exact Hn'|congruence]. Qed.
Lemma local_ext w w' r : WF w -> WF w' -> preserved w w' r -> local w -> (forall a, a ∈ operands w' r -> is_const w' a \/ owner w' a = owner w' r) -> local w'.
Proof.
  intros W W' P L H m a Ha. destruct (decide (m = r)) as [->|N]; [exact (H a Ha)|].
  destruct (operands_live w' m a (proj1 W') Ha) as [_ Lm]. pose proof P as (_ & P2 & _ & P4). assert (Lm' := P4 m Lm N).
  unfold operands in Ha. rewrite (P2 m Lm' N) in Ha. fold (operands w m) in Ha. destruct (operands_live w m a (proj1 W) Ha) as [La _].
  destruct (L m a Ha) as [X|X]; [left; eapply preserved_isconst; eauto|right]. rewrite (preserved_owner _ _ _ _ P La), (preserved_owner _ _ _ _ P Lm'). exact X.
Qed.
Lemma step_local w c w' r : step F w c = Ok (w', r) -> WF w -> local w -> local w'.
Proof.
  intros H W L. destruct (step_ext F _ _ _ _ H W) as [[W' P] _]. eapply (local_ext w w' r); eauto. intros a Ha.
  pose proof (step_shape _ _ _ _ H W) as S. inversion S; subst.
  - exfalso. injection H0 as -> ->. unfold operands, in_chans in Ha. cbn in Ha. destruct (w_nodes w !! w_next w) eqn:E; [|inversion Ha]. pose proof (cs_fresh_n _ (proj1 W) (w_next w) ltac:(eauto)). lia.
  - injection H0 as -> ->. assert (Ha' : a ∈ operands w (length (w_types w))) by exact Ha. exact (L _ _ Ha').
  - exfalso. unfold operands in Ha. rewrite (in_chans_fresh _ _ _ _ _ _ _ _ H0) in Ha. inversion Ha.
  - assert (W1 : WF w1) by (destruct H0 as [->|(t & ->)]; [exact W|apply add_type_WF; exact W]).
    assert (NC : forall v, o <> CONST v) by (intros v ->; exact H3).
    pose proof (mk_op_spec _ _ _ _ _ _ _ H1 H2 NC (proj1 W1)) as M. pose proof (mk_op_local _ _ _ _ _ _ _ H1 H2 NC (proj1 W1)) as ML.
    assert (Ha' : a ∈ args). { unfold operands in Ha. rewrite (mp_ins _ _ _ _ _ _ _ _ _ M) in Ha. unfold chans_of in Ha. apply elem_of_list_fmap in Ha as (ch & -> & Hc). apply elem_of_lookup_imap in Hc as (j & y & -> & Hj). eapply elem_of_list_lookup_2; exact Hj. }
    assert (Er : owner w' r = k). { destruct (mp_node _ _ _ _ _ _ _ _ _ M) as (nd & Hn & _ & _ & _ & _ & E). unfold owner. rewrite Hn. exact E. }
    destruct (ML a Ha') as [X|X]; [left; eapply preserved_isconst; [exact (mp_frame _ _ _ _ _ _ _ _ _ M)|exact X]|right].
    rewrite (preserved_owner _ _ _ _ (mp_frame _ _ _ _ _ _ _ _ _ M)); [congruence|]. eapply mp_args; eauto.
  - destruct (create_const_ext _ _ _ _ _ H0 W) as [_ (t & _ & CR)]. destruct CR as [_ [->|(_ & E & _)]]; [exact (L _ _ Ha)|]. unfold operands in Ha. rewrite E in Ha. inversion Ha.
  - exact (L _ _ Ha).
  - destruct (add_chan_local _ _ _ _ _ _ _ (proj1 W) H1) as [D1 D2]. apply add_chan_inv in H1 as [H1 _]. pose proof (add_chan_nodes_in_chans _ _ _ _ _ _ H1 (proj1 W)) as [I1 _].
    pose proof (add_chan_nodes_heads _ _ _ _ _ _ H1) as (Hh & _). unfold operands in Ha. rewrite I1, map_app in Ha. apply elem_of_app in Ha as [Ha|Ha].
    + destruct (operands_live w r a (proj1 W) Ha) as [La Lr]. destruct (L r a Ha) as [X|X]; [left; eapply preserved_isconst; eauto|right]. rewrite !(preserved_owner _ _ _ _ P) by assumption. exact X.
    + apply elem_of_list_singleton in Ha as ->. cbn. assert (Lb : is_Some (w_nodes w !! b)) by (apply add_chan_nodes_inv in H1 as (X & _); exact X).
      destruct D1 as [X|X]; [left; eapply preserved_isconst; eauto|right]. rewrite !(preserved_owner _ _ _ _ P) by eauto. congruence.
Qed.
Lemma init_named : named init_world.
Proof. intros k s n H. unfold names in H. cbn in H. rewrite lookup_empty in H. inversion H. Qed.
Lemma init_local : local init_world.
Proof. intros m a H. unfold operands, in_chans in H. cbn in H. rewrite lookup_empty in H. inversion H. Qed.
End Step.
