(** Invariant and per-call postcondition of the construction API. *)
From Coq Require Import ZArith Bool String Lia.
From stdpp Require Import gmap list.
From Verif Require Import Types TypesProofs Word Value Graph GraphSpec BuilderProofs.

Section B.
Variable F : fltops.

Definition WF (w : world) : Prop := consistent w /\ well_shaped w.

Lemma map_chans_of n args :
  map (fun ch => (c_ind ch, c_conn ch)) (chans_of n args) = map (fun i => (i, false)) (seq 0 (length args)).
Proof.
  unfold chans_of. apply list_eq. intros i.
  rewrite !list_lookup_fmap, list_lookup_imap.
  destruct (args !! i) as [a|] eqn:E.
  - cbn. rewrite lookup_seq_lt by (eapply lookup_lt_Some; eauto). reflexivity.
  - cbn. rewrite lookup_seq_ge by (apply lookup_ge_None; auto). reflexivity.
Qed.

Lemma mk_op_post_shaped w k o ty vk name args w' n :
  mk_op_post w k o ty vk name args w' n -> arity_ok o (length args) ->
  well_shaped w -> well_shaped w'.
Proof.
  intros P Ha W m nd' Hm. destruct (decide (m = n)) as [->|Hne].
  - destruct (mp_node _ _ _ _ _ _ _ _ _ P) as (nd & Hnd & Ho & _).
    rewrite Hm in Hnd. injection Hnd as <-. exists (length args), 0. rewrite Ho.
    split; [exact Ha|]. rewrite (mp_ins _ _ _ _ _ _ _ _ _ P), map_chans_of. cbn. rewrite app_nil_r. reflexivity.
  - destruct (mp_back _ _ _ _ _ _ _ _ _ P _ _ Hm Hne) as (nd & Hnd & (Ho & _)).
    destruct (W _ _ Hnd) as (j & d & A & B). exists j, d. rewrite <- Ho. split; [exact A|].
    destruct (mp_frame _ _ _ _ _ _ _ _ _ P) as (_ & Hf & _ & _). rewrite Hf; eauto.
Qed.

Lemma mk_op_post_WF w k o ty vk name args w' n :
  mk_op_post w k o ty vk name args w' n -> arity_ok o (length args) -> WF w -> WF w'.
Proof.
  intros P Ha [C W]. split; [apply P|]. eapply mk_op_post_shaped; eauto.
Qed.

Lemma mk_op_post_new w k o ty vk name args w' n t :
  mk_op_post w k o ty vk name args w' n -> w_types w !! ty = Some t ->
  new_node w w' n k o t vk name args.
Proof.
  intros P Ht. split; [apply P|]. split; [|split; apply P].
  destruct (mp_node _ _ _ _ _ _ _ _ _ P) as (nd & Hnd & ? & ? & ? & ? & ?).
  exists nd. repeat split; auto. rewrite (mp_types _ _ _ _ _ _ _ _ _ P). congruence.
Qed.

Definition ext (w w' : world) (r : nat) : Prop := WF w' /\ preserved w w' r.

Lemma mk_op_ext w k o ty args w' n :
  mk_op w k o ty args = Ok (w', n) -> is_Some (w_types w !! ty) ->
  (forall v, o <> CONST v) -> arity_ok o (length args) -> WF w ->
  ext w w' n /\ mk_op_post w k o ty VStream EmptyString args w' n.
Proof.
  intros H Ht Ho Ha [C W]. pose proof (mk_op_spec _ _ _ _ _ _ _ H Ht Ho C) as P.
  split; [|exact P]. split; [eapply mk_op_post_WF; eauto; split; auto|apply P].
Qed.

Lemma add_type_WF w t : WF w -> WF (fst (add_type w t)).
Proof.
  intros [C W]. split; [|exact W]. eapply (add_type_consistent w t); [reflexivity|exact C].
Qed.

Lemma get_node_ok w n nd : get_node w n = Ok nd -> w_nodes w !! n = Some nd.
Proof. apply of_opt_UB. Qed.
Lemma get_type_ok w n nd : get_type w n = Ok nd -> w_types w !! n = Some nd.
Proof. apply of_opt_UB. Qed.
Lemma of_cval_ok c v : of_cval c = Ok v -> c = CV v.
Proof. destruct c; cbn; congruence. Qed.

Lemma const_value_some nd v : const_value nd = Some v <-> n_vk nd = VConst /\ n_op nd = CONST v.
Proof.
  unfold const_value. destruct (n_vk nd), (n_op nd); split; try discriminate; intuition congruence.
Qed.
Lemma const_value_none w n nd : consistent w -> w_nodes w !! n = Some nd ->
  const_value nd = None -> ~ is_const w n.
Proof.
  intros C Hn Hc (nd' & Hn' & Hv). rewrite Hn in Hn'. injection Hn' as <-.
  apply (cs_const _ C _ _ Hn) in Hv as Hv'. destruct Hv' as [v Ho].
  unfold const_value in Hc. rewrite Hv, Ho in Hc. discriminate.
Qed.

Lemma find_some_elem {A} (f : A -> bool) l x : List.find f l = Some x -> x ∈ l /\ f x = true.
Proof. intros H. apply find_some in H as [H1 H2]. split; [now apply elem_of_list_In|exact H2]. Qed.

Lemma const_matches_spec w t v n : const_matches w t v n = true <-> const_of w n t v.
Proof.
  unfold const_matches, const_of. split.
  - destruct (w_nodes w !! n) as [nd|] eqn:En; [|discriminate].
    destruct (n_op nd) eqn:Eo; try discriminate. destruct (n_vk nd) eqn:Ev; try discriminate.
    destruct (w_types w !! n_ty nd) as [t'|] eqn:Et; [|discriminate].
    intros H. apply andb_true_iff in H as [H1 H2]. apply ty_eqb_eq in H1 as ->. apply Z.eqb_eq in H2 as ->.
    exists nd. auto.
  - intros (nd & -> & -> & -> & ->). rewrite Z.eqb_refl, andb_true_r. now apply ty_eqb_eq.
Qed.

(** createOrUseConst *)
Lemma create_const_ext w ty v w' r :
  create_or_use_const w ty v = Ok (w', r) -> WF w ->
  ext w w' r /\ exists t, w_types w !! ty = Some t /\ const_result w w' r t v.
Proof.
  unfold create_or_use_const. intros H W. ropen H. apply get_type_ok in Hx. ropen Hy. apply of_opt_UB in Hx0.
  ropen Hy0. apply of_opt_UB in Hx1. rename x into t, x0 into k, x1 into g.
  destruct (List.find _ _) as [n|] eqn:E.
  - injection Hy as <- <-. apply find_some_elem in E as [Hin E]. apply const_matches_spec in E.
    split; [split; [exact W|apply preserved_refl]|]. exists t. split; [auto|]. split; auto.
  - assert (P : mk_op_post w k (CONST v) ty VConst EmptyString [] w' r).
    { eapply add_node_post; eauto; [split; eauto|apply W]. }
    split; [split; [eapply mk_op_post_WF; eauto; reflexivity|apply P]|].
    exists t. split; [exact Hx|]. split.
    + destruct (mp_node _ _ _ _ _ _ _ _ _ P) as (nd & Hnd & A & B & D & _).
      exists nd. repeat split; auto. rewrite (mp_types _ _ _ _ _ _ _ _ _ P). congruence.
    + right. split; [apply P|]. split; [apply P|]. intros n Hc.
      assert (Hin : n ∈ g_starts g).
      { destruct Hc as (nd & Hn & Hv & Ho & Ht). destruct W as [C _].
        apply (cs_starts _ C _ _ _ Hx1). split; [|eauto].
        pose proof (cs_const_top _ C _ _ Hn Hv) as Htop. rewrite Hx0 in Htop. injection Htop as ->.
        destruct (cs_owned _ C _ _ Hn) as (g' & Hg' & Hin). congruence. }
      apply elem_of_list_In in Hin. apply const_matches_spec in Hc.
      pose proof (find_none _ _ E n Hin). congruence.
Qed.

Lemma u16_mkBool : mkBool = TFixed false 1 0.
Proof. reflexivity. Qed.

Theorem step_ext w c w' r :
  step F w c = Ok (w', r) -> WF w -> ext w w' r /\ call_post F w c w' r.
Proof.
  intros H W. pose proof W as [C Wsh].
  assert (Hnt : forall n nd, w_nodes w !! n = Some nd -> is_Some (w_types w !! n_ty nd)) by apply (cs_type _ C).
  assert (Hto : forall n nd t, w_nodes w !! n = Some nd -> w_types w !! n_ty nd = Some t -> type_of w n = Some t).
  { intros n nd t Hn Ht. unfold type_of. now rewrite Hn. }
  assert (Hown : forall n nd, w_nodes w !! n = Some nd -> owner w n = n_meta nd).
  { intros n nd Hn. unfold owner. now rewrite Hn. }
  assert (IO : forall k o s name ty, do_io w k o s name ty = Ok (w', r) -> arity_ok o 0 ->
     (forall v, o <> CONST v) ->
     ext w w' r /\ exists t, w_types w !! ty = Some t /\
      new_node w w' r k o t (if s then VScalar else VStream) name []).
  { intros k o s name ty Hio Ha Hc. unfold do_io in Hio. ropen Hio. apply get_type_ok in Hx.
    assert (P : mk_op_post w k o ty (if s then VScalar else VStream) name [] w' r).
    { eapply add_node_post; eauto.
      - split; [intros [v Hv]; destruct (Hc v Hv)|destruct s; discriminate].
      - destruct s; discriminate. }
    split; [split; [eapply mk_op_post_WF; eauto|apply P]|]. exists x. split; [exact Hx|].
    eapply mk_op_post_new; eauto. }
  destruct c; cbn [step call_post] in *.
  - (* KNew *)
    injection H as <- <-.
    assert (Hfk : w_kern w !! w_next w = None).
    { destruct (w_kern w !! w_next w) eqn:E; [|reflexivity].
      assert (w_next w < w_next w) by (apply (cs_fresh_k _ C); eauto). lia. }
    split; [split; [split|]|].
    + constructor; cbn [set_next set_top set_stack set_kern w_nodes w_chans w_kern w_top w_types w_next w_stack]; try apply C.
      * intros k g n Hk Hn. apply lookup_insert_Some in Hk as [[<- <-]|[_ Hk]]; [apply elem_of_nil in Hn as []|eapply cs_member; eauto].
      * intros n nd Hn. destruct (cs_owned _ C _ _ Hn) as (g & Hg & Hin). exists g. split; [|exact Hin].
        rewrite lookup_insert_ne by congruence. exact Hg.
      * intros k g Hk. apply lookup_insert_Some in Hk as [[<- <-]|[_ Hk]]; [constructor|eapply cs_nd_nodes; eauto].
      * intros k g n Hk. apply lookup_insert_Some in Hk as [[<- <-]|[_ Hk]].
        -- cbn. split; [intros Hn; apply elem_of_nil in Hn as []|intros [Hn _]; apply elem_of_nil in Hn as []].
        -- eapply cs_starts; eauto.
      * intros k g Hk. apply lookup_insert_Some in Hk as [[<- <-]|[_ Hk]]; [constructor|eapply cs_nd_starts; eauto].
      * intros n nd Hn Hv. pose proof (cs_const_top _ C _ _ Hn Hv) as Ht. rewrite Ht.
        destruct (w_stack w) eqn:Es; [|reflexivity].
        rewrite (cs_stack _ C Es) in Ht. discriminate.
      * intros n Hn. pose proof (cs_fresh_n _ C _ Hn). lia.
      * intros n Hn. pose proof (cs_fresh_c _ C _ Hn). lia.
      * intros n Hn. apply lookup_insert_is_Some in Hn as [->|[_ Hn]]; [lia|]. pose proof (cs_fresh_k _ C _ Hn). lia.
      * intros k Hk. destruct (decide (k = w_next w)) as [->|Hne]; [rewrite lookup_insert; eauto|].
        rewrite lookup_insert_ne by auto.
        destruct (w_stack w), (w_top w) eqn:Et; try congruence. apply (cs_top _ C). congruence.
      * discriminate.
    + exact Wsh.
    + split; [|split; [|split]]; auto. intros n nd Hn. exists nd. split; [exact Hn|apply same_head_refl].
    + cbn. rewrite lookup_insert. auto.
  - (* CType *)
    injection H as <- <-. split; [split; [apply (add_type_WF w t W)|apply (add_type_preserved w t)]|].
    cbn. split; [apply lookup_ge_None; lia|]. rewrite lookup_app_r, Nat.sub_diag by lia. auto.
  - eapply IO; [exact H|reflexivity|discriminate].
  - eapply IO; [exact H|reflexivity|discriminate].
  - eapply IO; [exact H|reflexivity|discriminate].
  - (* CConst *)
    apply create_const_ext in H as [E (t & Ht & Hc)]; [|exact W]. split; [exact E|]. exists t. auto.
  - (* CBin *)
    unfold do_bin in H. ropen H. ropen Hy. apply get_node_ok in Hx, Hx0. rename x into na, x0 into nb.
    destruct (Hnt _ _ Hx) as [ta Hta].
    destruct (const_value na) as [va|] eqn:Ea, (const_value nb) as [vb|] eqn:Eb.
    1: { ropen Hy0. apply get_type_ok in Hx1. rewrite Hta in Hx1. injection Hx1 as <-.
         ropen Hy. apply of_cval_ok in Hx1. apply create_const_ext in Hy0 as [E (t & Ht & Hc)]; [|exact W].
         split; [exact E|]. left. apply const_value_some in Ea as [? ?], Eb as [? ?].
         destruct (Hnt _ _ Hx0) as [tb Htb].
         exists ta, tb, va, vb, x. split; [exists na; auto|]. split; [exists nb; auto|]. split; [exact Hx1|].
         congruence. }
    all: assert (Hnc : ~ (is_const w a /\ is_const w b)) by
           (intros [Q1 Q2]; first [exact (const_value_none _ _ _ C Hx Ea Q1)|exact (const_value_none _ _ _ C Hx0 Eb Q2)]).
    all: assert (Hk : (match const_value na with Some _ => n_meta nb | None => n_meta na end)
             = (if is_constb w a then owner w b else owner w a))
        by (rewrite Ea; unfold is_constb, owner; rewrite Hx, Hx0;
            first [apply const_value_some in Ea as [-> _]; reflexivity
                  |destruct (n_vk na) eqn:Ev; try reflexivity; exfalso;
                   eapply (const_value_none _ _ _ C Hx Ea); exists na; auto]).
    all: rewrite Ea in Hk; rewrite Hk in Hy0; clear Hk.
    all: destruct (is_comp o) eqn:Ec;
      [ set (w1 := fst (add_type w mkBool)) in *;
        assert (W1 : WF w1) by (apply add_type_WF; exact W);
        change (add_type w mkBool) with (w1, length (w_types w)) in Hy0; cbv beta iota in Hy0;
        assert (Hb : w_types w1 !! length (w_types w) = Some mkBool)
          by (cbn; rewrite lookup_app_r, Nat.sub_diag by lia; reflexivity);
        apply mk_op_ext in Hy0 as [[E1 E2] P]; [|eauto|discriminate|reflexivity|exact W1];
        split; [split; [exact E1|eapply preserved_trans; [apply (add_type_preserved w mkBool)|exact E2]]|];
        right; exists ta; split; [eauto|split; [exact Hnc|]];
        eapply (mk_op_post_new w1); [exact P|exact Hb]
      | apply mk_op_ext in Hy0 as [[E1 E2] P]; [|eauto|discriminate|reflexivity|exact W];
        split; [split; auto|]; right; exists ta; split; [eauto|split; [exact Hnc|]];
        eapply mk_op_post_new; eauto ].
  - (* CUn *)
    unfold do_un in H. ropen H. apply get_node_ok in Hx. rename x into na.
    destruct (Hnt _ _ Hx) as [ta Hta]. rewrite ?(Hown _ _ Hx).
    destruct (const_value na) as [va|] eqn:Ea.
    + ropen Hy. apply get_type_ok in Hx0. rewrite Hta in Hx0. injection Hx0 as <-.
      ropen Hy0. apply of_cval_ok in Hx0. apply create_const_ext in Hy as [E (t & Ht & Hc)]; [|exact W].
      split; [exact E|]. left. apply const_value_some in Ea as [? ?].
      exists ta, va, x. split; [exists na; auto|]. split; [exact Hx0|]. congruence.
    + pose proof (const_value_none _ _ _ C Hx Ea).
      apply mk_op_ext in Hy as [[E1 E2] P]; [|eauto|discriminate|reflexivity|exact W].
      split; [split; auto|]. right. exists ta. split; [eauto|split; [auto|]]. rewrite ?(Hown _ _ Hx); eapply mk_op_post_new; eauto.
  - (* CShift *)
    unfold do_shift in H. ropen H. apply get_node_ok in Hx. rename x into na.
    destruct (Hnt _ _ Hx) as [ta Hta]. rewrite ?(Hown _ _ Hx).
    destruct (const_value na) as [va|] eqn:Ea.
    + ropen Hy. apply of_cval_ok in Hx0. apply create_const_ext in Hy0 as [E (t & Ht & Hc)]; [|exact W].
      split; [exact E|]. left. apply const_value_some in Ea as [? ?].
      exists ta, va, x. split; [exists na; auto|]. split; [congruence|exact Hx0].
    + pose proof (const_value_none _ _ _ C Hx Ea).
      apply mk_op_ext in Hy as [[E1 E2] P]; [|eauto|destruct left; discriminate|destruct left; reflexivity|exact W].
      split; [split; auto|]. right. exists ta. split; [eauto|split; [auto|]].
      destruct left; rewrite ?(Hown _ _ Hx); eapply mk_op_post_new; eauto.
  - (* CSlice *)
    unfold do_slice in H. ropen H. ropen Hy. apply get_node_ok in Hx. apply get_type_ok in Hx0.
    rename x into na, x0 into ta.
    change (first mod 65536)%Z with (u16 first). change (second mod 65536)%Z with (u16 second).
    set (f := u16 first) in *. set (s := u16 second) in *.
    assert (Hl : (if (s <? f)%Z then f else s) = Z.max f s) by (destruct (Z.ltb_spec s f); lia).
    assert (Hr : (if (s <? f)%Z then s else f) = Z.min f s) by (destruct (Z.ltb_spec s f); lia).
    rewrite Hl, Hr in Hy0.
    destruct (Z.leb_spec (total_bits ta) (Z.max f s)); [discriminate|].
    replace (Z.max f s - Z.min f s)%Z with (Z.abs (f - s))%Z in Hy0 by lia.
    set (tr := mkRaw (Z.abs (f - s) + 1)) in *.
    set (w1 := fst (add_type w tr)) in *.
    assert (W1 : WF w1) by (apply add_type_WF; exact W).
    change (add_type w tr) with (w1, length (w_types w)) in Hy0. cbv beta iota in Hy0.
    assert (Hb : w_types w1 !! length (w_types w) = Some tr)
          by (cbn; rewrite lookup_app_r, Nat.sub_diag by lia; reflexivity).
    apply mk_op_ext in Hy0 as [[E1 E2] P]; [|eauto|discriminate|reflexivity|exact W1].
    split; [split; [exact E1|eapply preserved_trans; [apply (add_type_preserved w tr)|exact E2]]|].
    exists ta. split; [eauto|]. split; [lia|]. rewrite ?(Hown _ _ Hx); eapply (mk_op_post_new w1); [exact P|exact Hb].
  - (* CCat *)
    unfold do_cat in H. ropen H. ropen Hy. ropen Hy0. ropen Hy. apply get_node_ok in Hx, Hx0. apply get_type_ok in Hx1, Hx2.
    rename x into na, x0 into nb, x1 into ta, x2 into tb.
    set (tr := mkRaw (total_bits ta + total_bits tb)) in *.
    set (w1 := fst (add_type w tr)) in *.
    assert (W1 : WF w1) by (apply add_type_WF; exact W).
    change (add_type w tr) with (w1, length (w_types w)) in Hy0. cbv beta iota in Hy0.
    assert (Hb : w_types w1 !! length (w_types w) = Some tr)
          by (cbn; rewrite lookup_app_r, Nat.sub_diag by lia; reflexivity).
    apply mk_op_ext in Hy0 as [[E1 E2] P]; [|eauto|discriminate|reflexivity|exact W1].
    split; [split; [exact E1|eapply preserved_trans; [apply (add_type_preserved w tr)|exact E2]]|].
    exists ta, tb. split; [eauto|]. split; [eauto|]. rewrite ?(Hown _ _ Hx); eapply (mk_op_post_new w1); [exact P|exact Hb].
  - (* CCast *)
    unfold do_cast in H. ropen H. ropen Hy. apply get_node_ok in Hx. apply get_type_ok in Hx0.
    destruct (Nat.eqb_spec ty (n_ty x)) as [->|Hne].
    + injection Hy0 as <- <-. split; [split; [exact W|apply preserved_refl]|].
      exists x0. split; [exact Hx0|]. left. split; [reflexivity|]. split; [reflexivity|]. eauto.
    + apply mk_op_ext in Hy0 as [[E1 E2] P]; [|eauto|discriminate|reflexivity|exact W].
      split; [split; auto|]. exists x0. split; [exact Hx0|]. right. rewrite ?(Hown _ _ Hx); eapply mk_op_post_new; eauto.
  - (* CMux *)
    unfold do_mux in H. destruct args as [|a0 rest]; [discriminate|]. ropen H. apply get_node_ok in Hx.
    destruct (Hnt _ _ Hx) as [t Ht].
    apply mk_op_ext in Hy as [[E1 E2] P]; [|eauto|discriminate|cbn; lia|exact W].
    split; [split; auto|]. exists a0, rest, t. split; [reflexivity|]. split; [eauto|]. rewrite ?(Hown _ _ Hx); eapply mk_op_post_new; eauto.
  - (* COffset *)
    unfold do_offset in H. ropen H. apply get_node_ok in Hx. destruct (Hnt _ _ Hx) as [t Ht].
    destruct (n_vk x) eqn:Ev; try discriminate.
    apply mk_op_ext in Hy as [[E1 E2] P]; [|eauto|discriminate|reflexivity|exact W].
    split; [split; auto|]. exists t, x. split; [eauto|]. split; [auto|]. split; [auto|]. rewrite ?(Hown _ _ Hx); eapply mk_op_post_new; eauto.
  - (* CConnect *)
    ropen H. injection Hy as <- <-. unfold do_connect in Hx. ropen Hx. apply get_node_ok in Hx0.
    apply add_chan_inv in Hy as [Hac _].
    pose proof (add_chan_nodes_consistent _ _ _ _ _ _ Hac C) as C1.
    pose proof (add_chan_nodes_in_chans _ _ _ _ _ _ Hac C) as [I1 I2].
    pose proof (add_chan_nodes_heads _ _ _ _ _ _ Hac) as ([Hh Hh'] & E1 & E2 & E3 & _ & E4).
    apply add_chan_nodes_inv in Hac as (Hsb & Hsa & _).
    split; [split; [split|]|].
    + exact C1.
    + intros m nd' Hm. destruct (Hh' _ _ Hm) as (nd & Hnd & (Ho & _)).
      destruct (Wsh _ _ Hnd) as (j & d & A & B). destruct (decide (m = a)) as [->|Hne].
      * exists j, (S d). rewrite <- Ho. split; [exact A|]. rewrite I1, map_app, B. cbn [map c_ind c_conn].
        rewrite <- app_assoc. f_equal. rewrite replicate_S_end. reflexivity.
      * exists j, d. rewrite <- Ho, I2 by auto. auto.
    + split; [exact Hh|]. split; [intros n _ Hne; auto|]. split; [intros t ty Ht; congruence|].
      intros n [nd Hn] _. destruct (Hh' _ _ Hn) as (y & ? & _). eauto.
    + split; [reflexivity|]. split; [exact Hsa|]. split; [exact Hsb|]. split; [exact I1|].
      intros n. split; intros [nd Hn]; [destruct (Hh' _ _ Hn) as (y & ? & _)|destruct (Hh _ _ Hn) as (y & ? & _)]; eauto.
Qed.

Lemma init_WF : WF init_world.
Proof.
  split; [constructor; cbn; intros; try (rewrite lookup_empty in *; discriminate); try discriminate; auto|].
  - destruct H as [x Hx]. rewrite lookup_empty in Hx. discriminate.
  - destruct H as [x Hx]. rewrite lookup_empty in Hx. discriminate.
  - destruct H as [x Hx]. rewrite lookup_empty in Hx. discriminate.
  - intros n nd Hn. cbn in Hn. rewrite lookup_empty in Hn. discriminate.
Qed.

Theorem run_WF : forall h w w', run F w h = Ok w' -> WF w -> WF w'.
Proof.
  induction h as [|c h IH]; intros w w' H W; cbn [run] in H.
  - injection H as <-. exact W.
  - ropen H. destruct x as [w1 r]. eapply IH; eauto. eapply step_ext; eauto.
Qed.

End B.
