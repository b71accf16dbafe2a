(** Proofs about the construction API of [Graph.v]. *)
From Coq Require Import ZArith Bool String Lia.
From stdpp Require Import gmap list.
From Verif Require Import Types Word Value Graph GraphSpec.

Ltac inv H := inversion H; subst; clear H.

Lemma rbind_ok {A B} (m : res A) (f : A -> res B) b :
  rbind m f = Ok b -> exists a, m = Ok a /\ f a = Ok b.
Proof. destruct m; cbn; try discriminate; eauto. Qed.
Lemma of_opt_ok {A} (e : res A) o a : (forall x, e <> Ok x) -> of_opt e o = Ok a -> o = Some a.
Proof. intros He. destruct o; cbn; [congruence|]. intros H. exfalso. eapply He; eauto. Qed.
Lemma of_opt_UB {A} (o : option A) a : of_opt UB o = Ok a -> o = Some a.
Proof. apply of_opt_ok. discriminate. Qed.

Ltac ropen H :=
  let a := fresh "x" in let Ha := fresh "Hx" in let Hb := fresh "Hy" in
  apply rbind_ok in H; destruct H as (a & Ha & Hb).

(** ** add_type *)
Lemma add_type_consistent w t w' i : add_type w t = (w', i) -> consistent w -> consistent w'.
Proof.
  intros E C. injection E as <- <-.
  constructor; cbn [set_types w_nodes w_chans w_kern w_top w_types w_next w_stack]; try apply C.
  intros n nd Hn. destruct (cs_type _ C _ _ Hn) as [ty Hty]. exists ty.
  rewrite lookup_app_l; [exact Hty|]. eapply lookup_lt_Some; eauto.
Qed.
Lemma add_type_in_chans w t n : in_chans (fst (add_type w t)) n = in_chans w n.
Proof. reflexivity. Qed.

(** ** add_node *)
Lemma add_node_inv w k o ty vk name w' n :
  add_node w k o ty vk name = Ok (w', n) ->
  exists g, w_kern w !! k = Some g /\ n = w_next w /\
  w' = mkWorld (w_types w) (<[n := mkNode o ty vk name k [] []]> (w_nodes w)) (w_chans w)
       (<[k := mkGraph (n :: g_nodes g) (if is_start_op o then n :: g_starts g else g_starts g)
               (if String.eqb name EmptyString then g_names g else (name, n) :: g_names g)]> (w_kern w))
       (w_stack w) (w_top w) (S n).
Proof.
  unfold add_node. intros H. ropen H. apply of_opt_UB in Hx.
  injection Hy as <- <-. exists x. auto.
Qed.

Lemma add_node_consistent w k o ty vk name w' n :
  add_node w k o ty vk name = Ok (w', n) ->
  is_Some (w_types w !! ty) ->
  ((exists v, o = CONST v) <-> vk = VConst) ->
  (vk = VConst -> w_top w = Some k) ->
  consistent w -> consistent w'.
Proof.
  intros H Hty Hvk Htop C.
  apply add_node_inv in H as (g & Hg & -> & ->).
  assert (Hfresh : w_nodes w !! w_next w = None).
  { destruct (w_nodes w !! w_next w) eqn:E; [|reflexivity].
    assert (w_next w < w_next w) by (apply (cs_fresh_n _ C); eauto). lia. }
  assert (Hnotin : forall k g n, w_kern w !! k = Some g -> n ∈ g_nodes g -> n <> w_next w).
  { intros k0 g0 n0 Hk Hn ->. destruct (cs_member _ C _ _ _ Hk Hn) as (nd & Hnd & _). congruence. }
  assert (Hnotst : forall k g n, w_kern w !! k = Some g -> n ∈ g_starts g -> n <> w_next w).
  { intros k0 g0 n0 Hk Hn. apply (cs_starts _ C _ _ _ Hk) in Hn as [Hn _]. eauto. }
  constructor; cbn [w_nodes w_chans w_kern w_top w_types w_next w_stack].
  - intros c ch Hc. destruct (cs_src _ C _ _ Hc) as (nd & Hnd & Hin).
    exists nd. split; [|exact Hin]. rewrite lookup_insert_ne by congruence. exact Hnd.
  - intros c ch Hc. destruct (cs_tgt _ C _ _ Hc) as (nd & Hnd & Hin).
    exists nd. split; [|exact Hin]. rewrite lookup_insert_ne by congruence. exact Hnd.
  - intros m nd c Hm Hin. apply lookup_insert_Some in Hm as [[<- <-]|[_ Hm]].
    + cbn in Hin. apply elem_of_nil in Hin as [].
    + eapply cs_outs; eauto.
  - intros m nd c Hm Hin. apply lookup_insert_Some in Hm as [[<- <-]|[_ Hm]].
    + cbn in Hin. apply elem_of_nil in Hin as [].
    + eapply cs_ins; eauto.
  - intros m nd Hm. apply lookup_insert_Some in Hm as [[<- <-]|[_ Hm]]; [constructor|eapply cs_nd_ins; eauto].
  - intros m nd Hm. apply lookup_insert_Some in Hm as [[<- <-]|[_ Hm]]; [constructor|eapply cs_nd_outs; eauto].
  - intros k' g' m Hk Hm. apply lookup_insert_Some in Hk as [[<- <-]|[Hne Hk]].
    + cbn [g_nodes] in Hm. apply elem_of_cons in Hm as [->|Hm].
      * rewrite lookup_insert. eexists; split; [reflexivity|reflexivity].
      * rewrite lookup_insert_ne by (intros E; apply (Hnotin _ _ _ Hg Hm); auto).
        eapply cs_member; eauto.
    + rewrite lookup_insert_ne by (intros E; apply (Hnotin _ _ _ Hk Hm); auto).
      eapply cs_member; eauto.
  - intros m nd Hm. apply lookup_insert_Some in Hm as [[<- <-]|[_ Hm]].
    + cbn [n_meta]. rewrite lookup_insert. eexists; split; [reflexivity|]. cbn. left.
    + destruct (cs_owned _ C _ _ Hm) as (g' & Hg' & Hin).
      destruct (decide (n_meta nd = k)) as [Hk|Hne].
      * rewrite Hk in Hg' |- *. rewrite lookup_insert. eexists; split; [reflexivity|]. cbn [g_nodes].
        rewrite Hg in Hg'. injection Hg' as <-. right. exact Hin.
      * rewrite lookup_insert_ne by auto. eauto.
  - intros k' g' Hk. apply lookup_insert_Some in Hk as [[<- <-]|[Hne Hk]].
    + cbn [g_nodes]. constructor; [|eapply cs_nd_nodes; eauto].
      intros Hin. apply (Hnotin _ _ _ Hg Hin). reflexivity.
    + eapply cs_nd_nodes; eauto.
  - intros k' g' m Hk. apply lookup_insert_Some in Hk as [[<- <-]|[Hne Hk]].
    + cbn [g_nodes g_starts]. destruct (decide (m = w_next w)) as [->|Hm].
      * rewrite lookup_insert. split.
        -- intros Hin. split; [left|]. eexists; split; [reflexivity|]. cbn [n_op].
           destruct o; cbn in Hin; try (apply (Hnotst _ _ _ Hg) in Hin; congruence); eauto.
        -- intros [_ (nd & E & Ho)]. injection E as <-. cbn [n_op] in Ho.
           destruct Ho as [->|[v ->]]; cbn; left.
      * rewrite lookup_insert_ne by auto. rewrite elem_of_cons.
        assert (Hst : m ∈ (if is_start_op o then w_next w :: g_starts g else g_starts g) <-> m ∈ g_starts g).
        { destruct (is_start_op o); [|tauto]. rewrite elem_of_cons. intuition congruence. }
        rewrite Hst, (cs_starts _ C _ _ _ Hg). intuition congruence.
    + destruct (decide (m = w_next w)) as [->|Hm].
      * split; [intros Hin; exfalso; eapply Hnotst; eauto|intros [Hin _]; exfalso; eapply Hnotin; eauto].
      * rewrite lookup_insert_ne by auto. eapply cs_starts; eauto.
  - intros k' g' Hk. apply lookup_insert_Some in Hk as [[<- <-]|[Hne Hk]].
    + cbn [g_starts]. destruct (is_start_op o); [|eapply cs_nd_starts; eauto].
      constructor; [|eapply cs_nd_starts; eauto].
      intros Hin. apply (Hnotst _ _ _ Hg Hin). reflexivity.
    + eapply cs_nd_starts; eauto.
  - intros m nd Hm. apply lookup_insert_Some in Hm as [[<- <-]|[_ Hm]]; [exact Hty|eapply cs_type; eauto].
  - intros m nd Hm. apply lookup_insert_Some in Hm as [[<- <-]|[_ Hm]]; [exact Hvk|eapply cs_const; eauto].
  - intros m nd Hm. apply lookup_insert_Some in Hm as [[<- <-]|[_ Hm]]; [exact Htop|eapply cs_const_top; eauto].
  - intros m Hm. apply lookup_insert_is_Some in Hm as [->|[_ Hm]]; [lia|].
    pose proof (cs_fresh_n _ C _ Hm). lia.
  - intros m Hm. pose proof (cs_fresh_c _ C _ Hm). lia.
  - intros m Hm. apply lookup_insert_is_Some in Hm as [->|[_ Hm]].
    + pose proof (cs_fresh_k _ C _ (ex_intro _ _ Hg)). lia.
    + pose proof (cs_fresh_k _ C _ Hm). lia.
  - intros k' Hk'. destruct (decide (k = k')) as [->|]; [rewrite lookup_insert; eauto|].
    rewrite lookup_insert_ne by auto. apply (cs_top _ C _ Hk').
  - apply (cs_stack _ C).
Qed.

(** ** add_chan_nodes *)
Lemma add_chan_nodes_inv w s t i b w' :
  add_chan_nodes w s t i b = Ok w' ->
  is_Some (w_nodes w !! s) /\ is_Some (w_nodes w !! t) /\
  w' = mkWorld (w_types w)
       (alter (fun nd => set_ins nd (n_ins nd ++ [w_next w])) t
        (alter (fun nd => set_outs nd (n_outs nd ++ [w_next w])) s (w_nodes w)))
       (<[w_next w := mkChan s t i b]> (w_chans w))
       (w_kern w) (w_stack w) (w_top w) (S (w_next w)).
Proof.
  unfold add_chan_nodes, get_node. intros H. ropen H. ropen Hy.
  apply of_opt_UB in Hx, Hx0. injection Hy0 as <-. rewrite Hx, Hx0. eauto.
Qed.

Lemma alter2_lookup (m : gmap nat node) s t c n nd' :
  alter (fun nd => set_ins nd (n_ins nd ++ [c])) t
        (alter (fun nd => set_outs nd (n_outs nd ++ [c])) s m) !! n = Some nd' ->
  exists nd, m !! n = Some nd /\ same_head nd nd' /\
    n_ins nd' = n_ins nd ++ (if decide (n = t) then [c] else []) /\
    n_outs nd' = n_outs nd ++ (if decide (n = s) then [c] else []).
Proof.
  intros H. apply lookup_alter_Some in H.
  assert (G : forall x, alter (fun nd => set_outs nd (n_outs nd ++ [c])) s m !! n = Some x ->
     exists nd, m !! n = Some nd /\ same_head nd x /\ n_ins x = n_ins nd /\
       n_outs x = n_outs nd ++ (if decide (n = s) then [c] else [])).
  { intros x Hx. apply lookup_alter_Some in Hx as [(<- & y & Hy & ->)|(Hne & Hy)].
    - exists y. rewrite decide_True by auto. repeat split; auto.
    - exists x. rewrite decide_False by auto. rewrite app_nil_r. repeat split; auto. }
  destruct H as [(<- & x & Hx & ->)|(Hne & Hx)]; apply G in Hx as (nd & Hnd & Hh & Hi & Ho).
  - exists nd. rewrite (decide_True (P := t = t)) by auto. cbn [set_ins n_ins n_outs]. rewrite Hi.
    split; [exact Hnd|]. split; [exact Hh|]. split; [reflexivity|exact Ho].
  - exists nd. rewrite (decide_False (P := n = t)) by auto. rewrite app_nil_r.
    auto.
Qed.

Lemma alter2_lookup_rev (m : gmap nat node) s t c n nd :
  m !! n = Some nd ->
  exists nd', alter (fun nd => set_ins nd (n_ins nd ++ [c])) t
        (alter (fun nd => set_outs nd (n_outs nd ++ [c])) s m) !! n = Some nd' /\ same_head nd nd' /\
    n_ins nd' = n_ins nd ++ (if decide (n = t) then [c] else []) /\
    n_outs nd' = n_outs nd ++ (if decide (n = s) then [c] else []).
Proof.
  intros H.
  destruct (alter (fun nd => set_ins nd (n_ins nd ++ [c])) t
        (alter (fun nd => set_outs nd (n_outs nd ++ [c])) s m) !! n) as [nd'|] eqn:E.
  - pose proof E as E'. apply alter2_lookup in E' as (nd0 & Hnd0 & R). rewrite H in Hnd0.
    injection Hnd0 as <-. eauto.
  - exfalso. apply lookup_alter_None in E. apply lookup_alter_None in E. congruence.
Qed.

Lemma add_chan_nodes_consistent w s t i b w' :
  add_chan_nodes w s t i b = Ok w' -> consistent w -> consistent w'.
Proof.
  intros H C. apply add_chan_nodes_inv in H as ([ns Hs] & [nt Ht] & ->).
  assert (Hfresh : w_chans w !! w_next w = None).
  { destruct (w_chans w !! w_next w) eqn:E; [|reflexivity].
    assert (w_next w < w_next w) by (apply (cs_fresh_c _ C); eauto). lia. }
  assert (Hfo : forall n nd, w_nodes w !! n = Some nd -> w_next w ∉ n_outs nd).
  { intros n nd Hn Hin. destruct (cs_outs _ C _ _ _ Hn Hin) as (ch & E & _). congruence. }
  assert (Hfi : forall n nd, w_nodes w !! n = Some nd -> w_next w ∉ n_ins nd).
  { intros n nd Hn Hin. destruct (cs_ins _ C _ _ _ Hn Hin) as (ch & E & _). congruence. }
  constructor; cbn [w_nodes w_chans w_kern w_top w_types w_next w_stack].
  - intros c ch Hc. apply lookup_insert_Some in Hc as [[<- <-]|[Hne Hc]].
    + cbn [c_src]. destruct (alter2_lookup_rev _ s t (w_next w) _ _ Hs) as (nd' & E & _ & _ & Ho).
      exists nd'. split; [exact E|]. rewrite Ho, decide_True by auto. apply elem_of_app. right. left.
    + destruct (cs_src _ C _ _ Hc) as (nd & Hnd & Hin).
      destruct (alter2_lookup_rev _ s t (w_next w) _ _ Hnd) as (nd' & E & _ & _ & Ho).
      exists nd'. split; [exact E|]. rewrite Ho. apply elem_of_app. auto.
  - intros c ch Hc. apply lookup_insert_Some in Hc as [[<- <-]|[Hne Hc]].
    + cbn [c_tgt]. destruct (alter2_lookup_rev _ s t (w_next w) _ _ Ht) as (nd' & E & _ & Ho & _).
      exists nd'. split; [exact E|]. rewrite Ho, decide_True by auto. apply elem_of_app. right. left.
    + destruct (cs_tgt _ C _ _ Hc) as (nd & Hnd & Hin).
      destruct (alter2_lookup_rev _ s t (w_next w) _ _ Hnd) as (nd' & E & _ & Ho & _).
      exists nd'. split; [exact E|]. rewrite Ho. apply elem_of_app. auto.
  - intros n nd' c Hn Hin. apply alter2_lookup in Hn as (nd & Hnd & _ & _ & Ho).
    rewrite Ho in Hin. apply elem_of_app in Hin as [Hin|Hin].
    + assert (c <> w_next w) by (intros ->; eapply Hfo; eauto).
      rewrite lookup_insert_ne by auto. eapply cs_outs; eauto.
    + destruct (decide (n = s)) as [->|]; [|apply elem_of_nil in Hin as []].
      apply elem_of_list_singleton in Hin as ->. rewrite lookup_insert. eauto.
  - intros n nd' c Hn Hin. apply alter2_lookup in Hn as (nd & Hnd & _ & Hi & _).
    rewrite Hi in Hin. apply elem_of_app in Hin as [Hin|Hin].
    + assert (c <> w_next w) by (intros ->; eapply Hfi; eauto).
      rewrite lookup_insert_ne by auto. eapply cs_ins; eauto.
    + destruct (decide (n = t)) as [->|]; [|apply elem_of_nil in Hin as []].
      apply elem_of_list_singleton in Hin as ->. rewrite lookup_insert. eauto.
  - intros n nd' Hn. apply alter2_lookup in Hn as (nd & Hnd & _ & Hi & _). rewrite Hi.
    apply NoDup_app. split; [eapply cs_nd_ins; eauto|]. split.
    + intros x Hx Hx'. destruct (decide (n = t)); [|apply elem_of_nil in Hx' as []].
      apply elem_of_list_singleton in Hx' as ->. eapply Hfi; eauto.
    + destruct (decide (n = t)); [apply NoDup_singleton|constructor].
  - intros n nd' Hn. apply alter2_lookup in Hn as (nd & Hnd & _ & _ & Ho). rewrite Ho.
    apply NoDup_app. split; [eapply cs_nd_outs; eauto|]. split.
    + intros x Hx Hx'. destruct (decide (n = s)); [|apply elem_of_nil in Hx' as []].
      apply elem_of_list_singleton in Hx' as ->. eapply Hfo; eauto.
    + destruct (decide (n = s)); [apply NoDup_singleton|constructor].
  - intros k g n Hk Hin. destruct (cs_member _ C _ _ _ Hk Hin) as (nd & Hnd & Hm).
    destruct (alter2_lookup_rev _ s t (w_next w) _ _ Hnd) as (nd' & E & (_&_&_&_&Hh) & _).
    exists nd'. split; [exact E|congruence].
  - intros n nd' Hn. apply alter2_lookup in Hn as (nd & Hnd & (_&_&_&_&Hh) & _). rewrite <- Hh. eapply cs_owned; eauto.
  - eapply cs_nd_nodes; eauto.
  - intros k g n Hk. rewrite (cs_starts _ C _ _ _ Hk). split; intros [Hin (nd & Hnd & Ho)]; (split; [exact Hin|]).
    + destruct (alter2_lookup_rev _ s t (w_next w) _ _ Hnd) as (nd' & E & (Hop&_) & _).
      exists nd'. split; [exact E|]. rewrite <- Hop. exact Ho.
    + apply alter2_lookup in Hnd as (nd0 & Hnd0 & (Hop&_) & _). exists nd0. split; [exact Hnd0|].
      rewrite Hop. exact Ho.
  - eapply cs_nd_starts; eauto.
  - intros n nd' Hn. apply alter2_lookup in Hn as (nd & Hnd & (_&Hh&_) & _). rewrite <- Hh. eapply cs_type; eauto.
  - intros n nd' Hn. apply alter2_lookup in Hn as (nd & Hnd & (Ho&_&Hh&_) & _). rewrite <- Hh, <- Ho. eapply cs_const; eauto.
  - intros n nd' Hn. apply alter2_lookup in Hn as (nd & Hnd & (Ho&_&Hh&_&Hm) & _). rewrite <- Hh, <- Hm. eapply cs_const_top; eauto.
  - intros n [nd' Hn]. apply alter2_lookup in Hn as (nd & Hnd & _).
    pose proof (cs_fresh_n _ C _ (ex_intro _ _ Hnd)). lia.
  - intros m Hm. apply lookup_insert_is_Some in Hm as [->|[_ Hm]]; [lia|].
    pose proof (cs_fresh_c _ C _ Hm). lia.
  - intros m Hm. pose proof (cs_fresh_k _ C _ Hm). lia.
  - apply (cs_top _ C).
  - apply (cs_stack _ C).
Qed.

(** effect of adding a channel on operand lists *)
Lemma omap_chans_insert (m : gmap nat chan) c ch (l : list nat) :
  c ∉ l -> omap (fun x => <[c := ch]> m !! x) l = omap (fun x => m !! x) l.
Proof.
  induction l as [|x l IH]; intros Hn; [reflexivity|]. cbn.
  apply not_elem_of_cons in Hn as [Hne Hn]. rewrite lookup_insert_ne by auto. rewrite IH by auto. reflexivity.
Qed.

Lemma add_chan_nodes_in_chans w s t i b w' :
  add_chan_nodes w s t i b = Ok w' -> consistent w ->
  in_chans w' t = in_chans w t ++ [mkChan s t i b] /\
  (forall n, n <> t -> in_chans w' n = in_chans w n).
Proof.
  intros H C. apply add_chan_nodes_inv in H as ([ns Hs] & [nt Ht] & ->).
  assert (Hfresh : w_chans w !! w_next w = None).
  { destruct (w_chans w !! w_next w) eqn:E; [|reflexivity].
    assert (w_next w < w_next w) by (apply (cs_fresh_c _ C); eauto). lia. }
  assert (Hfi : forall n nd, w_nodes w !! n = Some nd -> w_next w ∉ n_ins nd).
  { intros n nd Hn Hin. destruct (cs_ins _ C _ _ _ Hn Hin) as (ch & E & _). congruence. }
  unfold in_chans. cbn [w_nodes w_chans]. split.
  - destruct (alter2_lookup_rev _ s t (w_next w) _ _ Ht) as (nd' & E & _ & Hi & _).
    rewrite E, Ht, Hi, decide_True by auto. rewrite omap_app. f_equal.
    + apply omap_chans_insert. eauto.
    + cbn. rewrite lookup_insert. reflexivity.
  - intros n Hne. destruct (w_nodes w !! n) as [nd|] eqn:En.
    + destruct (alter2_lookup_rev _ s t (w_next w) _ _ En) as (nd' & E & _ & Hi & _).
      rewrite E, Hi, decide_False by auto. rewrite app_nil_r. apply omap_chans_insert. eauto.
    + destruct (alter _ t _ !! n) as [nd'|] eqn:E; [|reflexivity].
      apply alter2_lookup in E as (nd & E & _). congruence.
Qed.

(** heads (operator, type, ...) are preserved in both directions *)
Definition heads_eq (w w' : world) : Prop :=
  (forall n nd, w_nodes w !! n = Some nd -> exists nd', w_nodes w' !! n = Some nd' /\ same_head nd nd') /\
  (forall n nd', w_nodes w' !! n = Some nd' -> exists nd, w_nodes w !! n = Some nd /\ same_head nd nd').

Lemma same_head_refl nd : same_head nd nd.
Proof. repeat split. Qed.
Lemma same_head_trans a b c : same_head a b -> same_head b c -> same_head a c.
Proof. unfold same_head. intuition congruence. Qed.
Lemma same_head_sym a b : same_head a b -> same_head b a.
Proof. unfold same_head. intuition congruence. Qed.
Lemma heads_eq_refl w : heads_eq w w.
Proof. split; intros n nd H; exists nd; split; auto using same_head_refl. Qed.
Lemma heads_eq_trans a b c : heads_eq a b -> heads_eq b c -> heads_eq a c.
Proof.
  intros [A1 A2] [B1 B2]. split.
  - intros n nd H. destruct (A1 _ _ H) as (x & Hx & S1). destruct (B1 _ _ Hx) as (y & Hy & S2).
    eauto using same_head_trans.
  - intros n nd H. destruct (B2 _ _ H) as (x & Hx & S1). destruct (A2 _ _ Hx) as (y & Hy & S2).
    eauto using same_head_trans.
Qed.

Lemma add_chan_nodes_heads w s t i b w' :
  add_chan_nodes w s t i b = Ok w' ->
  heads_eq w w' /\ w_types w' = w_types w /\ w_top w' = w_top w /\ w_kern w' = w_kern w
  /\ w_next w' = S (w_next w) /\ w_stack w' = w_stack w.
Proof.
  intros H. apply add_chan_nodes_inv in H as (_ & _ & ->). cbn. split; [|auto]. split.
  - intros n nd Hn. apply (alter2_lookup_rev _ s t (w_next w)) in Hn as (nd' & E & Hh & _). eauto.
  - intros n nd Hn. apply (alter2_lookup _ s t (w_next w)) in Hn as (nd' & E & Hh & _). eauto.
Qed.

Lemma add_chan_inv w k s t i b w' :
  add_chan w k s t i b = Ok w' ->
  add_chan_nodes w s t i b = Ok w' /\
  (exists g, w_kern w !! k = Some g /\ t ∈ g_nodes g).
Proof.
  unfold add_chan. intros H. ropen H. ropen Hy. ropen Hy0. ropen Hy.
  destruct (x1 && x2) eqn:E; [|discriminate]. split; [exact Hy0|].
  apply andb_true_iff in E as [-> ->]. unfold find_node in Hx2. ropen Hx2.
  apply of_opt_UB in Hx3. injection Hy as E. apply bool_decide_eq_true in E. eauto.
Qed.

Lemma add_chans_spec : forall srcs w k t i w',
  add_chans w k srcs t i = Ok w' -> consistent w ->
  consistent w' /\ heads_eq w w' /\ w_types w' = w_types w /\ w_top w' = w_top w /\ w_kern w' = w_kern w
  /\ w_stack w' = w_stack w /\
  in_chans w' t = in_chans w t ++ imap (fun j s => mkChan s t (i + j) false) srcs /\
  (forall n, n <> t -> in_chans w' n = in_chans w n) /\
  (forall s, s ∈ srcs -> is_Some (w_nodes w !! s)).
Proof.
  induction srcs as [|s srcs IH]; intros w k t i w' H C; cbn [add_chans] in H.
  - injection H as <-. cbn. rewrite app_nil_r. split; [exact C|]. split; [apply heads_eq_refl|].
    repeat (split; [reflexivity|]). intros s Hs. apply elem_of_nil in Hs as [].
  - ropen H. apply add_chan_inv in Hx as [Hx _].
    pose proof (add_chan_nodes_consistent _ _ _ _ _ _ Hx C) as C1.
    pose proof (add_chan_nodes_in_chans _ _ _ _ _ _ Hx C) as [I1 I2].
    pose proof (add_chan_nodes_heads _ _ _ _ _ _ Hx) as (Hh & E1 & E2 & E3 & _ & E4).
    destruct (IH _ _ _ _ _ Hy C1) as (C2 & Hh2 & F1 & F2 & F3 & F4 & J1 & J2 & J3).
    split; [exact C2|]. split; [eapply heads_eq_trans; eauto|]. split; [congruence|]. split; [congruence|]. split; [congruence|]. split; [congruence|].
    split; [|split].
    + rewrite J1, I1, <- app_assoc. f_equal. cbn. rewrite Nat.add_0_r. f_equal.
      apply imap_ext. intros j y Hj. unfold compose. f_equal. lia.
    + intros n Hn. rewrite J2, I2; auto.
    + intros y Hy'. apply elem_of_cons in Hy' as [->|Hy'].
      * apply add_chan_nodes_inv in Hx as (Hs & _ & _). exact Hs.
      * destruct (J3 _ Hy') as [nd Hnd]. destruct Hh as [_ Hh]. destruct (Hh _ _ Hnd) as (nd0 & Hnd0 & _). eauto.
Qed.

(** ** mk_op *)
Definition chans_of (t : nat) (args : list nat) : list chan :=
  imap (fun j s => mkChan s t j false) args.

Lemma in_chans_fresh w k o ty vk name w' n :
  add_node w k o ty vk name = Ok (w', n) -> in_chans w' n = [].
Proof.
  intros H. apply add_node_inv in H as (g & _ & -> & ->). unfold in_chans. cbn [w_nodes].
  rewrite lookup_insert. reflexivity.
Qed.
Lemma in_chans_add_node w k o ty vk name w' n m :
  add_node w k o ty vk name = Ok (w', n) -> m <> n -> in_chans w' m = in_chans w m.
Proof.
  intros H Hm. apply add_node_inv in H as (g & _ & -> & ->). unfold in_chans. cbn [w_nodes w_chans].
  rewrite lookup_insert_ne by auto. reflexivity.
Qed.

(** all facts about one successful "allocate node and wire operands" *)
Record mk_op_post (w : world) (k : nat) (o : opk) (ty : nat) (vk : vkind) (name : string) (args : list nat)
       (w' : world) (n : nat) : Prop := {
  mp_cons : consistent w';
  mp_new : w_nodes w !! n = None;
  mp_n : n = w_next w;
  mp_node : exists nd, w_nodes w' !! n = Some nd /\ n_op nd = o /\ n_ty nd = ty /\
                       n_vk nd = vk /\ n_name nd = name /\ n_meta nd = k;
  mp_ins : in_chans w' n = chans_of n args;
  mp_frame : preserved w w' n;
  mp_back : forall m nd', w_nodes w' !! m = Some nd' -> m <> n ->
              exists nd, w_nodes w !! m = Some nd /\ same_head nd nd';
  mp_types : w_types w' = w_types w;
  mp_top : w_top w' = w_top w;
  mp_stack : w_stack w' = w_stack w;
  mp_kdom : forall j, is_Some (w_kern w' !! j) <-> is_Some (w_kern w !! j);
  mp_args : forall a, a ∈ args -> is_Some (w_nodes w !! a);
}.

Lemma add_node_post w k o ty vk name w' n :
  add_node w k o ty vk name = Ok (w', n) ->
  is_Some (w_types w !! ty) ->
  ((exists v, o = CONST v) <-> vk = VConst) ->
  (vk = VConst -> w_top w = Some k) ->
  consistent w -> mk_op_post w k o ty vk name [] w' n.
Proof.
  intros H Hty Hvk Htop C.
  pose proof (add_node_consistent _ _ _ _ _ _ _ _ H Hty Hvk Htop C) as C'.
  pose proof (in_chans_fresh _ _ _ _ _ _ _ _ H) as Hf.
  pose proof (fun m => in_chans_add_node _ _ _ _ _ _ _ _ m H) as Ho.
  assert (Hfresh : w_nodes w !! w_next w = None).
  { destruct (w_nodes w !! w_next w) eqn:E; [|reflexivity].
    assert (w_next w < w_next w) by (apply (cs_fresh_n _ C); eauto). lia. }
  apply add_node_inv in H as (g & Hg & -> & ->). constructor; cbn [w_nodes w_types w_top w_stack w_kern]; auto.
  - rewrite lookup_insert. eexists; split; [reflexivity|]. cbn. auto.
  - split; [|split; [|split; [auto|]]].
    + intros m nd Hm. exists nd. cbn [w_nodes]. rewrite lookup_insert_ne by congruence. split; [exact Hm|apply same_head_refl].
    + intros m Hm Hne. auto.
    + intros m Hm Hne. cbn [w_nodes] in Hm. rewrite lookup_insert_ne in Hm by auto. exact Hm.
  - intros m nd' Hm Hne. rewrite lookup_insert_ne in Hm by auto. eauto using same_head_refl.
  - intros j. destruct (decide (k = j)) as [->|]; [rewrite lookup_insert, Hg; split; eauto|].
    rewrite lookup_insert_ne by auto. reflexivity.
  - intros a Ha. apply elem_of_nil in Ha as [].
Qed.

Lemma mk_op_spec w k o ty args w' n :
  mk_op w k o ty args = Ok (w', n) -> is_Some (w_types w !! ty) ->
  (forall v, o <> CONST v) -> consistent w ->
  mk_op_post w k o ty VStream EmptyString args w' n.
Proof.
  unfold mk_op. intros H Hty Ho C.
  destruct (forallb _ _) eqn:Hargs in H; [|discriminate]. ropen H. destruct x as [w1 n1]. ropen Hy. injection Hy0 as -> ->.
  rename Hx into HA. rename Hx0 into HB.
  assert (P : mk_op_post w k o ty VStream EmptyString [] w1 n).
  { eapply add_node_post; eauto; [|discriminate]. split; [intros [v Hv]; destruct (Ho v Hv)|discriminate]. }
  destruct P as [C1 P1 P2 P3 P4 P5 P6 P7 P8 P9 P10 P11].
  destruct (add_chans_spec _ _ _ _ _ _ HB C1) as (C2 & [Hh Hh'] & E1 & E2 & E3 & E4 & J1 & J2 & J3).
  constructor; auto; try congruence.
  - destruct P3 as (nd & Hnd & Q). destruct (Hh _ _ Hnd) as (nd' & Hnd' & S). exists nd'.
    split; [exact Hnd'|]. unfold same_head in S. intuition congruence.
  - rewrite J1, P4. reflexivity.
  - destruct P5 as (Q1 & Q2 & Q3 & Q4). split; [|split; [|split]].
    + intros m nd Hm. destruct (Q1 _ _ Hm) as (x & Hx & S). destruct (Hh _ _ Hx) as (y & Hy & S').
      exists y. split; [exact Hy|]. eapply same_head_trans; eauto.
    + intros m Hm Hne. rewrite J2 by auto. auto.
    + intros t y Ht. rewrite E1. auto.
    + intros m [nd' Hm] Hne. destruct (Hh' _ _ Hm) as (x & Hx & _). eauto.
  - intros m nd' Hm Hne. destruct (Hh' _ _ Hm) as (x & Hx & S). destruct (P6 _ _ Hx Hne) as (y & Hy & S').
    exists y. split; [exact Hy|]. eapply same_head_trans; eauto.
  - intros j. rewrite E3. apply P10.
  - intros a Ha. rewrite forallb_forall in Hargs. apply elem_of_list_In in Ha.
    apply Hargs in Ha. now apply bool_decide_eq_true in Ha.
Qed.

Lemma add_type_preserved w t e : preserved w (fst (add_type w t)) e.
Proof.
  split; [|split; [|split]].
  - intros n nd Hn. exists nd. split; [exact Hn|apply same_head_refl].
  - reflexivity.
  - intros i ty Hi. cbn. rewrite lookup_app_l; [exact Hi|]. eapply lookup_lt_Some; eauto.
  - auto.
Qed.
Lemma preserved_trans w1 w2 w3 e : preserved w1 w2 e -> preserved w2 w3 e -> preserved w1 w3 e.
Proof.
  intros (A1 & A2 & A3 & A4) (B1 & B2 & B3 & B4). split; [|split; [|split]].
  - intros n nd Hn. destruct (A1 _ _ Hn) as (x & Hx & S). destruct (B1 _ _ Hx) as (y & Hy & S').
    eauto using same_head_trans.
  - intros n Hn Hne. rewrite B2, A2; auto. destruct Hn as [nd Hnd].
    destruct (A1 _ _ Hnd) as (x & Hx & _). eauto.
  - auto.
  - auto.
Qed.
Lemma preserved_refl w e : preserved w w e.
Proof. split; [|split; [|split]]; auto. intros n nd H; exists nd; split; auto using same_head_refl. Qed.
