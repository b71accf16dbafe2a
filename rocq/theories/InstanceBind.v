(** * Sub-kernel instances: the loop over the bindings (proofs). *)
From Coq Require Import ZArith Bool String Lia.
From stdpp Require Import gmap list.
From Verif Require Import Types Word Value Graph GraphSpec BuilderProofs BuilderProofs2 BuilderTopo StreamSpec Instance InstanceSpec InstanceProofs.

Lemma delete_alter_same {A} (m : gmap nat A) f n : delete n (alter f n m) = delete n m.
Proof. apply map_eq. intro x. destruct (decide (x = n)) as [->|N]; [rewrite !lookup_delete; reflexivity|]. rewrite !lookup_delete_ne, lookup_alter_ne by auto. reflexivity. Qed.
Lemma alter_id_some {A} (m : gmap nat A) f n : (forall x, f x = x) -> alter f n m = m.
Proof. intro H. apply map_eq. intro x. destruct (decide (x = n)) as [->|N]; [rewrite lookup_alter|rewrite lookup_alter_ne by auto; reflexivity]. destruct (m !! n); cbn; [rewrite H|]; reflexivity. Qed.
Lemma set_outs_id x : set_outs x (n_outs x ++ []) = x.
Proof. destruct x. unfold set_outs. cbn. rewrite app_nil_r. reflexivity. Qed.
Lemma ins_of_operands w n nd : consistent w -> w_nodes w !! n = Some nd -> length (n_ins nd) = length (operands w n).
Proof.
  intros C H. unfold operands, in_chans. rewrite H, map_length.
  assert (X : forall c, c ∈ n_ins nd -> is_Some (w_chans w !! c)) by (intros c Hc; destruct (cs_ins _ C _ _ _ H Hc) as (ch & E & _); eauto).
  induction (n_ins nd) as [|c l IH]; [reflexivity|]. cbn. destruct (X c) as [ch ->]; [constructor|]. cbn. rewrite IH; [reflexivity|]. intros d Hd. apply X. right. exact Hd.
Qed.
Lemma outs_of_readers w n nd : consistent w -> w_nodes w !! n = Some nd -> (forall m, n ∉ operands w m) -> n_outs nd = [].
Proof.
  intros C H NR. destruct (n_outs nd) as [|c l] eqn:E; [reflexivity|]. exfalso.
  destruct (cs_outs _ C _ _ c H) as (ch & Hc & Es); [rewrite E; constructor|]. apply (NR (c_tgt ch)). apply elem_of_list_fmap. exists ch. split; [auto|].
  apply in_chans_spec; [exact C|]. eauto.
Qed.

(** what a step leaves of the nodes: everything but names of removed nodes and channel lists *)
(** argument positions and kinds of the channels into a node *)
Definition shp (w : world) (m : nat) : list (nat * bool) := map (fun ch => (c_ind ch, c_conn ch)) (in_chans w m).
Definition keeps (w w' : world) (gone : nat -> Prop) : Prop :=
  (forall m x, w_nodes w' !! m = Some x -> exists y, w_nodes w !! m = Some y /\ same_head y x /\ ~ gone m) /\
  (forall m y, w_nodes w !! m = Some y -> ~ gone m -> exists x, w_nodes w' !! m = Some x /\ same_head y x) /\
  w_types w' = w_types w /\ w_top w' = w_top w /\ w_stack w' = w_stack w /\ w_next w' = w_next w.
Lemma shaped_from w w' : well_shaped w ->
  (forall m x, w_nodes w' !! m = Some x -> exists y, w_nodes w !! m = Some y /\ n_op y = n_op x /\
     map (fun ch => (c_ind ch, c_conn ch)) (in_chans w' m) = map (fun ch => (c_ind ch, c_conn ch)) (in_chans w m)) -> well_shaped w'.
Proof. intros S H m x Hm. destruct (H m x Hm) as (y & Hy & Eo & E). destruct (S m y Hy) as (k & d & A & B). exists k, d. rewrite E, <- Eo. auto. Qed.

Section Steps.
Variables (w : world) (p k : nat) (s : string) (v n : nat) (nd nv : node).
Hypothesis (W : WF w) (Npk : p <> k) (Hl : name_lookup (names w k) s = Some n) (Hn : w_nodes w !! n = Some nd) (Hm : n_meta nd = k)
  (Hv : w_nodes w !! v = Some nv) (Hvm : n_meta nv = p).

Let NE : v <> n.
Proof. intros ->. rewrite Hn in Hv. injection Hv as E. congruence. Qed.
Let gk : { g | w_kern w !! k = Some g }.
Proof. unfold names in Hl. destruct (w_kern w !! k) as [g|]; [eauto|discriminate]. Qed.

Lemma bind_input : n_op nd = IN -> operands w n = [] ->
  exists w', bind_one w p k v s = Ok (w', v) /\ WF w' /\ keeps w w' (fun m => m = n) /\
    (forall m, m <> n -> operands w' m = map (ren n v) (operands w m)) /\
    (forall k', names w' k' = if decide (k' = k) then rn_names s (names w k) else names w k') /\
    (forall k', is_Some (w_kern w' !! k') <-> is_Some (w_kern w !! k')) /\
    (forall m, m <> n -> shp w' m = shp w m).
Proof.
  intros Ho Op. destruct gk as [g Hg]. destruct W as [C Sh]. assert (Hl' : name_lookup (g_names g) s = Some n) by (unfold names in Hl; rewrite Hg in Hl; exact Hl).
  set (w1 := rn w k n s g). assert (C1 : consistent w1) by (apply rn_consistent; assumption).
  assert (N1 : forall m, w_nodes w1 !! m = rn_node n m <$> w_nodes w !! m) by (intro; apply rn_nodes).
  set (nd1 := rn_node n n nd). assert (Hn1 : w_nodes w1 !! n = Some nd1) by (rewrite N1, Hn; reflexivity).
  assert (Hv1 : w_nodes w1 !! v = Some nv) by (rewrite N1, Hv; unfold rn_node; cbn; rewrite decide_False by auto; reflexivity).
  destruct (rn_head n n nd) as (R1 & R2 & R3 & R4 & R5 & R6). fold nd1 in R1, R2, R3, R4, R5, R6.
  set (g1 := mkGraph (g_nodes g) (g_starts g) (rn_names s (g_names g))). assert (Hg1 : w_kern w1 !! k = Some g1) by (cbn; apply lookup_insert).
  set (w2 := mv w1 n v (n_outs nd1)).
  assert (C2 : consistent w2) by (eapply mv_consistent; eauto).
  set (nd2 := set_outs nd1 []). assert (Hn2 : w_nodes w2 !! n = Some nd2).
  { unfold w2. rewrite (mv_nodes w1 n v nd1 (not_eq_sym NE)), Hn1. cbn. unfold mv_node. rewrite decide_True by auto. reflexivity. }
  assert (Hg2 : w_kern w2 !! k = Some g1) by exact Hg1.
  assert (Ei : n_ins nd2 = []). { cbn. rewrite R5. pose proof (ins_of_operands w n nd C Hn) as E. rewrite Op in E. destruct (n_ins nd); [reflexivity|discriminate]. }
  set (w3 := rm w2 k n g1).
  exists w3. assert (C3 : consistent w3) by (eapply (rm_consistent w2 k n nd2 g1); eauto; cbn; rewrite R4; exact Hm).
  assert (IC : forall m, m <> n -> in_chans w3 m = map (mv_ch n v) (in_chans w m)).
  { intros m N. unfold w3. rewrite rm_in_chans by auto. unfold w2. rewrite (mv_in_chans w1 n v nd1 C1 Hn1 (not_eq_sym NE)). f_equal. apply rn_in_chans. }
  assert (N3 : forall m x, w_nodes w3 !! m = Some x <-> m <> n /\ exists y, w_nodes w !! m = Some y /\ x = mv_node n v nd1 m y).
  { intros m x. unfold w3. rewrite rm_nodes. unfold w2. rewrite (mv_nodes w1 n v nd1 (not_eq_sym NE)), N1. split.
    - intros [E N]. split; [exact N|]. destruct (w_nodes w !! m) as [y|]; [|discriminate]. cbn in E. unfold rn_node in E. rewrite decide_False in E by auto. injection E as <-. eauto.
    - intros [N (y & -> & ->)]. split; [|exact N]. cbn. unfold rn_node. rewrite decide_False by auto. reflexivity. }
  split.
  { unfold bind_one, find_name. rewrite Hg. cbn [of_opt rbind]. rewrite Hl'. cbn [of_opt rbind]. rewrite (reset_name_rn w k n s g Hg Hl'). cbn [rbind]. fold w1.
    unfold get_node. rewrite Hn1. cbn [of_opt rbind]. rewrite R1, Ho.
    assert (E : rebind_input w1 p k v n = Ok w3); [|rewrite E; reflexivity].
    unfold rebind_input, get_node. rewrite Hn1, Hv1. cbn [of_opt rbind].
    assert (Ef : find_node w1 p v = Ok true).
    { unfold find_node. destruct (cs_owned _ C1 _ _ Hv1) as (gp & Hgp & Hin). rewrite Hvm in Hgp. rewrite Hgp. cbn. rewrite bool_decide_eq_true_2 by exact Hin. reflexivity. }
    rewrite Ef. cbn [rbind]. destruct (n_outs nd1) as [|c0 l0] eqn:Eo.
    - rewrite (delete_node_rm w1 k n g1 Hg1). f_equal. unfold w3, w2, rm, mv, set_kern, set_nodes, set_chans. cbn [w_types w_nodes w_chans w_kern w_stack w_top w_next redirect foldl].
      rewrite delete_alter_same, alter_id_some by apply set_outs_id. reflexivity.
    - match goal with |- delete_node ?W _ _ = _ => rewrite (delete_node_rm W k n g1 Hg1) end. f_equal. unfold w3, w2, rm, mv, set_kern, set_nodes, set_chans.
      cbn [w_types w_nodes w_chans w_kern w_stack w_top w_next]. rewrite delete_alter_same. reflexivity. }
  split; [split; [exact C3|]|].
  { apply (shaped_from w w3 Sh). intros m x H. apply N3 in H as [N (y & Hy & ->)]. exists y. split; [exact Hy|]. split; [destruct (mv_head n v nd1 m y) as (E & _); exact E|].
    rewrite IC by auto. rewrite map_map. apply map_ext. intro ch. unfold mv_ch. destruct (decide _); reflexivity. }
  split.
  { split; [|split; [|split; [|split; [|split]]]]; try reflexivity.
    - intros m x H. apply N3 in H as [N (y & Hy & ->)]. exists y. split; [exact Hy|]. split; [apply mv_head|exact N].
    - intros m y H N. exists (mv_node n v nd1 m y). split; [apply N3; eauto|apply mv_head]. }
  split; [intros m N; unfold operands; rewrite IC by auto; rewrite !map_map; apply map_ext; intro ch; unfold mv_ch, ren; destruct (decide _); reflexivity|].
  split.
  - intro k'. unfold names. cbn [w3 rm set_kern w_kern w2 mv set_chans set_nodes w1 rn]. destruct (decide (k' = k)) as [->|N]; [rewrite lookup_insert; rewrite Hg; reflexivity|rewrite !lookup_insert_ne by auto; reflexivity].
  - split; [|intros m N; unfold shp; rewrite IC by auto; rewrite map_map; apply map_ext; intro ch; unfold mv_ch; destruct (decide _); reflexivity].
    intro k'. cbn [w3 rm set_kern w_kern w2 mv set_chans set_nodes w1 rn]. rewrite !lookup_insert_is_Some'. split; [intros [<-|[<-|H]]; eauto|eauto].
Qed.

Lemma bind_output : n_op nd = OUT -> (forall m, n ∉ operands w m) -> operands w v = [] -> (n_op nv = NONE \/ n_op nv = OUT) ->
  forall d, operands w n = [d] -> d <> v ->
  exists w' r, bind_one w p k v s = Ok (w', r) /\ WF w' /\ keeps w w' (fun m => m = n \/ m = v /\ n_op nv = NONE) /\
    (n_op nv = NONE -> r = d /\ forall m, m <> n -> m <> v -> operands w' m = map (ren v d) (operands w m)) /\
    (n_op nv = OUT -> r = v /\ operands w' v = [d] /\ forall m, m <> n -> m <> v -> operands w' m = operands w m) /\
    (forall k', names w' k' = if decide (k' = k) then rn_names s (names w k) else names w k') /\
    (forall k', is_Some (w_kern w' !! k') <-> is_Some (w_kern w !! k')) /\
    (forall m, ~ (m = n \/ m = v /\ n_op nv = NONE) -> shp w' m = shp w m \/ m = v /\ n_op nv = OUT /\ shp w' m = [(0, true)]).
Proof.
  intros Ho NR Opv Vo d Op Ndv. destruct gk as [g Hg]. destruct W as [C Sh]. assert (Hl' : name_lookup (g_names g) s = Some n) by (unfold names in Hl; rewrite Hg in Hl; exact Hl).
  assert (Ndn : d <> n) by (intros ->; apply (NR n); rewrite Op; constructor).
  set (w1 := rn w k n s g). assert (C1 : consistent w1) by (apply rn_consistent; assumption).
  assert (N1 : forall m, w_nodes w1 !! m = rn_node n m <$> w_nodes w !! m) by (intro; apply rn_nodes).
  assert (I1 : forall m, in_chans w1 m = in_chans w m) by (intro; apply rn_in_chans).
  set (nd1 := rn_node n n nd). assert (Hn1 : w_nodes w1 !! n = Some nd1) by (rewrite N1, Hn; reflexivity).
  assert (Hv1 : w_nodes w1 !! v = Some nv) by (rewrite N1, Hv; unfold rn_node; cbn; rewrite decide_False by auto; reflexivity).
  destruct (rn_head n n nd) as (R1 & R2 & R3 & R4 & R5 & R6). fold nd1 in R1, R2, R3, R4, R5, R6.
  set (g1 := mkGraph (g_nodes g) (g_starts g) (rn_names s (g_names g))). assert (Hg1 : w_kern w1 !! k = Some g1) by (cbn; apply lookup_insert).
  assert (Eo : n_outs nd1 = []) by (rewrite R6; exact (outs_of_readers w n nd C Hn NR)).
  assert (Evi : n_ins nv = []). { pose proof (ins_of_operands w v nv C Hv) as E. rewrite Opv in E. destruct (n_ins nv); [reflexivity|discriminate]. }
  assert (Ei : exists c, n_ins nd = [c]). { pose proof (ins_of_operands w n nd C Hn) as E. rewrite Op in E. destruct (n_ins nd) as [|c [|]]; try discriminate. eauto. }
  destruct Ei as [c Ei]. assert (Ei1 : n_ins nd1 = [c]) by congruence.
  destruct (cs_ins _ C _ _ c Hn) as (ch & Hc & Et); [rewrite Ei; constructor|].
  assert (Es : c_src ch = d). { unfold operands, in_chans in Op. rewrite Hn, Ei in Op. cbn in Op. rewrite Hc in Op. injection Op as ->. reflexivity. }
  assert (Ech : c_ind ch = 0 /\ c_conn ch = true).
  { destruct (Sh n nd Hn) as (ar & dr & A & E). rewrite Ho in A. cbn in A. subst ar. cbn in E. unfold in_chans in E. rewrite Hn, Ei in E. cbn in E. rewrite Hc in E. cbn in E.
    destruct dr as [|dr]; [discriminate|]. injection E as E1 E2 _. auto. }
  destruct (cs_src _ C _ _ Hc) as (ns & Hs & Hcs). rewrite Es in Hs.
  assert (Hs1 : w_nodes w1 !! d = Some ns) by (rewrite N1, Hs; unfold rn_node; cbn; rewrite decide_False by auto; reflexivity).
  assert (Hc1 : w_chans w1 !! c = Some ch) by exact Hc.
  assert (Ef : find_node w1 p v = Ok true).
  { unfold find_node. destruct (cs_owned _ C1 _ _ Hv1) as (gp & Hgp & Hin). rewrite Hvm in Hgp. rewrite Hgp. cbn. rewrite bool_decide_eq_true_2 by exact Hin. reflexivity. }
  assert (Head : forall r w', rebind_output w1 p k n v = Ok (w', r) -> bind_one w p k v s = Ok (w', r)).
  { intros r w' E. unfold bind_one, find_name. rewrite Hg. cbn [of_opt rbind]. rewrite Hl'. cbn [of_opt rbind]. rewrite (reset_name_rn w k n s g Hg Hl'). cbn [rbind]. fold w1.
    unfold get_node. rewrite Hn1. cbn [of_opt rbind]. rewrite R1, Ho. exact E. }
  destruct Vo as [Vo|Vo].
  - (* placeholder *)
    set (w2 := cut w1 n d c). assert (C2 : consistent w2) by (eapply cut_consistent; eauto).
    assert (N2 : forall m, w_nodes w2 !! m = cut_node n d c m <$> w_nodes w1 !! m) by (intro; apply (cut_nodes w1 n d c Ndn)).
    set (nd2 := cut_node n d c n nd1). assert (Hn2 : w_nodes w2 !! n = Some nd2) by (rewrite N2, Hn1; reflexivity).
    assert (Hv2 : w_nodes w2 !! v = Some nv). { rewrite N2, Hv1. cbn. unfold cut_node. rewrite !decide_False by auto. reflexivity. }
    assert (exists ns2, w_nodes w2 !! d = Some ns2) as [ns2 Hs2]. { rewrite N2, Hs1. cbn. eauto. }
    destruct (cut_head n d c n nd1) as (Q1 & Q2 & Q3 & Q4 & Q5). fold nd2 in Q1, Q2, Q3, Q4, Q5.
    assert (Ei2 : n_ins nd2 = []) by (unfold nd2, cut_node; rewrite decide_True by auto; reflexivity).
    assert (Eo2 : n_outs nd2 = []) by (unfold nd2, cut_node; rewrite decide_True by auto; exact Eo).
    assert (Hg2 : w_kern w2 !! k = Some g1) by exact Hg1.
    set (w3 := rm w2 k n g1). assert (C3 : consistent w3) by (eapply (rm_consistent w2 k n nd2 g1); eauto; rewrite <- Q5, R4; exact Hm).
    assert (Hv3 : w_nodes w3 !! v = Some nv) by (apply rm_nodes; auto).
    assert (Hs3 : w_nodes w3 !! d = Some ns2) by (apply rm_nodes; auto).
    assert (Hgp : exists gp, w_kern w3 !! p = Some gp) by (destruct (cs_owned _ C3 _ _ Hv3) as (gp & Hgp & _); rewrite Hvm in Hgp; eauto). destruct Hgp as [gp Hgp].
    set (w4 := mv w3 v d (n_outs nv)). assert (C4 : consistent w4) by (eapply mv_consistent; eauto).
    assert (N4 : forall m, w_nodes w4 !! m = mv_node v d nv m <$> w_nodes w3 !! m) by (intro; apply (mv_nodes w3 v d nv (not_eq_sym Ndv))).
    set (nv4 := set_outs nv []). assert (Hv4 : w_nodes w4 !! v = Some nv4) by (rewrite N4, Hv3; cbn; unfold mv_node; rewrite decide_True by auto; reflexivity).
    set (w5 := rm w4 p v gp). assert (C5 : consistent w5) by (eapply (rm_consistent w4 p v nv4 gp); eauto).
    assert (N5 : forall m x, w_nodes w5 !! m = Some x <-> m <> n /\ m <> v /\ exists y, w_nodes w !! m = Some y /\ x = mv_node v d nv m (cut_node n d c m y)).
    { intros m x. unfold w5. rewrite rm_nodes, N4. split.
      - intros [E N]. destruct (w_nodes w3 !! m) as [z|] eqn:Hz; [|discriminate]. apply rm_nodes in Hz as [Hz Nn]. rewrite N2, N1 in Hz. destruct (w_nodes w !! m) as [y|]; [|discriminate].
        cbn in Hz. unfold rn_node in Hz. rewrite decide_False in Hz by auto. injection Hz as <-. injection E as <-. eauto 6.
      - intros (Nn & N & y & Hy & ->). split; [|exact N]. assert (Hz : w_nodes w3 !! m = Some (cut_node n d c m y)).
        { apply rm_nodes. split; [|exact Nn]. rewrite N2, N1, Hy. cbn. unfold rn_node. rewrite decide_False by auto. reflexivity. }
        rewrite Hz. reflexivity. }
    assert (HD : forall m y, same_head y (mv_node v d nv m (cut_node n d c m y))) by (intros m y; eapply same_head_trans; [apply cut_head|apply mv_head]).
    assert (IC : forall m, m <> n -> m <> v -> in_chans w5 m = map (mv_ch v d) (in_chans w m)).
    { intros m A B. unfold w5. rewrite rm_in_chans by auto. unfold w4. rewrite (mv_in_chans w3 v d nv C3 Hv3 (not_eq_sym Ndv)). f_equal. unfold w3. rewrite rm_in_chans by auto.
      unfold w2. rewrite (cut_in_chans w1 n d c nd1 ch C1 Hn1 Hc1 Ei1 Ndn). rewrite decide_False by auto. apply I1. }
    exists w5, d. split.
    { apply Head. unfold rebind_output, get_node. rewrite Hn1, Hv1. cbn [of_opt rbind]. rewrite Ef. cbn [rbind negb]. rewrite Evi, Ei1, Hc1. cbn [of_opt rbind]. rewrite Es, Hs1. cbn [of_opt rbind]. rewrite Vo.
      destruct (Nat.eqb_spec d v); [congruence|]. rewrite bool_decide_eq_true_2 by exact Hcs. cbn [orb negb].
      match goal with |- context [delete_node ?X p v] => set (wa := X) end.
      destruct (cs_owned _ C _ _ Hv) as (gp0 & Hgp0 & _). rewrite Hvm in Hgp0.
      assert (Hgpa : w_kern wa !! p = Some gp0) by (cbn; rewrite lookup_insert_ne by auto; exact Hgp0). rewrite (delete_node_rm wa p v gp0 Hgpa). cbn [rbind].
      assert (Hgka : w_kern (rm wa p v gp0) !! k = Some g1) by (cbn; rewrite lookup_insert_ne by auto; exact Hg1). rewrite (delete_node_rm _ k n g1 Hgka). cbn [rbind]. do 2 f_equal.
      assert (gp = gp0). { cbn in Hgp. rewrite lookup_insert_ne, lookup_insert_ne in Hgp by auto. congruence. } subst gp0.
      unfold w5, w4, w3, w2, wa, rm, mv, cut, set_kern, set_nodes, set_chans. cbn [w_types w_nodes w_chans w_kern w_stack w_top w_next]. f_equal.
      - apply map_eq. intro m. destruct (decide (m = v)) as [->|Nv]; [rewrite lookup_delete_ne, !lookup_delete by auto; reflexivity|].
        destruct (decide (m = n)) as [->|Nn].
        { rewrite lookup_delete. symmetry. rewrite lookup_delete_ne, lookup_alter_ne, lookup_alter_ne by auto. rewrite lookup_delete. reflexivity. }
        rewrite !lookup_delete_ne by auto. symmetry. rewrite lookup_alter_ne by auto. destruct (decide (m = d)) as [->|Nd].
        + rewrite lookup_alter, lookup_delete_ne by auto. rewrite lookup_alter_ne by auto. rewrite !lookup_alter. change (alter (fun nd0 => set_name nd0 EmptyString) n (w_nodes w)) with (w_nodes w1). rewrite Hs1. reflexivity.
        + rewrite lookup_alter_ne, lookup_delete_ne by auto. rewrite !lookup_alter_ne by auto. reflexivity.
      - rewrite insert_commute by auto. reflexivity. }
    split; [split; [exact C5|]|].
    { apply (shaped_from w w5 Sh). intros m x H. apply N5 in H as (A & B & y & Hy & ->). exists y. split; [exact Hy|]. split; [apply HD|].
      rewrite IC by auto. rewrite map_map. apply map_ext. intro z. unfold mv_ch. destruct (decide _); reflexivity. }
    split.
    { split; [|split; [|split; [|split; [|split]]]]; try reflexivity.
      - intros m x H. apply N5 in H as (A & B & y & Hy & ->). exists y. split; [exact Hy|]. split; [apply HD|]. intros [E|[E _]]; auto.
      - intros m y H N. exists (mv_node v d nv m (cut_node n d c m y)). split; [apply N5; split; [|split]; eauto; intros ->; apply N; auto|apply HD]. }
    split; [intros _; split; [reflexivity|]; intros m A B; unfold operands; rewrite IC by auto; rewrite !map_map; apply map_ext; intro z; unfold mv_ch, ren; destruct (decide _); reflexivity|].
    split; [congruence|].
    assert (KE : w_kern w5 = <[p := drop_graph gp v]> (<[k := drop_graph g1 n]> (<[k := g1]> (w_kern w)))) by reflexivity.
    assert (Hgp0 : w_kern w !! p = Some gp) by (cbn in Hgp; rewrite lookup_insert_ne, lookup_insert_ne in Hgp by auto; exact Hgp).
    split.
    + intro k'. unfold names. rewrite KE. destruct (decide (k' = k)) as [->|N].
      * rewrite lookup_insert_ne, lookup_insert by auto. rewrite Hg. reflexivity.
      * destruct (decide (k' = p)) as [->|N']; [rewrite lookup_insert, Hgp0; reflexivity|rewrite !lookup_insert_ne by auto; reflexivity].
    + split; [|intros m N; left; unfold shp; rewrite IC by (intros ->; apply N; auto); rewrite map_map; apply map_ext; intro z; unfold mv_ch; destruct (decide _); reflexivity].
      intro k'. rewrite KE, !lookup_insert_is_Some'. split; [intros [<-|[<-|[<-|H]]]; eauto|eauto].
  - (* output *)
    set (w2 := hand w1 n v c). assert (C2 : consistent w2) by (eapply hand_consistent; eauto).
    assert (N2 : forall m, w_nodes w2 !! m = hand_node n v c m <$> w_nodes w1 !! m) by (intro; apply (hand_nodes w1 n v c NE)).
    set (nd2 := hand_node n v c n nd1). assert (Hn2 : w_nodes w2 !! n = Some nd2) by (rewrite N2, Hn1; reflexivity).
    destruct (hand_head n v c n nd1) as (Q1 & Q2 & Q3 & Q4 & Q5). fold nd2 in Q1, Q2, Q3, Q4, Q5.
    assert (Ei2 : n_ins nd2 = []) by (unfold nd2, hand_node; rewrite decide_True by auto; reflexivity).
    assert (Eo2 : n_outs nd2 = []) by (unfold nd2; rewrite hand_outs; exact Eo).
    assert (Hg2 : w_kern w2 !! k = Some g1) by exact Hg1.
    set (w3 := rm w2 k n g1). assert (C3 : consistent w3) by (eapply (rm_consistent w2 k n nd2 g1); eauto; rewrite <- Q5, R4; exact Hm).
    assert (N3 : forall m x, w_nodes w3 !! m = Some x <-> m <> n /\ exists y, w_nodes w !! m = Some y /\ x = hand_node n v c m y).
    { intros m x. unfold w3. rewrite rm_nodes, N2, N1. split.
      - intros [E N]. split; [exact N|]. destruct (w_nodes w !! m) as [y|]; [|discriminate]. cbn in E. unfold rn_node in E. rewrite decide_False in E by auto. injection E as <-. eauto.
      - intros [N (y & -> & ->)]. split; [|exact N]. cbn. unfold rn_node. rewrite decide_False by auto. reflexivity. }
    assert (IC : forall m, m <> n -> in_chans w3 m = if decide (m = v) then [set_tgt v ch] else in_chans w m).
    { intros m A. unfold w3. rewrite rm_in_chans by auto. unfold w2. rewrite (hand_in_chans w1 n v c nd1 nv ch C1 Hn1 Hv1 Hc1 Ei1 NE). rewrite decide_False by auto. destruct (decide _); [reflexivity|apply I1]. }
    exists w3, v. split.
    { apply Head. unfold rebind_output, get_node. rewrite Hn1, Hv1. cbn [of_opt rbind]. rewrite Ef. cbn [rbind negb]. rewrite Evi, Ei1, Hc1. cbn [of_opt rbind]. rewrite Es, Hs1. cbn [of_opt rbind]. rewrite Vo.
      match goal with |- context [delete_node ?X k n] => rewrite (delete_node_rm X k n g1 Hg1) end. cbn [rbind]. do 2 f_equal.
      unfold w3, w2, rm, hand, set_kern, set_nodes, set_chans. cbn [w_types w_nodes w_chans w_kern w_stack w_top w_next]. rewrite delete_alter_same. reflexivity. }
    split; [split; [exact C3|]|].
    { intros m x H. apply N3 in H as (A & y & Hy & ->). destruct (hand_head n v c m y) as (<- & _). rewrite IC by auto. destruct (decide (m = v)) as [->|Nv].
      - rewrite Hv in Hy. injection Hy as <-. exists 0, 1. rewrite Vo. split; [reflexivity|]. cbn. destruct Ech as [-> ->]. reflexivity.
      - exact (Sh m y Hy). }
    split.
    { split; [|split; [|split; [|split; [|split]]]]; try reflexivity.
      - intros m x H. apply N3 in H as (A & y & Hy & ->). exists y. split; [exact Hy|]. split; [apply hand_head|]. intros [E|[_ E]]; congruence.
      - intros m y H N. exists (hand_node n v c m y). split; [apply N3; split; [intros ->; apply N; auto|eauto]|apply hand_head]. }
    split; [congruence|]. split.
    { intros _. split; [reflexivity|]. unfold operands. split; [rewrite IC, decide_True by auto; cbn; rewrite Es; reflexivity|]. intros m A B. rewrite IC, decide_False by auto. reflexivity. }
    split.
    + intro k'. unfold names. cbn [w3 rm set_kern w_kern w2 hand set_chans set_nodes w1 rn]. destruct (decide (k' = k)) as [->|N]; [rewrite lookup_insert; rewrite Hg; reflexivity|rewrite !lookup_insert_ne by auto; reflexivity].
    + split; [|intros m N; unfold shp; rewrite IC by (intros ->; apply N; auto); destruct (decide (m = v)) as [->|]; [right|left; reflexivity]; split; [reflexivity|]; split; [exact Vo|]; cbn; destruct Ech as [-> ->]; reflexivity].
      intro k'. cbn [w3 rm set_kern w_kern w2 hand set_chans set_nodes w1 rn]. rewrite !lookup_insert_is_Some'. split; [intros [<-|[<-|H]]; eauto|eauto].
Qed.
End Steps.
