(** * Sub-kernel instances: effect of the elementary steps on the graph (proofs). *)
From Coq Require Import ZArith Bool String Lia.
From stdpp Require Import gmap list.
From Verif Require Import Types Word Value Graph GraphSpec BuilderProofs BuilderProofs2 BuilderTopo Instance.

Lemma redirect_lookup cs s : forall m c, redirect cs s m !! c = (if decide (c ∈ cs) then set_src s <$> m !! c else m !! c).
Proof.
  unfold redirect. induction cs as [|x cs IH]; intros m c; [reflexivity|]. cbn [foldl]. rewrite IH.
  destruct (decide (c = x)) as [->|Ne].
  - rewrite lookup_alter. rewrite (decide_True (P := x ∈ x :: cs)) by left. destruct (decide _); [|reflexivity]. destruct (m !! x); reflexivity.
  - rewrite lookup_alter_ne by auto. destruct (decide (c ∈ cs)) as [H|H]; [rewrite decide_True by (right; exact H)|rewrite decide_False by (intro E; apply elem_of_cons in E as [E|E]; auto)]; reflexivity.
Qed.

Definition drop (n : nat) (l : list nat) : list nat := List.filter (fun m => negb (Nat.eqb m n)) l.
Lemma drop_in n l x : x ∈ drop n l <-> x ∈ l /\ x <> n.
Proof.
  unfold drop. rewrite !elem_of_list_In, filter_In. rewrite negb_true_iff, Nat.eqb_neq. reflexivity.
Qed.
Lemma drop_nodup n l : NoDup l -> NoDup (drop n l).
Proof. rewrite !NoDup_ListNoDup. apply List.NoDup_filter. Qed.
Definition drop_graph (g : graph) (n : nat) : graph := mkGraph (drop n (g_nodes g)) (drop n (g_starts g)) (g_names g).

(** ** removing a node that has no channels left *)
Section Remove.
Variables (w : world) (k : nat) (n : nat) (nd : node) (g : graph).
Hypothesis (C : consistent w) (Hn : w_nodes w !! n = Some nd) (Hk : n_meta nd = k) (Hg : w_kern w !! k = Some g)
  (Hi : n_ins nd = []) (Ho : n_outs nd = []).
Definition rm : world := set_kern (set_nodes w (delete n (w_nodes w))) (<[k := drop_graph g n]> (w_kern w)).
Lemma delete_node_rm : delete_node w k n = Ok rm.
Proof. unfold delete_node. rewrite Hg. reflexivity. Qed.
Lemma rm_nodes m x : w_nodes rm !! m = Some x <-> w_nodes w !! m = Some x /\ m <> n.
Proof. cbn. rewrite lookup_delete_Some. intuition congruence. Qed.
Lemma rm_kern k' g' : w_kern rm !! k' = Some g' -> exists g0, w_kern w !! k' = Some g0 /\ g_names g' = g_names g0 /\
  (forall x, x ∈ g_nodes g' <-> x ∈ g_nodes g0 /\ x <> n) /\ (forall x, x ∈ g_starts g' <-> x ∈ g_starts g0 /\ x <> n) /\
  (NoDup (g_nodes g0) -> NoDup (g_nodes g')) /\ (NoDup (g_starts g0) -> NoDup (g_starts g')).
Proof.
  cbn. intro H. apply lookup_insert_Some in H as [[<- <-]|[Ne H]].
  - exists g. split; [exact Hg|]. split; [reflexivity|]. cbn. split; [intro; apply drop_in|]. split; [intro; apply drop_in|]. split; apply drop_nodup.
  - exists g'. split; [exact H|]. split; [reflexivity|].
    assert (Q : forall x, x ∈ g_nodes g' -> x <> n).
    { intros x Hx ->. destruct (cs_member _ C _ _ _ H Hx) as (y & Hy & Em). rewrite Hn in Hy. injection Hy as <-. congruence. }
    split; [intro x; split; [intro Hx; split; [exact Hx|auto]|tauto]|].
    split; [|split; auto]. intro x; split; [intro Hx; split; [exact Hx|]|tauto]. apply (cs_starts _ C _ _ _ H) in Hx as [Hx _]. auto.
Qed.
Lemma rm_consistent : consistent rm.
Proof.
  assert (NC1 : forall c ch, w_chans w !! c = Some ch -> c_src ch <> n).
  { intros c ch Hc E. destruct (cs_src _ C _ _ Hc) as (x & Hx & Hin). rewrite E, Hn in Hx. injection Hx as <-. rewrite Ho in Hin. inversion Hin. }
  assert (NC2 : forall c ch, w_chans w !! c = Some ch -> c_tgt ch <> n).
  { intros c ch Hc E. destruct (cs_tgt _ C _ _ Hc) as (x & Hx & Hin). rewrite E, Hn in Hx. injection Hx as <-. rewrite Hi in Hin. inversion Hin. }
  constructor.
  - intros c ch Hc. destruct (cs_src _ C _ _ Hc) as (x & Hx & Hin). exists x. split; [apply rm_nodes; split; [exact Hx|]; eapply NC1; eauto|exact Hin].
  - intros c ch Hc. destruct (cs_tgt _ C _ _ Hc) as (x & Hx & Hin). exists x. split; [apply rm_nodes; split; [exact Hx|]; eapply NC2; eauto|exact Hin].
  - intros m x c Hm Hc. apply rm_nodes in Hm as [Hm _]. exact (cs_outs _ C _ _ _ Hm Hc).
  - intros m x c Hm Hc. apply rm_nodes in Hm as [Hm _]. exact (cs_ins _ C _ _ _ Hm Hc).
  - intros m x Hm. apply rm_nodes in Hm as [Hm _]. exact (cs_nd_ins _ C _ _ Hm).
  - intros m x Hm. apply rm_nodes in Hm as [Hm _]. exact (cs_nd_outs _ C _ _ Hm).
  - intros k' g' m H Hm. apply rm_kern in H as (g0 & H & _ & Q & _). apply Q in Hm as [Hm Ne].
    destruct (cs_member _ C _ _ _ H Hm) as (x & Hx & E). exists x. split; [apply rm_nodes; auto|exact E].
  - intros m x Hm. apply rm_nodes in Hm as [Hm Ne]. destruct (cs_owned _ C _ _ Hm) as (g0 & H & Hin).
    destruct (decide (n_meta x = k)) as [E|E].
    + exists (drop_graph g n). cbn. rewrite E, lookup_insert. split; [reflexivity|]. apply drop_in. rewrite E, Hg in H. injection H as <-. auto.
    + exists g0. cbn. rewrite lookup_insert_ne by auto. auto.
  - intros k' g' H. apply rm_kern in H as (g0 & H & _ & _ & _ & Q & _). apply Q. exact (cs_nd_nodes _ C _ _ H).
  - intros k' g' m H. apply rm_kern in H as (g0 & H & _ & Q1 & Q2 & _). rewrite Q1, Q2, (cs_starts _ C _ _ _ H). split.
    + intros [[A (x & B & D)] Ne]. split; [auto|]. exists x. split; [apply rm_nodes; auto|exact D].
    + intros [[A Ne] (x & B & D)]. apply rm_nodes in B as [B _]. eauto 6.
  - intros k' g' H. apply rm_kern in H as (g0 & H & _ & _ & _ & _ & Q). apply Q. exact (cs_nd_starts _ C _ _ H).
  - intros m x Hm. apply rm_nodes in Hm as [Hm _]. exact (cs_type _ C _ _ Hm).
  - intros m x Hm. apply rm_nodes in Hm as [Hm _]. exact (cs_const _ C _ _ Hm).
  - intros m x Hm. apply rm_nodes in Hm as [Hm _]. exact (cs_const_top _ C _ _ Hm).
  - intros m [x Hm]. apply rm_nodes in Hm as [Hm _]. apply (cs_fresh_n _ C). eauto.
  - apply (cs_fresh_c _ C).
  - intros k' [g' H]. apply rm_kern in H as (g0 & H & _). apply (cs_fresh_k _ C). eauto.
  - intros k' H. destruct (cs_top _ C _ H) as (g0 & Hg0). cbn. apply lookup_insert_is_Some'. eauto.
  - apply (cs_stack _ C).
Qed.
Lemma rm_in_chans m : m <> n -> in_chans rm m = in_chans w m.
Proof. intro Ne. unfold in_chans. cbn. rewrite lookup_delete_ne by auto. reflexivity. Qed.
End Remove.

(** ** moving all readers of [a] to [s] *)
Definition mv (w : world) (a s : nat) (outs : list nat) : world :=
  set_chans (set_nodes w (alter (fun x => set_outs x []) a (alter (fun x => set_outs x (n_outs x ++ outs)) s (w_nodes w))))
            (redirect outs s (w_chans w)).
Section Move.
Variables (w : world) (a s : nat) (na ns : node).
Hypothesis (C : consistent w) (Ha : w_nodes w !! a = Some na) (Hs : w_nodes w !! s = Some ns) (Ne : a <> s).
Let w' := mv w a s (n_outs na).
Definition mv_node (m : nat) (x : node) : node :=
  if decide (m = a) then set_outs x [] else if decide (m = s) then set_outs x (n_outs x ++ n_outs na) else x.
Lemma mv_nodes m : w_nodes w' !! m = mv_node m <$> w_nodes w !! m.
Proof.
  cbn. unfold mv_node. destruct (decide (m = a)) as [->|Na].
  - rewrite lookup_alter, lookup_alter_ne by auto. reflexivity.
  - rewrite lookup_alter_ne by auto. destruct (decide (m = s)) as [->|Ns]; [rewrite lookup_alter; reflexivity|rewrite lookup_alter_ne by auto]. destruct (w_nodes w !! m); reflexivity.
Qed.
Lemma mv_head m x : same_head x (mv_node m x).
Proof. unfold mv_node. destruct (decide _); [repeat split|]. destruct (decide _); repeat split. Qed.
Lemma mv_ins m x : n_ins (mv_node m x) = n_ins x.
Proof. unfold mv_node. destruct (decide _); [reflexivity|]. destruct (decide _); reflexivity. Qed.
Definition mv_ch (ch : chan) : chan := if decide (c_src ch = a) then set_src s ch else ch.
Lemma mv_chans c : w_chans w' !! c = mv_ch <$> w_chans w !! c.
Proof.
  cbn. rewrite redirect_lookup. destruct (w_chans w !! c) as [ch|] eqn:E; [|destruct (decide _); reflexivity]. cbn. unfold mv_ch.
  destruct (decide (c ∈ n_outs na)) as [H|H].
  - destruct (cs_outs _ C _ _ _ Ha H) as (ch' & E' & Ec). rewrite E in E'. injection E' as <-. rewrite decide_True by exact Ec. reflexivity.
  - rewrite decide_False; [reflexivity|]. intro Ec. destruct (cs_src _ C _ _ E) as (x & Hx & Hin). rewrite Ec, Ha in Hx. injection Hx as <-. auto.
Qed.
Lemma mv_consistent : consistent w'.
Proof.
  assert (SN : forall m x, w_nodes w' !! m = Some x -> exists y, w_nodes w !! m = Some y /\ x = mv_node m y).
  { intros m x H. rewrite mv_nodes in H. destruct (w_nodes w !! m) as [y|]; [|discriminate]. injection H as <-. eauto. }
  assert (SC : forall c ch, w_chans w' !! c = Some ch -> exists y, w_chans w !! c = Some y /\ ch = mv_ch y).
  { intros c ch H. rewrite mv_chans in H. destruct (w_chans w !! c) as [y|]; [|discriminate]. injection H as <-. eauto. }
  constructor.
  - intros c ch H. apply SC in H as (y & Hy & ->). destruct (cs_src _ C _ _ Hy) as (x & Hx & Hin). unfold mv_ch. destruct (decide (c_src y = a)) as [E|E].
    + exists (mv_node s ns). cbn [c_src set_src]. rewrite mv_nodes, Hs. split; [reflexivity|]. unfold mv_node. rewrite decide_False, decide_True by auto.
      cbn. apply elem_of_app. right. rewrite E, Ha in Hx. injection Hx as <-. exact Hin.
    + exists (mv_node (c_src y) x). rewrite mv_nodes, Hx. split; [reflexivity|]. unfold mv_node. rewrite decide_False by auto.
      destruct (decide _); [apply elem_of_app; left|]; exact Hin.
  - intros c ch H. apply SC in H as (y & Hy & ->). destruct (cs_tgt _ C _ _ Hy) as (x & Hx & Hin).
    assert (Et : c_tgt (mv_ch y) = c_tgt y) by (unfold mv_ch; destruct (decide _); reflexivity).
    exists (mv_node (c_tgt y) x). rewrite Et, mv_nodes, Hx, mv_ins. auto.
  - intros m x c H Hc. apply SN in H as (y & Hy & ->). rewrite mv_chans. unfold mv_node in Hc. destruct (decide (m = a)) as [->|Na]; [inversion Hc|].
    destruct (decide (m = s)) as [->|Nms].
    + cbn in Hc. apply elem_of_app in Hc as [Hc|Hc].
      * destruct (cs_outs _ C _ _ _ Hy Hc) as (ch & E & Ec). rewrite E. eexists. split; [reflexivity|]. unfold mv_ch. rewrite decide_False by congruence. exact Ec.
      * destruct (cs_outs _ C _ _ _ Ha Hc) as (ch & E & Ec). rewrite E. eexists. split; [reflexivity|]. unfold mv_ch. rewrite decide_True by congruence. reflexivity.
    + destruct (cs_outs _ C _ _ _ Hy Hc) as (ch & E & Ec). rewrite E. eexists. split; [reflexivity|]. unfold mv_ch. rewrite decide_False by congruence. exact Ec.
  - intros m x c H Hc. apply SN in H as (y & Hy & ->). rewrite mv_ins in Hc. destruct (cs_ins _ C _ _ _ Hy Hc) as (ch & E & Ec). rewrite mv_chans, E.
    eexists. split; [reflexivity|]. unfold mv_ch. destruct (decide _); exact Ec.
  - intros m x H. apply SN in H as (y & Hy & ->). rewrite mv_ins. exact (cs_nd_ins _ C _ _ Hy).
  - intros m x H. apply SN in H as (y & Hy & ->). unfold mv_node. destruct (decide (m = a)); [constructor|]. destruct (decide (m = s)) as [->|]; [|exact (cs_nd_outs _ C _ _ Hy)].
    cbn. apply NoDup_app. split; [exact (cs_nd_outs _ C _ _ Hy)|]. split; [|exact (cs_nd_outs _ C _ _ Ha)].
    intros c H1 H2. destruct (cs_outs _ C _ _ _ Hy H1) as (c1 & E1 & F1). destruct (cs_outs _ C _ _ _ Ha H2) as (c2 & E2 & F2). rewrite E1 in E2. injection E2 as <-. congruence.
  - intros k g m H Hm. destruct (cs_member _ C _ _ _ H Hm) as (x & Hx & E). exists (mv_node m x). rewrite mv_nodes, Hx. split; [reflexivity|].
    destruct (mv_head m x) as (_ & _ & _ & _ & <-). exact E.
  - intros m x H. apply SN in H as (y & Hy & ->). destruct (mv_head m y) as (_ & _ & _ & _ & <-). exact (cs_owned _ C _ _ Hy).
  - exact (cs_nd_nodes _ C).
  - intros k g m H. rewrite (cs_starts _ C _ _ _ H). split; intros [A (x & B & D)]; (split; [exact A|]).
    + exists (mv_node m x). rewrite mv_nodes, B. split; [reflexivity|]. destruct (mv_head m x) as (<- & _). exact D.
    + apply SN in B as (y & B & ->). exists y. split; [exact B|]. destruct (mv_head m y) as (E & _). rewrite E. exact D.
  - exact (cs_nd_starts _ C).
  - intros m x H. apply SN in H as (y & Hy & ->). destruct (mv_head m y) as (_ & <- & _). exact (cs_type _ C _ _ Hy).
  - intros m x H. apply SN in H as (y & Hy & ->). destruct (mv_head m y) as (<- & _ & <- & _). exact (cs_const _ C _ _ Hy).
  - intros m x H. apply SN in H as (y & Hy & ->). destruct (mv_head m y) as (_ & _ & <- & _ & <-). exact (cs_const_top _ C _ _ Hy).
  - intros m [x H]. apply SN in H as (y & Hy & _). apply (cs_fresh_n _ C). eauto.
  - intros c [x H]. apply SC in H as (y & Hy & _). apply (cs_fresh_c _ C). eauto.
  - exact (cs_fresh_k _ C).
  - exact (cs_top _ C).
  - exact (cs_stack _ C).
Qed.
Lemma mv_in_chans m : in_chans w' m = map mv_ch (in_chans w m).
Proof.
  unfold in_chans. rewrite mv_nodes. destruct (w_nodes w !! m) as [x|]; [|reflexivity]. cbn [fmap option_fmap option_map]. rewrite mv_ins.
  induction (n_ins x) as [|c l IH]; [reflexivity|]. cbn [omap list_omap]. rewrite mv_chans, IH. destruct (w_chans w !! c); reflexivity.
Qed.
Definition ren (x : nat) : nat := if decide (x = a) then s else x.
Lemma mv_operands m : operands w' m = map ren (operands w m).
Proof. unfold operands. rewrite mv_in_chans, !map_map. apply map_ext. intro ch. unfold mv_ch, ren. destruct (decide _); reflexivity. Qed.
Lemma mv_shaped : well_shaped w -> well_shaped w'.
Proof.
  intros S m x H. rewrite mv_nodes in H. destruct (w_nodes w !! m) as [y|] eqn:Hy; [|discriminate]. injection H as <-.
  destruct (S m y Hy) as (k & d & A & E). exists k, d. destruct (mv_head m y) as (<- & _). split; [exact A|]. rewrite mv_in_chans, map_map, <- E. apply map_ext.
  intro ch. unfold mv_ch. destruct (decide _); reflexivity.
Qed.
End Move.

(** ** disconnecting [o], which reads [s] through channel [c] only *)
Definition cut (w : world) (o s c : nat) : world :=
  set_chans (set_nodes w (alter (fun x => set_ins x []) o (alter (fun x => set_outs x (drop c (n_outs x))) s (w_nodes w)))) (delete c (w_chans w)).
Section Cut.
Variables (w : world) (o s c : nat) (no ns : node) (ch : chan).
Hypothesis (C : consistent w) (Hno : w_nodes w !! o = Some no) (Hns : w_nodes w !! s = Some ns) (Hc : w_chans w !! c = Some ch)
  (Hin : n_ins no = [c]) (Hsrc : c_src ch = s) (Ne : s <> o).
Let w' := cut w o s c.
Definition cut_node (m : nat) (x : node) : node :=
  if decide (m = o) then set_ins x [] else if decide (m = s) then set_outs x (drop c (n_outs x)) else x.
Lemma cut_nodes m : w_nodes w' !! m = cut_node m <$> w_nodes w !! m.
Proof.
  cbn. unfold cut_node. destruct (decide (m = o)) as [->|Na].
  - rewrite lookup_alter, lookup_alter_ne by auto. reflexivity.
  - rewrite lookup_alter_ne by auto. destruct (decide (m = s)) as [->|Ns]; [rewrite lookup_alter; reflexivity|rewrite lookup_alter_ne by auto]. destruct (w_nodes w !! m); reflexivity.
Qed.
Lemma cut_head m x : same_head x (cut_node m x).
Proof. unfold cut_node. destruct (decide _); [repeat split|]. destruct (decide _); repeat split. Qed.
Lemma cut_tgt : c_tgt ch = o.
Proof. destruct (cs_ins _ C _ _ c Hno) as (y & Hy & E); [rewrite Hin; constructor|]. rewrite Hc in Hy. injection Hy as <-. exact E. Qed.
Lemma cut_ins m x : w_nodes w !! m = Some x -> m <> o -> n_ins (cut_node m x) = n_ins x /\ c ∉ n_ins x.
Proof.
  intros H N. split; [unfold cut_node; rewrite decide_False by auto; destruct (decide _); reflexivity|].
  intro X. destruct (cs_ins _ C _ _ _ H X) as (y & Hy & E). rewrite Hc in Hy. injection Hy as <-. rewrite cut_tgt in E. congruence.
Qed.
Lemma cut_consistent : consistent w'.
Proof.
  assert (SN : forall m x, w_nodes w' !! m = Some x -> exists y, w_nodes w !! m = Some y /\ x = cut_node m y).
  { intros m x H. rewrite cut_nodes in H. destruct (w_nodes w !! m) as [y|]; [|discriminate]. injection H as <-. eauto. }
  assert (SC : forall d y, w_chans w' !! d = Some y <-> w_chans w !! d = Some y /\ d <> c).
  { intros d y. cbn. rewrite lookup_delete_Some. intuition congruence. }
  constructor.
  - intros d y H. apply SC in H as [H N]. destruct (cs_src _ C _ _ H) as (x & Hx & X). exists (cut_node (c_src y) x). rewrite cut_nodes, Hx. split; [reflexivity|].
    unfold cut_node. destruct (decide _); [exact X|]. destruct (decide _); [apply drop_in; auto|exact X].
  - intros d y H. apply SC in H as [H N]. destruct (cs_tgt _ C _ _ H) as (x & Hx & X). exists (cut_node (c_tgt y) x). rewrite cut_nodes, Hx. split; [reflexivity|].
    destruct (decide (c_tgt y = o)) as [E|E].
    + rewrite E, Hno in Hx. injection Hx as <-. rewrite Hin in X. apply elem_of_list_singleton in X. congruence.
    + destruct (cut_ins _ _ Hx E) as [-> _]. exact X.
  - intros m x d H X. apply SN in H as (y & Hy & ->).
    assert (Hd : d ∈ n_outs y /\ d <> c).
    { unfold cut_node in X. destruct (decide (m = o)) as [->|].
      - cbn in X. split; [exact X|]. intros ->. destruct (cs_outs _ C _ _ _ Hy X) as (z & Hz & E). rewrite Hc in Hz. injection Hz as <-. congruence.
      - destruct (decide (m = s)) as [->|]; [apply drop_in in X; exact X|]. split; [exact X|]. intros ->.
        destruct (cs_outs _ C _ _ _ Hy X) as (z & Hz & E). rewrite Hc in Hz. injection Hz as <-. congruence. }
    destruct Hd as [Hd N]. destruct (cs_outs _ C _ _ _ Hy Hd) as (z & Hz & E). exists z. split; [apply SC; auto|exact E].
  - intros m x d H X. apply SN in H as (y & Hy & ->). destruct (decide (m = o)) as [->|N].
    + unfold cut_node in X. rewrite decide_True in X by auto. inversion X.
    + destruct (cut_ins _ _ Hy N) as [E Q]. rewrite E in X. destruct (cs_ins _ C _ _ _ Hy X) as (z & Hz & Ez). exists z. split; [|exact Ez]. apply SC. split; [exact Hz|]. intros ->. auto.
  - intros m x H. apply SN in H as (y & Hy & ->). unfold cut_node. destruct (decide _); [constructor|]. destruct (decide _); exact (cs_nd_ins _ C _ _ Hy).
  - intros m x H. apply SN in H as (y & Hy & ->). unfold cut_node. destruct (decide _); [exact (cs_nd_outs _ C _ _ Hy)|]. destruct (decide _); [apply drop_nodup|]; exact (cs_nd_outs _ C _ _ Hy).
  - intros k g m H Hm. destruct (cs_member _ C _ _ _ H Hm) as (x & Hx & E). exists (cut_node m x). rewrite cut_nodes, Hx. split; [reflexivity|].
    destruct (cut_head m x) as (_ & _ & _ & _ & <-). exact E.
  - intros m x H. apply SN in H as (y & Hy & ->). destruct (cut_head m y) as (_ & _ & _ & _ & <-). exact (cs_owned _ C _ _ Hy).
  - exact (cs_nd_nodes _ C).
  - intros k g m H. rewrite (cs_starts _ C _ _ _ H). split; intros [A (x & B & D)]; (split; [exact A|]).
    + exists (cut_node m x). rewrite cut_nodes, B. split; [reflexivity|]. destruct (cut_head m x) as (<- & _). exact D.
    + apply SN in B as (y & B & ->). exists y. split; [exact B|]. destruct (cut_head m y) as (E & _). rewrite E. exact D.
  - exact (cs_nd_starts _ C).
  - intros m x H. apply SN in H as (y & Hy & ->). destruct (cut_head m y) as (_ & <- & _). exact (cs_type _ C _ _ Hy).
  - intros m x H. apply SN in H as (y & Hy & ->). destruct (cut_head m y) as (<- & _ & <- & _). exact (cs_const _ C _ _ Hy).
  - intros m x H. apply SN in H as (y & Hy & ->). destruct (cut_head m y) as (_ & _ & <- & _ & <-). exact (cs_const_top _ C _ _ Hy).
  - intros m [x H]. apply SN in H as (y & Hy & _). apply (cs_fresh_n _ C). eauto.
  - intros d [x H]. apply SC in H as [H _]. apply (cs_fresh_c _ C). eauto.
  - exact (cs_fresh_k _ C).
  - exact (cs_top _ C).
  - exact (cs_stack _ C).
Qed.
Lemma cut_in_chans m : in_chans w' m = if decide (m = o) then [] else in_chans w m.
Proof.
  unfold in_chans. rewrite cut_nodes. destruct (w_nodes w !! m) as [x|] eqn:E; cbn [fmap option_fmap option_map]; [|destruct (decide _); reflexivity].
  destruct (decide (m = o)) as [->|N]; [unfold cut_node; rewrite decide_True by auto; reflexivity|]. destruct (cut_ins m x E N) as [-> Q].
  clear E. induction (n_ins x) as [|d l IH]; [reflexivity|]. cbn [omap list_omap]. apply not_elem_of_cons in Q as [Q1 Q2]. cbn [w' cut set_chans set_nodes w_chans].
  rewrite lookup_delete_ne by auto. change (omap (fun c0 => w_chans w' !! c0) l) with (omap (fun c0 => delete c (w_chans w) !! c0) l) in IH. rewrite IH by auto. reflexivity.
Qed.
End Cut.

(** ** handing the driver of [o] (channel [c]) over to [v], which has none *)
Definition hand (w : world) (o v c : nat) : world :=
  set_chans (set_nodes w (alter (fun x => set_ins x []) o (alter (fun x => set_ins x [c]) v (w_nodes w)))) (alter (set_tgt v) c (w_chans w)).
Section Hand.
Variables (w : world) (o v c : nat) (no nv : node) (ch : chan).
Hypothesis (C : consistent w) (Hno : w_nodes w !! o = Some no) (Hnv : w_nodes w !! v = Some nv) (Hc : w_chans w !! c = Some ch)
  (Hin : n_ins no = [c]) (Hvi : n_ins nv = []) (Ne : v <> o).
Let w' := hand w o v c.
Definition hand_node (m : nat) (x : node) : node :=
  if decide (m = o) then set_ins x [] else if decide (m = v) then set_ins x [c] else x.
Lemma hand_nodes m : w_nodes w' !! m = hand_node m <$> w_nodes w !! m.
Proof.
  cbn. unfold hand_node. destruct (decide (m = o)) as [->|Na].
  - rewrite lookup_alter, lookup_alter_ne by auto. reflexivity.
  - rewrite lookup_alter_ne by auto. destruct (decide (m = v)) as [->|Ns]; [rewrite lookup_alter; reflexivity|rewrite lookup_alter_ne by auto]. destruct (w_nodes w !! m); reflexivity.
Qed.
Lemma hand_head m x : same_head x (hand_node m x).
Proof. unfold hand_node. destruct (decide _); [repeat split|]. destruct (decide _); repeat split. Qed.
Lemma hand_outs m x : n_outs (hand_node m x) = n_outs x.
Proof. unfold hand_node. destruct (decide _); [reflexivity|]. destruct (decide _); reflexivity. Qed.
Definition hand_ch (d : nat) (y : chan) : chan := if decide (d = c) then set_tgt v y else y.
Lemma hand_chans d : w_chans w' !! d = hand_ch d <$> w_chans w !! d.
Proof. cbn. unfold hand_ch. destruct (decide (d = c)) as [->|N]; [rewrite lookup_alter; reflexivity|rewrite lookup_alter_ne by auto; destruct (w_chans w !! d); reflexivity]. Qed.
Lemma hand_tgt : c_tgt ch = o.
Proof. destruct (cs_ins _ C _ _ c Hno) as (y & Hy & E); [rewrite Hin; constructor|]. rewrite Hc in Hy. injection Hy as <-. exact E. Qed.
Lemma hand_other m x : w_nodes w !! m = Some x -> m <> o -> c ∉ n_ins x.
Proof. intros H N X. destruct (cs_ins _ C _ _ _ H X) as (y & Hy & E). rewrite Hc in Hy. injection Hy as <-. rewrite hand_tgt in E. congruence. Qed.
Lemma hand_consistent : consistent w'.
Proof.
  assert (SN : forall m x, w_nodes w' !! m = Some x -> exists y, w_nodes w !! m = Some y /\ x = hand_node m y).
  { intros m x H. rewrite hand_nodes in H. destruct (w_nodes w !! m) as [y|]; [|discriminate]. injection H as <-. eauto. }
  assert (SC : forall d y, w_chans w' !! d = Some y -> exists z, w_chans w !! d = Some z /\ y = hand_ch d z).
  { intros d y H. rewrite hand_chans in H. destruct (w_chans w !! d) as [z|]; [|discriminate]. injection H as <-. eauto. }
  assert (ES : forall d y, c_src (hand_ch d y) = c_src y) by (intros; unfold hand_ch; destruct (decide _); reflexivity).
  constructor.
  - intros d y H. apply SC in H as (z & Hz & ->). destruct (cs_src _ C _ _ Hz) as (x & Hx & X). rewrite ES. exists (hand_node (c_src z) x). rewrite hand_nodes, Hx, hand_outs. auto.
  - intros d y H. apply SC in H as (z & Hz & ->). unfold hand_ch. destruct (decide (d = c)) as [->|N].
    + cbn [c_tgt set_tgt]. exists (hand_node v nv). rewrite hand_nodes, Hnv. split; [reflexivity|]. unfold hand_node. rewrite decide_False, decide_True by auto. constructor.
    + destruct (cs_tgt _ C _ _ Hz) as (x & Hx & X). exists (hand_node (c_tgt z) x). rewrite hand_nodes, Hx. split; [reflexivity|].
      unfold hand_node. destruct (decide (c_tgt z = o)) as [E|E].
      * rewrite E, Hno in Hx. injection Hx as <-. rewrite Hin in X. apply elem_of_list_singleton in X. congruence.
      * destruct (decide (c_tgt z = v)) as [E2|E2]; [|exact X]. rewrite E2, Hnv in Hx. injection Hx as <-. rewrite Hvi in X. inversion X.
  - intros m x d H X. apply SN in H as (y & Hy & ->). rewrite hand_outs in X. destruct (cs_outs _ C _ _ _ Hy X) as (z & Hz & E). exists (hand_ch d z). rewrite hand_chans, Hz, ES. auto.
  - intros m x d H X. apply SN in H as (y & Hy & ->). rewrite hand_chans. unfold hand_node in X. destruct (decide (m = o)) as [->|No]; [inversion X|].
    destruct (decide (m = v)) as [->|Nv].
    + apply elem_of_list_singleton in X as ->. rewrite Hc. eexists. split; [reflexivity|]. unfold hand_ch. rewrite decide_True by auto. reflexivity.
    + pose proof (hand_other _ _ Hy No) as Q. destruct (cs_ins _ C _ _ _ Hy X) as (z & Hz & E). rewrite Hz. eexists. split; [reflexivity|]. unfold hand_ch.
      rewrite decide_False; [exact E|]. intros ->. auto.
  - intros m x H. apply SN in H as (y & Hy & ->). unfold hand_node. destruct (decide _); [constructor|]. destruct (decide _); [apply NoDup_singleton|exact (cs_nd_ins _ C _ _ Hy)].
  - intros m x H. apply SN in H as (y & Hy & ->). rewrite hand_outs. exact (cs_nd_outs _ C _ _ Hy).
  - intros k g m H Hm. destruct (cs_member _ C _ _ _ H Hm) as (x & Hx & E). exists (hand_node m x). rewrite hand_nodes, Hx. split; [reflexivity|].
    destruct (hand_head m x) as (_ & _ & _ & _ & <-). exact E.
  - intros m x H. apply SN in H as (y & Hy & ->). destruct (hand_head m y) as (_ & _ & _ & _ & <-). exact (cs_owned _ C _ _ Hy).
  - exact (cs_nd_nodes _ C).
  - intros k g m H. rewrite (cs_starts _ C _ _ _ H). split; intros [A (x & B & D)]; (split; [exact A|]).
    + exists (hand_node m x). rewrite hand_nodes, B. split; [reflexivity|]. destruct (hand_head m x) as (<- & _). exact D.
    + apply SN in B as (y & B & ->). exists y. split; [exact B|]. destruct (hand_head m y) as (E & _). rewrite E. exact D.
  - exact (cs_nd_starts _ C).
  - intros m x H. apply SN in H as (y & Hy & ->). destruct (hand_head m y) as (_ & <- & _). exact (cs_type _ C _ _ Hy).
  - intros m x H. apply SN in H as (y & Hy & ->). destruct (hand_head m y) as (<- & _ & <- & _). exact (cs_const _ C _ _ Hy).
  - intros m x H. apply SN in H as (y & Hy & ->). destruct (hand_head m y) as (_ & _ & <- & _ & <-). exact (cs_const_top _ C _ _ Hy).
  - intros m [x H]. apply SN in H as (y & Hy & _). apply (cs_fresh_n _ C). eauto.
  - intros d [x H]. apply SC in H as (y & Hy & _). apply (cs_fresh_c _ C). eauto.
  - exact (cs_fresh_k _ C).
  - exact (cs_top _ C).
  - exact (cs_stack _ C).
Qed.
Lemma hand_in_chans m : in_chans w' m = if decide (m = o) then [] else if decide (m = v) then [set_tgt v ch] else in_chans w m.
Proof.
  unfold in_chans. rewrite hand_nodes. destruct (decide (m = o)) as [->|No].
  { rewrite Hno. cbn [fmap option_fmap option_map]. unfold hand_node. destruct (decide (o = o)); [reflexivity|congruence]. }
  destruct (decide (m = v)) as [->|Nv].
  { rewrite Hnv. cbn [fmap option_fmap option_map]. unfold hand_node. rewrite decide_False, decide_True by auto. cbn [set_ins n_ins omap list_omap]. rewrite hand_chans, Hc.
    cbn [fmap option_fmap option_map]. unfold hand_ch. destruct (decide (c = c)); [reflexivity|congruence]. }
  destruct (w_nodes w !! m) as [x|] eqn:E; cbn [fmap option_fmap option_map]; [|reflexivity]. unfold hand_node. rewrite !decide_False by auto.
  pose proof (hand_other m x E No) as Q. clear E. induction (n_ins x) as [|d l IH]; [reflexivity|]. cbn [omap list_omap]. apply not_elem_of_cons in Q as [Q1 Q2].
  rewrite hand_chans, IH by auto. destruct (w_chans w !! d); [|reflexivity]. cbn [fmap option_fmap option_map]. unfold hand_ch. destruct (decide (d = c)); [congruence|reflexivity].
Qed.
End Hand.

(** ** renaming *)
Section Rename.
Variables (w : world) (k n : nat) (s : string) (g : graph).
Hypothesis (C : consistent w) (Hg : w_kern w !! k = Some g).
Definition rn_names (l : list (string * nat)) := List.filter (fun p : string * nat => negb (String.eqb (fst p) s)) l.
Definition rn : world := set_kern (set_nodes w (alter (fun nd => set_name nd EmptyString) n (w_nodes w)))
  (<[k := mkGraph (g_nodes g) (g_starts g) (rn_names (g_names g))]> (w_kern w)).
Definition rn_node (m : nat) (x : node) : node := if decide (m = n) then set_name x EmptyString else x.
Lemma rn_nodes m : w_nodes rn !! m = rn_node m <$> w_nodes w !! m.
Proof. cbn. unfold rn_node. destruct (decide (m = n)) as [->|N]; [rewrite lookup_alter; reflexivity|rewrite lookup_alter_ne by auto; destruct (w_nodes w !! m); reflexivity]. Qed.
Lemma rn_head m x : n_op (rn_node m x) = n_op x /\ n_ty (rn_node m x) = n_ty x /\ n_vk (rn_node m x) = n_vk x /\ n_meta (rn_node m x) = n_meta x /\
  n_ins (rn_node m x) = n_ins x /\ n_outs (rn_node m x) = n_outs x.
Proof. unfold rn_node. destruct (decide _); repeat split. Qed.
Lemma rn_kern k' g' : w_kern rn !! k' = Some g' -> exists g0, w_kern w !! k' = Some g0 /\ g_nodes g' = g_nodes g0 /\ g_starts g' = g_starts g0.
Proof. cbn. intro H. apply lookup_insert_Some in H as [[<- <-]|[Ne H]]; eauto. Qed.
Lemma rn_consistent : consistent rn.
Proof.
  assert (SN : forall m x, w_nodes rn !! m = Some x -> exists y, w_nodes w !! m = Some y /\ x = rn_node m y).
  { intros m x H. rewrite rn_nodes in H. destruct (w_nodes w !! m) as [y|]; [|discriminate]. injection H as <-. eauto. }
  constructor.
  - intros c ch H. destruct (cs_src _ C _ _ H) as (x & Hx & X). exists (rn_node (c_src ch) x). rewrite rn_nodes, Hx. destruct (rn_head (c_src ch) x) as (_ & _ & _ & _ & _ & ->). auto.
  - intros c ch H. destruct (cs_tgt _ C _ _ H) as (x & Hx & X). exists (rn_node (c_tgt ch) x). rewrite rn_nodes, Hx. destruct (rn_head (c_tgt ch) x) as (_ & _ & _ & _ & -> & _). auto.
  - intros m x c H X. apply SN in H as (y & Hy & ->). destruct (rn_head m y) as (_ & _ & _ & _ & _ & E). rewrite E in X. exact (cs_outs _ C _ _ _ Hy X).
  - intros m x c H X. apply SN in H as (y & Hy & ->). destruct (rn_head m y) as (_ & _ & _ & _ & E & _). rewrite E in X. exact (cs_ins _ C _ _ _ Hy X).
  - intros m x H. apply SN in H as (y & Hy & ->). destruct (rn_head m y) as (_ & _ & _ & _ & -> & _). exact (cs_nd_ins _ C _ _ Hy).
  - intros m x H. apply SN in H as (y & Hy & ->). destruct (rn_head m y) as (_ & _ & _ & _ & _ & ->). exact (cs_nd_outs _ C _ _ Hy).
  - intros k' g' m H Hm. apply rn_kern in H as (g0 & H & E1 & E2). rewrite E1 in Hm. destruct (cs_member _ C _ _ _ H Hm) as (x & Hx & E). exists (rn_node m x). rewrite rn_nodes, Hx. split; [reflexivity|].
    destruct (rn_head m x) as (_ & _ & _ & -> & _). exact E.
  - intros m x H. apply SN in H as (y & Hy & ->). destruct (rn_head m y) as (_ & _ & _ & -> & _). destruct (cs_owned _ C _ _ Hy) as (g0 & H & X).
    cbn. destruct (decide (n_meta y = k)) as [Ek|N]; [rewrite Ek, lookup_insert|rewrite lookup_insert_ne by auto; eauto]. eexists. split; [reflexivity|]. cbn. rewrite Ek, Hg in H. injection H as <-. exact X.
  - intros k' g' H. apply rn_kern in H as (g0 & H & -> & _). exact (cs_nd_nodes _ C _ _ H).
  - intros k' g' m H. apply rn_kern in H as (g0 & H & -> & ->). rewrite (cs_starts _ C _ _ _ H). split; intros [A (x & B & D)]; (split; [exact A|]).
    + exists (rn_node m x). rewrite rn_nodes, B. split; [reflexivity|]. destruct (rn_head m x) as (-> & _). exact D.
    + apply SN in B as (y & B & ->). exists y. split; [exact B|]. destruct (rn_head m y) as (E & _). rewrite E in D. exact D.
  - intros k' g' H. apply rn_kern in H as (g0 & H & _ & ->). exact (cs_nd_starts _ C _ _ H).
  - intros m x H. apply SN in H as (y & Hy & ->). destruct (rn_head m y) as (_ & -> & _). exact (cs_type _ C _ _ Hy).
  - intros m x H. apply SN in H as (y & Hy & ->). destruct (rn_head m y) as (-> & _ & -> & _). exact (cs_const _ C _ _ Hy).
  - intros m x H. apply SN in H as (y & Hy & ->). destruct (rn_head m y) as (_ & _ & -> & -> & _). exact (cs_const_top _ C _ _ Hy).
  - intros m [x H]. apply SN in H as (y & Hy & _). apply (cs_fresh_n _ C). eauto.
  - exact (cs_fresh_c _ C).
  - intros k' [g' H]. apply rn_kern in H as (g0 & H & _). apply (cs_fresh_k _ C). eauto.
  - intros k' H. destruct (cs_top _ C _ H) as (g0 & Hg0). cbn. apply lookup_insert_is_Some'. eauto.
  - exact (cs_stack _ C).
Qed.
Lemma rn_in_chans m : in_chans rn m = in_chans w m.
Proof.
  unfold in_chans. rewrite rn_nodes. destruct (w_nodes w !! m) as [x|]; [|reflexivity]. cbn [fmap option_fmap option_map].
  destruct (rn_head m x) as (_ & _ & _ & _ & -> & _). reflexivity.
Qed.
Lemma reset_name_rn : name_lookup (g_names g) s = Some n -> reset_name w k s = Ok rn.
Proof. intro E. unfold reset_name. rewrite Hg. cbn [of_opt rbind]. rewrite E. reflexivity. Qed.
End Rename.
