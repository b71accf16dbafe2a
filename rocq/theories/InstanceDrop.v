(** * Destroying a kernel (proofs). *)
From Coq Require Import ZArith Bool String Lia.
From stdpp Require Import gmap list.
From Verif Require Import Types Word Value Graph GraphSpec BuilderProofs BuilderProofs2 BuilderTopo StreamSpec DfcirBuild KernelValues TypingSpec TypingProofs
  Instance InstanceSpec InstanceProofs InstanceBind InstanceLoop InstanceMain InstanceStep.

Lemma foldr_delete {A} : forall l (M : gmap nat A) m, foldr (fun n M => delete n M) M l !! m = if decide (m ∈ l) then None else M !! m.
Proof.
  induction l as [|a l IH]; intros M m; cbn [foldr].
  - rewrite decide_False by (intro X; inversion X). reflexivity.
  - destruct (decide (m = a)) as [->|N].
    + rewrite lookup_delete, decide_True by constructor. reflexivity.
    + rewrite lookup_delete_ne by auto. rewrite IH. destruct (decide (m ∈ l)) as [H|H].
      * rewrite decide_True by (right; exact H). reflexivity.
      * rewrite decide_False; [reflexivity|]. intro X. apply elem_of_cons in X as [X|X]; auto.
Qed.

Section Drop.
Variables (w : world) (k : nat).
Hypothesis (W : WF w) (N : named w) (Lo : local w) (D : drop_ok w k).

Record dropped (w' : world) : Prop := {
  dd_run : do_drop w k = Ok w';
  dd_WF : WF w'; dd_named : named w'; dd_local : local w';
  dd_types : w_types w' = w_types w; dd_next : w_next w' = w_next w;
  dd_stack : w_stack w' = tail (w_stack w);
  dd_top : w_top w' = if decide (w_top w = Some k) then None else w_top w;
  dd_kern : w_kern w' = delete k (w_kern w);
  dd_nodes : forall m, w_nodes w' !! m = match w_nodes w !! m with Some nd => if decide (n_meta nd = k) then None else Some nd | None => None end;
  dd_chans : forall c, w_chans w' !! c = match w_chans w !! c with Some ch => if decide (owner w (c_src ch) = k) then None else Some ch | None => None end;
  dd_in : forall m, is_Some (w_nodes w' !! m) -> in_chans w' m = in_chans w m
}.

Lemma drop_runs : exists w', dropped w'.
Proof.
  destruct W as [C Sh]. destruct D as [(st & Est) (g & Hg) Tp Sep].
  destruct (do_drop w k) as [w'| | |] eqn:Edrop; unfold do_drop in Edrop; rewrite Hg, Est in Edrop; cbn [of_opt rbind] in Edrop; try discriminate.
  exists w'. injection Edrop as Ew.
  assert (NN : forall m, w_nodes w' !! m = match w_nodes w !! m with Some nd => if decide (n_meta nd = k) then None else Some nd | None => None end).
  { intro m. rewrite <- Ew. cbn [leave set_top set_stack set_kern set_chans set_nodes w_nodes]. rewrite foldr_delete. destruct (w_nodes w !! m) as [nd|] eqn:Hm.
    - destruct (decide (m ∈ g_nodes g)) as [X|X]; destruct (decide (n_meta nd = k)) as [Y|Y]; try reflexivity; exfalso.
      + destruct (cs_member _ C k g m Hg X) as (y & Hy & Em). congruence.
      + destruct (cs_owned _ C m nd Hm) as (g' & Hg' & H). rewrite Y, Hg in Hg'. injection Hg' as <-. exact (X H).
    - destruct (decide _); reflexivity. }
  assert (IO : forall c, c ∈ outs_of w g <-> exists ch, w_chans w !! c = Some ch /\ owner w (c_src ch) = k).
  { intro c. unfold outs_of. rewrite elem_of_list_In, in_flat_map. split.
    - intros (m & Hm & Hc). apply elem_of_list_In in Hm. destruct (cs_member _ C k g m Hg Hm) as (nd & Hn & Em). rewrite Hn in Hc. apply elem_of_list_In in Hc.
      destruct (cs_outs _ C m nd c Hn Hc) as (ch & Hch & Es). exists ch. split; [exact Hch|]. rewrite Es. unfold owner. rewrite Hn. exact Em.
    - intros (ch & Hch & Eo). destruct (cs_src _ C c ch Hch) as (nd & Hn & Hc). unfold owner in Eo. rewrite Hn in Eo. exists (c_src ch). rewrite Hn. split; [|apply elem_of_list_In; exact Hc].
      apply elem_of_list_In. destruct (cs_owned _ C _ nd Hn) as (g' & Hg' & H). rewrite Eo, Hg in Hg'. injection Hg' as <-. exact H. }
  assert (CC : forall c, w_chans w' !! c = match w_chans w !! c with Some ch => if decide (owner w (c_src ch) = k) then None else Some ch | None => None end).
  { intro c. rewrite <- Ew. cbn [leave set_top set_stack set_kern set_chans set_nodes w_chans]. rewrite foldr_delete. destruct (w_chans w !! c) as [ch|] eqn:Hc.
    - destruct (decide (c ∈ outs_of w g)) as [X|X]; destruct (decide (owner w (c_src ch) = k)) as [Y|Y]; try reflexivity; exfalso.
      + apply IO in X as (ch' & Hch' & X). congruence.
      + apply X, IO. eauto.
    - destruct (decide _); reflexivity. }
  assert (KK : w_kern w' = delete k (w_kern w)) by (rewrite <- Ew; reflexivity).
  assert (TT : w_types w' = w_types w) by (rewrite <- Ew; reflexivity).
  assert (NX : w_next w' = w_next w) by (rewrite <- Ew; reflexivity).
  assert (SK : w_stack w' = st) by (rewrite <- Ew; cbn; rewrite Est; reflexivity).
  assert (TP : w_top w' = if decide (w_top w = Some k) then None else w_top w).
  { rewrite <- Ew. unfold leave, set_top, set_stack, set_kern, set_chans, set_nodes. cbn [w_top w_stack]. rewrite Est. cbn [tail]. destruct (decide (w_top w = Some k)) as [E|E].
    - rewrite (proj1 Tp E) in Est. injection Est as <-. reflexivity.
    - destruct st as [|a st]; [exfalso; apply E, Tp; exact Est|]. destruct (w_top w) as [t|]; [|reflexivity]. destruct (Nat.eqb_spec t k) as [->|]; [exfalso; exact (E eq_refl)|reflexivity]. }
  assert (FB : forall m nd, w_nodes w' !! m = Some nd -> w_nodes w !! m = Some nd /\ n_meta nd <> k).
  { intros m nd. rewrite NN. destruct (w_nodes w !! m) as [x|]; [|discriminate]. destruct (decide (n_meta x = k)); [discriminate|]. intro E. injection E as <-. auto. }
  assert (FW : forall m nd, w_nodes w !! m = Some nd -> n_meta nd <> k -> w_nodes w' !! m = Some nd).
  { intros m nd H X. rewrite NN, H, decide_False by exact X. reflexivity. }
  assert (CB : forall c ch, w_chans w' !! c = Some ch -> w_chans w !! c = Some ch /\ owner w (c_src ch) <> k).
  { intros m nd. rewrite CC. destruct (w_chans w !! m) as [x|]; [|discriminate]. destruct (decide (owner w (c_src x) = k)); [discriminate|]. intro E. injection E as <-. auto. }
  assert (CW : forall c ch, w_chans w !! c = Some ch -> owner w (c_src ch) <> k -> w_chans w' !! c = Some ch).
  { intros m nd H X. rewrite CC, H, decide_False by exact X. reflexivity. }
  (* a channel has both ends in k, or none *)
  assert (SP : forall c ch, w_chans w !! c = Some ch -> (owner w (c_src ch) = k <-> owner w (c_tgt ch) = k)).
  { intros c ch Hc. destruct (cs_tgt _ C c ch Hc) as (nt & Ht & Hin). apply Sep. unfold operands. apply elem_of_list_fmap. exists ch. split; [reflexivity|]. unfold in_chans. rewrite Ht.
    apply elem_of_list_omap. exists c. split; [exact Hin|exact Hc]. }
  assert (ICH : forall m, is_Some (w_nodes w' !! m) -> in_chans w' m = in_chans w m).
  { intros m (nd & Hm). pose proof (FB m nd Hm) as [Hm' Nk]. unfold in_chans. rewrite Hm, Hm'. 
    assert (Q : forall c, c ∈ n_ins nd -> w_chans w' !! c = w_chans w !! c).
    { intros c Hc. destruct (cs_ins _ C m nd c Hm' Hc) as (ch & Hch & Et). rewrite Hch. apply CW; [exact Hch|]. intro X. apply (SP c ch Hch) in X. rewrite Et in X. unfold owner in X. rewrite Hm' in X. exact (Nk X). }
    clear -Q. induction (n_ins nd) as [|c l IH]; [reflexivity|]. cbn. rewrite (Q c) by constructor. rewrite IH; [reflexivity|]. intros c' Hc'. apply Q. right. exact Hc'. }
  assert (OPS : forall m, is_Some (w_nodes w' !! m) -> operands w' m = operands w m) by (intros m Lm; unfold operands; rewrite (ICH m Lm); reflexivity).
  assert (OW : forall m nd, w_nodes w !! m = Some nd -> owner w m = n_meta nd) by (intros m nd H; unfold owner; rewrite H; reflexivity).
  assert (C' : consistent w').
  { destruct C as [c1 c2 c3 c4 c5 c6 c7 c8 c9 c10 c11 c12 c13 c14 c15 c16 c17 c18 c19]. constructor.
    - intros c ch H. apply CB in H as [H X]. destruct (c1 c ch H) as (nd & Hn & Y). exists nd. split; [apply FW; [exact Hn|]|exact Y]. rewrite <- (OW _ _ Hn). exact X.
    - intros c ch H. apply CB in H as [H X]. destruct (c2 c ch H) as (nd & Hn & Y). exists nd. split; [apply FW; [exact Hn|]|exact Y]. rewrite <- (OW _ _ Hn). intro Z. apply X, (SP c ch H), Z.
    - intros n nd c H X. apply FB in H as [H Y]. destruct (c3 n nd c H X) as (ch & Hch & E). exists ch. split; [|exact E]. apply CW; [exact Hch|]. rewrite E, (OW n nd H). exact Y.
    - intros n nd c H X. apply FB in H as [H Y]. destruct (c4 n nd c H X) as (ch & Hch & E). exists ch. split; [|exact E]. apply CW; [exact Hch|]. intro Z. apply (SP c ch Hch) in Z. rewrite E, (OW n nd H) in Z. exact (Y Z).
    - intros n nd H. apply FB in H as [H _]. eauto.
    - intros n nd H. apply FB in H as [H _]. eauto.
    - intros j gg n H X. rewrite KK in H. apply lookup_delete_Some in H as [Nj H]. destruct (c7 j gg n H X) as (nd & Hn & Em). exists nd. split; [apply FW; [exact Hn|congruence]|exact Em].
    - intros n nd H. apply FB in H as [H Y]. destruct (c8 n nd H) as (gg & Hgg & X). exists gg. split; [|exact X]. rewrite KK, lookup_delete_ne by auto. exact Hgg.
    - intros j gg H. rewrite KK in H. apply lookup_delete_Some in H as [Nj H]. eauto.
    - intros j gg n H. rewrite KK in H. apply lookup_delete_Some in H as [Nj H]. rewrite (c10 j gg n H). split; intros [X (nd & Hn & Y)]; (split; [exact X|]); exists nd; (split; [|exact Y]).
      + destruct (c7 j gg n H X) as (y & Hy & Em). apply FW; [exact Hn|congruence].
      + apply FB in Hn as [Hn _]. exact Hn.
    - intros j gg H. rewrite KK in H. apply lookup_delete_Some in H as [Nj H]. eauto.
    - intros n nd H. apply FB in H as [H _]. rewrite TT. eauto.
    - intros n nd H. apply FB in H as [H _]. eauto.
    - intros n nd H V. apply FB in H as [H Y]. rewrite TP. pose proof (c14 n nd H V) as T. rewrite decide_False; [exact T|]. rewrite T. congruence.
    - intros n [nd H]. apply FB in H as [H _]. rewrite NX. eauto.
    - intros c [ch H]. apply CB in H as [H _]. rewrite NX. eauto.
    - intros j [gg H]. rewrite KK in H. apply lookup_delete_Some in H as [_ H]. rewrite NX. eauto.
    - intros j H. rewrite TP in H. destruct (decide (w_top w = Some k)) as [E|E]; [discriminate|]. rewrite KK, lookup_delete_ne by congruence. apply c18, H.
    - intro E. rewrite SK in E. rewrite TP. destruct (decide (w_top w = Some k)) as [_|X]; [reflexivity|]. exfalso. apply X, Tp. rewrite Est, E. reflexivity. }
  constructor; auto.
  - unfold do_drop. rewrite Hg, Est. cbn [of_opt rbind]. rewrite Ew. reflexivity.
  - split; [exact C'|]. intros n nd H. destruct (FB n nd H) as [H' _]. destruct (Sh n nd H') as (j & dr & A & B). exists j, dr. split; [exact A|]. rewrite (ICH n ltac:(eauto)). exact B.
  - intros k' s n X. unfold names in X. rewrite KK in X. destruct (decide (k' = k)) as [->|Nk]; [rewrite lookup_delete in X; inversion X|]. rewrite lookup_delete_ne in X by auto.
    destruct (N k' s n X) as (nd & Hn & E1 & E2 & E3). exists nd. split; [apply FW; [exact Hn|congruence]|auto].
  - intros m a Ha. assert (Lm : is_Some (w_nodes w' !! m)) by (apply (operands_live w' m a C' Ha)). pose proof (operands_live w' m a C' Ha) as [(na & Hna) _]. rewrite (OPS m Lm) in Ha. destruct Lm as (nm & Hnm).
    apply FB in Hna as Hna'. destruct Hna' as [Hna' _]. apply FB in Hnm as Hnm'. destruct Hnm' as [Hnm' _]. destruct (Lo m a Ha) as [(y & Hy & V)|E].
    + left. exists na. split; [exact Hna|congruence].
    + right. unfold owner in *. rewrite Hna, Hnm. rewrite Hna', Hnm' in E. exact E.
  - rewrite SK, Est. reflexivity.
Qed.

Section Keep.
Variables (w' : world) (H : dropped w').
Lemma drop_back m nd : w_nodes w' !! m = Some nd -> w_nodes w !! m = Some nd /\ n_meta nd <> k.
Proof. rewrite (dd_nodes _ H). destruct (w_nodes w !! m) as [x|]; [|discriminate]. destruct (decide (n_meta x = k)); [discriminate|]. intro E. injection E as <-. auto. Qed.
Lemma drop_operands m a : a ∈ operands w' m -> is_Some (w_nodes w' !! m) /\ a ∈ operands w m.
Proof.
  intro Ha. destruct (operands_live w' m a (proj1 (dd_WF _ H)) Ha) as [_ Lm]. split; [exact Lm|]. unfold operands in *. rewrite (dd_in _ H m Lm) in Ha. exact Ha.
Qed.
Lemma drop_ranked : ranked w -> ranked w'.
Proof. intros [rank R]. exists rank. intros a b Ha. apply drop_operands in Ha as [_ Ha]. exact (R a b Ha). Qed.
Lemma drop_clean : srcs_clean w -> srcs_clean w'.
Proof. intros S n nd Hn X. destruct (drop_back n nd Hn) as [Hn' _]. pose proof (S n nd Hn' X) as E. unfold operands in *. rewrite (dd_in _ H n ltac:(eauto)). exact E. Qed.
Lemma drop_drivers : drivers_ok w -> drivers_ok w'.
Proof. intros S n nd ch Hn X. destruct (drop_back n nd Hn) as [Hn' _]. rewrite (dd_in _ H n ltac:(eauto)) in *. exact (S n nd ch Hn' X). Qed.
Lemma drop_typed : kind_typed w -> kind_typed w'.
Proof.
  intros S n nd t Hn Ht. destruct (drop_back n nd Hn) as [Hn' _]. rewrite (dd_types _ H) in Ht. destruct (S n nd t Hn' Ht) as (args & F2 & T). exists args. split; [|exact T].
  assert (E : operands w' n = operands w n) by (unfold operands; rewrite (dd_in _ H n ltac:(eauto)); reflexivity). rewrite E.
  assert (Q : forall a, a ∈ operands w n -> type_of w' a = type_of w a).
  { intros a Ha. rewrite <- E in Ha. destruct (operands_live w' n a (proj1 (dd_WF _ H)) Ha) as [(na & Hna) _]. destruct (drop_back a na Hna) as [Hna' _]. unfold type_of. rewrite Hna, Hna', (dd_types _ H). reflexivity. }
  clear -F2 Q. induction F2 as [|a ta l lt Ha _ IH]; constructor; [rewrite Q by constructor; exact Ha|apply IH; intros b Hb; apply Q; right; exact Hb].
Qed.
End Keep.
End Drop.
