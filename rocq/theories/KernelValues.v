(** * The function of a variable does not change when the kernel grows (proofs). *)
From Coq Require Import ZArith Bool String Lia.
From stdpp Require Import gmap list.
From Verif Require Import Types Word Value Graph GraphSpec TypesProofs BuilderProofs BuilderProofs2 BuilderTopo GraphFacts StreamSpec Dfcir DfcirBuild.
Local Open Scope Z_scope.

Lemma kval_agree {V} (I : interp V) w1 w2 (G : nat -> Prop) :
  (forall n nd, G n -> w_nodes w1 !! n = Some nd -> exists nd', w_nodes w2 !! n = Some nd' /\ same_head nd nd') ->
  (forall n t, G n -> type_of w1 n = Some t -> type_of w2 n = Some t) ->
  (forall n, G n -> is_Some (w_nodes w1 !! n) -> operands w2 n = operands w1 n) ->
  (forall n a, G n -> is_Some (w_nodes w1 !! n) -> a ∈ operands w1 n -> G a) ->
  forall n i x, kval I w1 n i x -> G n -> kval I w2 n i x.
Proof.
  intros HN HT HO HC. apply (kval_ind' w1 I (fun n i x => G n -> kval I w2 n i x)).
  - intros n nd i H Ho Hv Hi Gn. destruct (HN n nd Gn H) as (nd' & H' & E1 & E2 & E3 & E4 & E5). rewrite E4. apply kv_stream; congruence || auto.
  - intros n nd i H Ho Hv Gn. destruct (HN n nd Gn H) as (nd' & H' & E1 & E2 & E3 & E4 & E5). rewrite E4. apply kv_scalar; congruence || auto.
  - intros n nd t c i H Ho Ht Gn. destruct (HN n nd Gn H) as (nd' & H' & E1 & _). eapply kv_const; [exact H'|congruence|auto].
  - intros n nd k a i x H Ho Ha IH Gn. destruct (HN n nd Gn H) as (nd' & H' & E1 & _).
    eapply kv_offset; [exact H'|rewrite <- E1; exact Ho|rewrite HO by eauto; exact Ha|]. apply IH. eapply HC; eauto. rewrite Ha. constructor.
  - intros n nd a i x H Ho Ha IH Gn. destruct (HN n nd Gn H) as (nd' & H' & E1 & _).
    eapply kv_out; [exact H'|rewrite <- E1; exact Ho|rewrite HO by eauto; exact Ha|]. apply IH. eapply HC; eauto. rewrite Ha. constructor.
  - intros n nd c arms a i xc x H Ho Ha Hi IHc La IHa Ka Arms Gn. destruct (HN n nd Gn H) as (nd' & H' & E1 & _).
    assert (GA : forall b, b ∈ c :: arms -> G b) by (intros b Hb; eapply HC; eauto; rewrite Ha; exact Hb).
    eapply kv_mux; [exact H'|rewrite <- E1; exact Ho|rewrite HO by eauto; exact Ha|exact Hi|apply IHc, GA; constructor|exact La|apply IHa, GA; right; eapply elem_of_list_lookup_2; exact La|].
    intros b Hb. destruct (Arms b Hb) as (y & Y). exists y. apply Y, GA. right. exact Hb.
  - intros n nd t i xs x H Ho Ht Hi F2 E Gn. destruct (HN n nd Gn H) as (nd' & H' & E1 & _).
    eapply kv_op; [exact H'|rewrite <- E1; exact Ho|apply HT; [exact Gn|exact Ht]|exact Hi| |rewrite <- E1; exact E].
    rewrite HO by eauto. assert (GA : forall b, b ∈ operands w1 n -> G b) by (intros b Hb; eapply HC; eauto).
    clear -F2 GA. induction F2 as [|a y l ys Hy F2 IH]; constructor; [apply Hy, GA; constructor|apply IH; intros b Hb; apply GA; right; exact Hb].
Qed.

Lemma operand_exists w n a : WF w -> is_Some (w_nodes w !! n) -> a ∈ operands w n -> is_Some (w_nodes w !! a).
Proof.
  intros [C _] _ H. apply (readers_operands w a n C) in H. unfold readers, out_chans in H. destruct (w_nodes w !! a) as [nd|] eqn:E; [eauto|].
  cbn in H. inversion H.
Qed.
Lemma type_exists w n : WF w -> is_Some (w_nodes w !! n) -> exists t, type_of w n = Some t.
Proof. intros [C _] (nd & H). destruct (cs_type w C n nd H) as (t & E). exists t. unfold type_of. rewrite H. exact E. Qed.

(** the two graphs agree on a set of old nodes closed under operands *)
Lemma kval_same {V} (I : interp V) w w' (G : nat -> Prop) : WF w -> 
  (forall n nd, w_nodes w !! n = Some nd -> exists nd', w_nodes w' !! n = Some nd' /\ same_head nd nd') ->
  (forall t ty, w_types w !! t = Some ty -> w_types w' !! t = Some ty) ->
  (forall n, G n -> is_Some (w_nodes w !! n)) ->
  (forall n, G n -> operands w' n = operands w n) ->
  (forall n a, G n -> a ∈ operands w n -> G a) ->
  forall n i x, G n -> (kval I w n i x <-> kval I w' n i x).
Proof.
  intros W HN HT GE HO HC n i x Gn.
  assert (T : forall m t, G m -> (type_of w m = Some t <-> type_of w' m = Some t)).
  { intros m t Gm. destruct (GE m Gm) as (nd & Hm). destruct (HN m nd Hm) as (nd' & Hm' & _ & E & _).
    destruct (type_exists w m W (GE m Gm)) as (t0 & Et). pose proof Et as Et0. unfold type_of in Et. rewrite Hm in Et. apply HT in Et.
    assert (Et1 : type_of w' m = Some t0) by (unfold type_of; rewrite Hm', <- E; exact Et). rewrite Et0, Et1. reflexivity. }
  split; intro K.
  - eapply (kval_agree I w w' G); eauto. intros m t Gm. apply T. exact Gm.
  - eapply (kval_agree I w' w G); eauto.
    + intros m nd' Gm Hm'. destruct (GE m Gm) as (nd & Hm). destruct (HN m nd Hm) as (nd2 & Hm2 & E1 & E2 & E3 & E4 & E5). rewrite Hm' in Hm2. injection Hm2 as <-.
      exists nd. split; [exact Hm|]. repeat split; congruence.
    + intros m t Gm. apply T. exact Gm.
    + intros m Gm _. symmetry. apply HO. exact Gm.
    + intros m a Gm _ Ha. rewrite HO in Ha by exact Gm. eapply HC; eauto.
Qed.

Section Step.
Context (F : fltops).
Lemma step_kval {V} (I : interp V) w c w' r : step F w c = Ok (w', r) -> WF w -> (forall a b, c <> CConnect a b) ->
  forall n i x, is_Some (w_nodes w !! n) -> (kval I w n i x <-> kval I w' n i x).
Proof.
  intros H W NC n i x Hn. destruct (step_ext F _ _ _ _ H W) as [[W' (P1 & P2 & P3 & P4)] _].
  assert (FR : w_nodes w !! r = None -> kval I w n i x <-> kval I w' n i x).
  { intro Fr. eapply (kval_same I w w' (fun m => is_Some (w_nodes w !! m))); eauto.
    - intros m (nd & Hm). unfold operands. rewrite P2; [reflexivity|eauto|]. intros ->. congruence.
    - intros m a Hm Ha. eapply operand_exists; eauto. }
  destruct (step_cases F _ _ _ _ H W) as [(E1 & E2 & E3)|[(k & o & ty & vk & nm & args & NN & _)|[(t & v & _ & [->|(Fr & _)])|(b & ->)]]].
  - eapply (kval_same I w w' (fun m => is_Some (w_nodes w !! m))); eauto.
    + intros m (nd & Hm). unfold operands, in_chans. rewrite E1, E2. reflexivity.
    + intros m a Hm Ha. eapply operand_exists; eauto.
  - apply FR. apply NN.
  - reflexivity.
  - auto.
  - exfalso. eapply NC. reflexivity.
Qed.

(** connecting a fresh output changes only that output, which takes the value of its driver *)
Lemma connect_kval {V} (I : interp V) w a b w' r : step F w (CConnect a b) = Ok (w', r) -> WF w -> ok_call w (CConnect a b) ->
  (forall n i x, is_Some (w_nodes w !! n) -> n <> a -> (kval I w n i x <-> kval I w' n i x)) /\
  (forall nd i x, w_nodes w !! a = Some nd -> n_op nd = OUT -> (kval I w' a i x <-> kval I w b i x)).
Proof.
  intros H W (Ne & Oa & Ra & _). destruct (step_ext F _ _ _ _ H W) as [[W' (P1 & P2 & P3 & P4)] (-> & Ha & Hb & Hin & _)].
  assert (S1 : forall n i x, is_Some (w_nodes w !! n) -> n <> a -> (kval I w n i x <-> kval I w' n i x)).
  { intros n i x Hn Hna. eapply (kval_same I w w' (fun m => is_Some (w_nodes w !! m) /\ m <> a)); eauto.
    - intros m [Hm Hma]. exact Hm.
    - intros m [Hm Hma]. unfold operands. rewrite P2; auto.
    - intros m c [Hm Hma] Hc. split; [eapply operand_exists; eauto|]. intros ->. apply (readers_operands w a m (proj1 W)) in Hc. rewrite Ra in Hc. inversion Hc. }
  split; [exact S1|]. intros nd i x Hnd Ho. destruct (P1 a nd Hnd) as (nd' & Hnd' & Eo & _).
  assert (Op : operands w' a = [b]). { unfold operands. rewrite Hin, map_app. unfold operands in Oa. rewrite Oa. reflexivity. }
  rewrite (S1 b i x Hb ltac:(congruence)). split.
  - intro K. inversion K; subst; rewrite Hnd' in *; match goal with E : Some _ = Some _ |- _ => injection E as <- end; rewrite <- Eo, Ho in *; try discriminate; try contradiction.
    congruence.
  - intro K. eapply kv_out; [exact Hnd'|congruence|exact Op|exact K].
Qed.
End Step.
