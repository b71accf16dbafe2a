(** The simulated tick solves the node equations, uniquely and order-independently. *)
From Coq Require Import ZArith Bool String Lia.
From stdpp Require Import gmap list.
From Verif Require Import Instance InstanceSpec InstanceMain InstanceDrop InstanceFlow Types Word Value Graph GraphSpec BuilderProofs BuilderProofs2 BuilderTopo
     Sim SimSpec WordProofs.
Local Open Scope Z_scope.

Lemma omap_total {A B} (f : A -> option B) (l : list A) :
  (forall x, x ∈ l -> is_Some (f x)) -> forall i, omap f l !! i = (l !! i) ≫= f.
Proof.
  induction l as [|x l IH]; intros H i; [reflexivity|]. cbn.
  destruct (H x) as [y Hy]; [left|]. rewrite Hy. destruct i as [|i]; cbn; [auto|].
  apply IH. intros z Hz. apply H. now right.
Qed.
Lemma omap_total_length {A B} (f : A -> option B) (l : list A) :
  (forall x, x ∈ l -> is_Some (f x)) -> length (omap f l) = length l.
Proof.
  induction l as [|x l IH]; intros H; [reflexivity|]. cbn.
  destruct (H x) as [y Hy]; [left|]. rewrite Hy. cbn. f_equal. apply IH. intros z Hz. apply H. now right.
Qed.

Lemma ins_total w n nd : consistent w -> w_nodes w !! n = Some nd ->
  forall c, c ∈ n_ins nd -> is_Some (w_chans w !! c).
Proof. intros C Hn c Hc. destruct (cs_ins _ C _ _ _ Hn Hc) as (ch & E & _). eauto. Qed.

Lemma src_at_operands w n nd i : consistent w -> w_nodes w !! n = Some nd ->
  src_at w nd i = match operands w n !! i with Some s => SOk s | None => SUndef end.
Proof.
  intros C Hn. unfold src_at, operands, in_chans. rewrite Hn, list_lookup_fmap.
  rewrite (omap_total (fun c => w_chans w !! c)) by (eapply ins_total; eauto).
  destruct (n_ins nd !! i) as [c|] eqn:E; cbn; [|reflexivity].
  destruct (ins_total _ _ _ C Hn c) as [ch Hch]; [eapply elem_of_list_lookup_2; eauto|].
  rewrite Hch. reflexivity.
Qed.
Lemma operands_length w n nd : consistent w -> w_nodes w !! n = Some nd ->
  length (operands w n) = length (n_ins nd).
Proof.
  intros C Hn. unfold operands, in_chans. rewrite Hn. rewrite map_length.
  apply omap_total_length. eapply ins_total; eauto.
Qed.
Lemma opnd_operands w v n nd i : consistent w -> w_nodes w !! n = Some nd ->
  opnd w v nd i = match operands w n !! i with Some s => SOk (vget v s) | None => SUndef end.
Proof. intros C Hn. unfold opnd. rewrite (src_at_operands w n) by auto. now destruct (operands w n !! i). Qed.

Ltac opinv :=
  match goal with
  | E : operands ?w ?n = _, H : operands ?w ?n = _ |- _ => rewrite E in H; injection H; intros; subst; clear H
  end.

Ltac nodeinv H :=
  inversion H; clear H;
  match goal with
  | A : w_nodes ?w !! ?n = Some ?x, B : w_nodes ?w !! ?n = Some ?y |- _ =>
      let E := fresh in assert (E : y = x) by congruence; subst y; clear B
  end.

Section S.
Variable F : fltops.
Variable w : world.
Variable inp : string -> option Z.
Hypothesis HF : flt_words F.
Hypothesis C : consistent w.
Hypothesis HI : inp_words inp.
Hypothesis HC : const_words w.
Hypothesis HS : forall n nd k, w_nodes w !! n = Some nd -> n_op nd = SHR k \/ n_op nd = SHL k -> 0 <= k.

Definition vwords (v : gmap nat Z) : Prop := forall n, W (vget v n).

Lemma vget_insert v n x m : vget (<[n := x]> v) m = if decide (m = n) then x else vget v m.
Proof.
  unfold vget. destruct (decide (m = n)) as [->|Hne]; [now rewrite lookup_insert|now rewrite lookup_insert_ne by congruence].
Qed.

(** one node: the executable step and the equation are equivalent *)
Lemma process_eq v n x f :
  vwords v -> f n = x -> (forall a, a ∈ operands w n -> f a = vget v a) ->
  (process F w inp v n = SOk x <-> node_eq F w inp f n).
Proof.
  intros Hv Hx Hf.
  assert (Hl : forall i s, operands w n !! i = Some s -> f s = vget v s).
  { intros i s E. apply Hf. eapply elem_of_list_lookup_2; eauto. }
  unfold process. destruct (w_nodes w !! n) as [nd|] eqn:En.
  2: { split; [discriminate|]. intros H; inversion H; congruence. }
  assert (Eop : forall i, opnd w v nd i = match operands w n !! i with Some s => SOk (f s) | None => SUndef end).
  { intros i. rewrite (opnd_operands w v n) by auto. destruct (operands w n !! i) eqn:E; [|auto]. now rewrite (Hl _ _ E). }
  assert (Hinv : forall nd', w_nodes w !! n = Some nd' -> nd' = nd) by (intros; congruence).
  destruct (n_op nd) as [| | | |c| |o|u| |k|k| |] eqn:Eo;
    try (split; [discriminate|]; intros H; inversion H as
      [? Hn Ho|? ? Hn Ho|? ? ? Hn Ho|? ? ? ? Hn Ho|? ? ? Hn Ho|? ? ? ? ? ? Hn Ho|? ? ? ? ? Hn Ho|? ? ? ? Hn Ho|? ? ? ? Hn Ho];
      apply Hinv in Hn; subst; congruence).
  - (* IN *) split.
    + destruct (inp (n_name nd)) eqn:E; [|discriminate]. intros H; injection H as H. eapply ne_in; eauto. congruence.
    + intros H; nodeinv H; try congruence.
      match goal with H : inp _ = _ |- _ => rewrite H end. congruence.
  - (* OUT *) rewrite Eop. destruct (operands w n) as [|s l] eqn:El; cbn [lookup list_lookup].
    + split; [discriminate|]. intros H; nodeinv H; congruence.
    + split.
      * intros H; injection H as H. eapply ne_out; eauto. congruence.
      * intros H; nodeinv H; try congruence.
  - (* CONST *) split.
    + intros H; injection H as H. eapply ne_const; eauto. congruence.
    + intros H; nodeinv H; congruence.
  - (* MUX *) rewrite Eop, <- (operands_length w n nd C En). destruct (operands w n) as [|c arms] eqn:El; cbn [lookup list_lookup sbind].
    + split; [discriminate|]. intros H; nodeinv H; congruence.
    + assert (Wc : W (f c)) by (rewrite (Hf c) by left; apply Hv).
      unfold W in Wc. unfold w64. rewrite two64_eq.
      destruct (Z.eq_dec (f c) (2 ^ 64 - 1)) as [E|E].
      * replace (f c + 1) with (2 ^ 64) by lia. rewrite Z_mod_same_full. cbn [length].
        destruct (Z.ltb_spec 0 (Z.of_nat (S (length arms)))); [|lia]. rewrite Eop. cbn. split.
        -- intros H1; injection H1 as H1. eapply ne_mux_wrap; eauto. congruence.
        -- intros H1; nodeinv H1; try congruence.
           { opinv. lia. } opinv. change (Z.to_nat 0) with 0%nat. cbn. congruence.
      * rewrite Z.mod_small by lia. rewrite Z2Nat.inj_add by lia. change (Z.to_nat 1) with 1%nat.
        rewrite Nat.add_comm. cbn [Nat.add].
        destruct (Z.ltb_spec (f c + 1) (Z.of_nat (length (c :: arms)))) as [Hlt|Hge]; cbn [length] in *.
        -- rewrite Eop. change ((c :: arms) !! S (Z.to_nat (f c))) with (arms !! Z.to_nat (f c)). destruct (arms !! Z.to_nat (f c)) as [a|] eqn:Ea.
           ++ split.
              ** intros H1; injection H1 as H1. eapply ne_mux; eauto; [lia|congruence].
              ** intros H1; nodeinv H1; try congruence; try (opinv; congruence).
           ++ split; [discriminate|].
              intros H1; nodeinv H1; try congruence; try (opinv; congruence).
        -- split; [discriminate|].
           intros H1; inversion H1 as
      [? Hn Ho|? ? Hn Ho|? ? ? Hn Ho|? ? ? ? Hn Ho Hopn Hr Hl2|? ? ? Hn Ho|? ? ? ? ? ? Hn Ho|? ? ? ? ? Hn Ho|? ? ? ? Hn Ho|? ? ? ? Hn Ho]; apply Hinv in Hn; subst; try congruence; try (opinv; congruence).
           rewrite El in Hopn. injection Hopn as <- <-. apply lookup_lt_Some in Hl2. lia.
  - (* BIN *) destruct (w_types w !! n_ty nd) as [t|] eqn:Et.
    2: { split; [discriminate|]. intros H; nodeinv H; congruence. }
    rewrite !Eop. destruct (operands w n) as [|a [|b rest]] eqn:El; cbn [lookup list_lookup].
    1-2: split; [discriminate|]; intros H; nodeinv H; congruence.
    split.
    + destruct (sim_bin F o t (f a) (f b)) as [[z|]|] eqn:E; cbn; try discriminate. intros H; injection H as H.
      eapply ne_bin; eauto. congruence.
    + intros H; nodeinv H; try congruence; try (opinv; congruence).
      opinv.
      match goal with H : n_op nd = BIN o0 |- _ => rewrite Eo in H; injection H as <- end.
      match goal with H : sim_bin _ _ _ _ _ = Some _, H2 : w_types w !! _ = Some _ |- _ => rewrite Et in H2; injection H2 as <-; rewrite H end. reflexivity.
  - (* UN *) destruct (w_types w !! n_ty nd) as [t|] eqn:Et.
    2: { split; [discriminate|]. intros H; nodeinv H; congruence. }
    rewrite !Eop. destruct (operands w n) as [|a rest] eqn:El; cbn [lookup list_lookup sbind].
    1: split; [discriminate|]; intros H; nodeinv H; congruence.
    split.
    + destruct (sim_un F u t (f a)) as [[z|]|] eqn:E; cbn; try discriminate. intros H; injection H as H.
      eapply ne_un; eauto. congruence.
    + intros H; nodeinv H; try congruence; try (opinv; congruence).
      opinv.
      match goal with H : n_op nd = UN u0 |- _ => rewrite Eo in H; injection H as <- end.
      match goal with H : sim_un _ _ _ _ = Some _, H2 : w_types w !! _ = Some _ |- _ => rewrite Et in H2; injection H2 as <-; rewrite H end. reflexivity.
  - (* SHL *) rewrite !Eop. destruct (operands w n) as [|a rest] eqn:El; cbn [lookup list_lookup sbind].
    1: split; [discriminate|]; intros H; nodeinv H; congruence.
    unfold c_shl, w64. rewrite two64_eq. destruct (Z.ltb_spec k 64); cbn [of_c].
    + split.
      * intros H1; injection H1 as H1. eapply ne_shl; eauto. congruence.
      * intros H1; nodeinv H1; try congruence; try (opinv; congruence).
    + split; [discriminate|]. intros H1; nodeinv H1; try congruence; try (opinv; congruence).
      match goal with H : n_op nd = SHL _ |- _ => rewrite Eo in H; injection H as <- end. lia.
  - (* SHR *) rewrite !Eop. destruct (operands w n) as [|a rest] eqn:El; cbn [lookup list_lookup sbind].
    1: split; [discriminate|]; intros H; nodeinv H; congruence.
    unfold c_shr. destruct (Z.ltb_spec k 64); cbn [of_c].
    + split.
      * intros H1; injection H1 as H1. eapply ne_shr; eauto. congruence.
      * intros H1; nodeinv H1; try congruence; try (opinv; congruence).
    + split; [discriminate|]. intros H1; nodeinv H1; try congruence; try (opinv; congruence).
      match goal with H : n_op nd = SHR _ |- _ => rewrite Eo in H; injection H as <- end. lia.
Qed.

Lemma node_eq_word f n : node_eq F w inp f n -> (forall a, a ∈ operands w n -> W (f a)) -> W (f n).
Proof.
  intros H Ha. destruct H as [nd Hn Ho Hi|nd c Hn Ho Hc|nd s rest Hn Ho Hop Hf|nd c arms a Hn Ho Hop Hc Hl Hf
    |nd c arms Hn Ho Hop Hc Hf|nd o t a b rest Hn Ho Hop Ht Hs|nd u t a rest Hn Ho Hop Ht Hs|nd k a rest Hn Ho Hop Hk Hf|nd k a rest Hn Ho Hop Hk Hf];
    try rewrite Hop in Ha.
  - eapply HI; eauto.
  - rewrite Hc. eapply HC; eauto.
  - rewrite Hf. apply Ha. left.
  - rewrite Hf. apply Ha. right. eapply elem_of_list_lookup_2; eauto.
  - rewrite Hf. apply Ha. left.
  - eapply sim_bin_W; [exact HF| | |exact Hs]; apply Ha; [left|right; left].
  - eapply sim_un_W; [exact HF| |exact Hs]; apply Ha; left.
  - rewrite Hf. unfold W. apply Z.mod_pos_bound. lia.
  - rewrite Hf. apply div_W; [apply Ha; left|]. apply Z.pow_pos_nonneg; [lia|]. eapply HS; eauto.
Qed.

Lemma process_word v n x : vwords v -> process F w inp v n = SOk x -> n ∉ operands w n -> W x.
Proof.
  intros Hv H Hn. pose (f := fun m => if decide (m = n) then x else vget v m).
  assert (Efn : f n = x) by (unfold f; destruct (decide (n = n)); congruence).
  assert (Hf : forall a, a ∈ operands w n -> f a = vget v a).
  { intros a Ha. unfold f. destruct (decide (a = n)) as [->|]; [contradiction|reflexivity]. }
  rewrite <- Efn. apply node_eq_word.
  - apply (process_eq v n x f); auto.
  - intros a Ha. rewrite Hf by auto. apply Hv.
Qed.

Definition ordered (r : list nat) : Prop :=
  NoDup r /\ forall i j a b, r !! i = Some a -> r !! j = Some b -> a ∈ operands w b -> (i < j)%nat.

Lemma ordered_tail n r : ordered (n :: r) -> ordered r /\ n ∉ r /\ forall a, a ∈ operands w n -> a ∉ n :: r.
Proof.
  intros [Nd Ho]. apply NoDup_cons in Nd as [Hn Nd]. split; [split; [exact Nd|]|split; [exact Hn|]].
  - intros i j a b Hi Hj Hab. specialize (Ho (S i) (S j) a b Hi Hj Hab). lia.
  - intros a Ha Hin. apply elem_of_list_lookup in Hin as [i Hi]. specialize (Ho i 0%nat a n Hi eq_refl Ha). lia.
Qed.

Lemma run_sim_sound : forall r v v', ordered r -> vwords v -> run_sim F w inp v r = SOk v' ->
  (forall n, n ∈ r -> node_eq F w inp (vget v') n) /\ (forall n, n ∉ r -> vget v' n = vget v n) /\ vwords v'.
Proof.
  induction r as [|n r IH]; intros v v' Ho Hv H; cbn [run_sim] in H.
  - injection H as <-. split; [intros n Hn; apply elem_of_nil in Hn as []|]. auto.
  - destruct (process F w inp v n) as [x| | |] eqn:E; cbn [sbind] in H; try discriminate.
    destruct (ordered_tail _ _ Ho) as (Ho' & Hnr & Hops).
    assert (Hself : n ∉ operands w n) by (intros Hs; apply (Hops _ Hs); left).
    assert (Hv1 : vwords (<[n := x]> v)).
    { intros m. rewrite vget_insert. destruct (decide (m = n)); [eapply process_word; eauto|apply Hv]. }
    destruct (IH _ _ Ho' Hv1 H) as (S1 & S2 & S3). split; [|split; [|exact S3]].
    + intros m Hm. apply elem_of_cons in Hm as [->|Hm]; [|auto].
      apply (process_eq v n x); auto.
      * rewrite S2 by auto. rewrite vget_insert. destruct (decide (n = n)); congruence.
      * intros a Ha. specialize (Hops _ Ha). apply not_elem_of_cons in Hops as [Hne Hnin].
        rewrite S2 by auto. rewrite vget_insert. destruct (decide (a = n)); congruence.
    + intros m Hm. apply not_elem_of_cons in Hm as [Hne Hm]. rewrite S2 by auto.
      rewrite vget_insert. destruct (decide (m = n)); congruence.
Qed.

Lemma node_eq_fun f g n : node_eq F w inp f n -> node_eq F w inp g n ->
  (forall a, a ∈ operands w n -> f a = g a) -> f n = g n.
Proof.
  intros Hf Hg Ha.
  assert (Ha' : forall i a, operands w n !! i = Some a -> f a = g a).
  { intros i a E. apply Ha. eapply elem_of_list_lookup_2; eauto. }
  destruct Hf as [nd Hn Ho Hi|nd c Hn Ho Hc|nd s rest Hn Ho Hop Hf|nd c arms a Hn Ho Hop Hc Hl Hf
    |nd c arms Hn Ho Hop Hc Hf|nd o t a b rest Hn Ho Hop Ht Hs|nd u t a rest Hn Ho Hop Ht Hs|nd k a rest Hn Ho Hop Hk Hf|nd k a rest Hn Ho Hop Hk Hf];
  destruct Hg as [nd' Hn' Ho' Hi'|nd' c' Hn' Ho' Hc'|nd' s' rest' Hn' Ho' Hop' Hf'|nd' c' arms' a' Hn' Ho' Hop' Hc' Hl' Hf'
    |nd' c' arms' Hn' Ho' Hop' Hc' Hf'|nd' o' t' a' b' rest' Hn' Ho' Hop' Ht' Hs'|nd' u' t' a' rest' Hn' Ho' Hop' Ht' Hs'|nd' k' a' rest' Hn' Ho' Hop' Hk' Hf'|nd' k' a' rest' Hn' Ho' Hop' Hk' Hf'];
  (rewrite Hn in Hn'; injection Hn' as <-); rewrite Ho in Ho'; try discriminate;
  try (rewrite Hop in Hop'; injection Hop' as -> ->); try rewrite Hop in Ha; try rewrite Hop in Ha'.
  - congruence.
  - congruence.
  - rewrite Hf, Hf'. apply Ha. left.
  - assert (f c' = g c') by (apply Ha; left). rewrite H in Hl. rewrite Hl in Hl'. injection Hl' as <-.
    rewrite Hf, Hf'. apply Ha. right. eapply elem_of_list_lookup_2; eauto.
  - assert (f c' = g c') by (apply Ha; left). lia.
  - assert (f c' = g c') by (apply Ha; left). lia.
  - rewrite Hf, Hf'. apply Ha. left.
  - intros. injection Ho' as <-. rewrite Ht in Ht'. injection Ht' as <-.
    assert (f a' = g a') by (apply Ha; left). assert (f b' = g b') by (apply Ha; right; left). congruence.
  - injection Ho' as <-. rewrite Ht in Ht'. injection Ht' as <-. assert (f a' = g a') by (apply Ha; left). congruence.
  - injection Ho' as <-. assert (f a' = g a') by (apply Ha; left). congruence.
  - injection Ho' as <-. assert (f a' = g a') by (apply Ha; left). congruence.
Qed.

Lemma solution_unique r f g : topological w r -> solution F w inp r f -> solution F w inp r g ->
  forall n, n ∈ r -> f n = g n.
Proof.
  intros (Nd & Cl & Ho) Sf Sg.
  assert (G : forall k i n, (i < k)%nat -> r !! i = Some n -> f n = g n).
  { induction k as [|k IH]; intros i n Hi Hn; [lia|].
    assert (Hr : n ∈ r) by (eapply elem_of_list_lookup_2; eauto).
    apply node_eq_fun; auto. intros a Ha.
    pose proof (Cl _ _ Hr Ha) as Hin. apply elem_of_list_lookup in Hin as [j Hj].
    specialize (Ho _ _ _ _ Hj Hn Ha). eapply (IH j); eauto. lia. }
  intros n Hn. apply elem_of_list_lookup in Hn as [i Hi]. eapply (G (S i)); eauto.
Qed.

(** any solution is found, along any topological order, from any starting values *)
Lemma run_sim_complete f : forall r pre v, vwords v -> topological w (pre ++ r) -> solution F w inp (pre ++ r) f ->
  (forall a, a ∈ pre -> vget v a = f a) ->
  exists v', run_sim F w inp v r = SOk v' /\ forall n, n ∈ pre ++ r -> vget v' n = f n.
Proof.
  induction r as [|n r IH]; intros pre v Hv T S Hp; cbn [run_sim].
  - exists v. split; [reflexivity|]. rewrite app_nil_r. exact Hp.
  - destruct T as (Nd & Cl & Ho). assert (Hn : n ∈ pre ++ n :: r) by (apply elem_of_app; right; left).
    assert (Hops : forall a, a ∈ operands w n -> a ∈ pre).
    { intros a Ha. pose proof (Cl _ _ Hn Ha) as Hin. apply elem_of_list_lookup in Hin as [i Hi].
      assert (Hl : (pre ++ n :: r) !! length pre = Some n) by (rewrite lookup_app_r by lia; now rewrite Nat.sub_diag).
      specialize (Ho _ _ _ _ Hi Hl Ha). rewrite lookup_app_l in Hi by lia. eapply elem_of_list_lookup_2; eauto. }
    assert (E : process F w inp v n = SOk (f n)).
    { apply (process_eq v n (f n) f); auto. intros a Ha. symmetry. auto. }
    assert (Hnp : n ∉ pre).
    { apply NoDup_app in Nd as (_ & Nd & _). intros Hx. apply (Nd _ Hx). left. }
    rewrite E. cbn [sbind].
    replace (pre ++ n :: r) with ((pre ++ [n]) ++ r) in * by (rewrite <- app_assoc; reflexivity).
    apply (IH (pre ++ [n])).
    + intros m. rewrite vget_insert. destruct (decide (m = n)); [|apply Hv].
      apply node_eq_word; [apply S; exact Hn|]. intros a Ha. rewrite <- Hp by auto. apply Hv.
    + repeat split; auto.
    + exact S.
    + intros a Ha. rewrite vget_insert. destruct (decide (a = n)) as [->|Hne]; [reflexivity|].
      apply elem_of_app in Ha as [Ha|Ha]; [auto|]. apply elem_of_list_singleton in Ha. contradiction.
Qed.

Lemma topological_ordered r : topological w r -> ordered r.
Proof. intros (A & B & D). split; auto. Qed.

Theorem sim_tick r1 v1 v1' : topological w r1 -> vwords v1 -> run_sim F w inp v1 r1 = SOk v1' ->
  solution F w inp r1 (vget v1') /\
  (forall f, solution F w inp r1 f -> forall n, n ∈ r1 -> f n = vget v1' n) /\
  (forall r2 v2, topological w r2 -> Permutation r1 r2 -> vwords v2 ->
     exists v2', run_sim F w inp v2 r2 = SOk v2' /\ forall n, n ∈ r1 -> vget v2' n = vget v1' n).
Proof.
  intros T Hv H. destruct (run_sim_sound _ _ _ (topological_ordered _ T) Hv H) as (S1 & _ & _).
  split; [exact S1|]. split.
  - intros f Sf n Hn. eapply solution_unique; eauto.
  - intros r2 v2 T2 P Hv2. destruct (run_sim_complete (vget v1') r2 [] v2) as (v2' & E & A); auto.
    + cbn. intros n Hn. apply S1. now rewrite P.
    + intros a Ha. apply elem_of_nil in Ha as [].
    + exists v2'. split; [exact E|]. intros n Hn. apply A. cbn. now rewrite <- P.
Qed.

End S.

(** *** the builder only makes word constants and non-negative shift counts *)
Section B.
Variable F : fltops.
Hypothesis HF : flt_words F.

Definition good_ops (w : world) : Prop :=
  const_words w /\
  (forall n nd k, w_nodes w !! n = Some nd -> n_op nd = SHR k \/ n_op nd = SHL k -> 0 <= k < 256).

Lemma const_of_word w n t v : good_ops w -> const_of w n t v -> W v.
Proof. intros [G _] (nd & Hn & _ & Ho & _). eapply G; eauto. Qed.

Lemma step_good w c w' r : step F w c = Ok (w', r) -> WF w -> good_ops w -> good_ops w'.
Proof.
  intros H Wf G. destruct (step_ext F _ _ _ _ H Wf) as [[W' P] Q].
  assert (Hold : forall n nd', w_nodes w' !! n = Some nd' -> n <> r -> exists nd, w_nodes w !! n = Some nd /\ n_op nd' = n_op nd).
  { intros n nd' Hn Hne. destruct P as (P1 & _ & _ & P4). destruct (P4 n) as [nd Hnd]; [eauto|auto|].
    destruct (P1 _ _ Hnd) as (x & Hx & (A & _)). exists nd. split; [auto|]. congruence. }
  assert (Hr : forall nd', w_nodes w' !! r = Some nd' ->
     (forall c0, n_op nd' = CONST c0 -> W c0) /\ (forall k, n_op nd' = SHR k \/ n_op nd' = SHL k -> 0 <= k < 256)).
  { intros nd' Hn.
    assert (Hnew : forall k o ty vk name args, new_node w w' r k o ty vk name args ->
              (forall c0, o = CONST c0 -> W c0) -> (forall k, o = SHR k \/ o = SHL k -> 0 <= k < 256) ->
              (forall c0, n_op nd' = CONST c0 -> W c0) /\ (forall k, n_op nd' = SHR k \/ n_op nd' = SHL k -> 0 <= k < 256)).
    { intros k o ty vk name args (_ & (nd & Hnd & Ho & _) & _) A B. rewrite Hn in Hnd. injection Hnd as <-. rewrite Ho. auto. }
    assert (Hcr : forall t v, W v -> const_result w w' r t v ->
              (forall c0, n_op nd' = CONST c0 -> W c0) /\ (forall k, n_op nd' = SHR k \/ n_op nd' = SHL k -> 0 <= k < 256)).
    { intros t v Hv ((nd & Hnd & _ & Ho & _) & _). rewrite Hn in Hnd. injection Hnd as <-. rewrite Ho.
      split; [intros c0 E; injection E as <-; auto|intros k [E|E]; discriminate]. }
    assert (Hsame : is_Some (w_nodes w !! r) -> (forall c0, n_op nd' = CONST c0 -> W c0) /\ (forall k, n_op nd' = SHR k \/ n_op nd' = SHL k -> 0 <= k < 256)).
    { intros [nd Hnd]. destruct P as (P1 & _). destruct (P1 _ _ Hnd) as (x & Hx & (A & _)).
      rewrite Hn in Hx. injection Hx as <-. rewrite <- A. destruct G as [G1 G2]. split; [intros; eapply G1; eauto|intros; eapply G2; eauto]. }
    destruct c; cbn [call_post] in Q.
    - destruct Q as (_ & _ & Qn & _). apply Hsame. rewrite <- Qn. eauto.
    - destruct Q as (_ & _ & Qn & _). apply Hsame. rewrite <- Qn. eauto.
    - destruct Q as (t & _ & Q). eapply Hnew; eauto; [discriminate|intros ? [E|E]; discriminate].
    - destruct Q as (t & _ & Q). eapply Hnew; eauto; [discriminate|intros ? [E|E]; discriminate].
    - destruct Q as (t & _ & Q). eapply Hnew; eauto; [discriminate|intros ? [E|E]; discriminate].
    - destruct Q as (t & _ & Q). eapply Hcr; [|exact Q]. unfold W. apply Z.mod_pos_bound. lia.
    - destruct Q as [(ta & tb & va & vb & v & Ca & Cb & Fo & Q)|(ta & _ & _ & Q)].
      + eapply Hcr; [|exact Q]. eapply fold_bin_W; [exact HF| | |exact Fo]; eapply const_of_word; eauto.
      + eapply Hnew; eauto; [discriminate|intros ? [E|E]; discriminate].
    - destruct Q as [(ta & va & v & Ca & Fo & Q)|(ta & _ & _ & Q)].
      + eapply Hcr; [|exact Q]. eapply fold_un_W; [exact HF| |exact Fo]; eapply const_of_word; eauto.
      + eapply Hnew; eauto; [discriminate|intros ? [E|E]; discriminate].
    - pose proof (Z.mod_pos_bound bits 256 ltac:(lia)) as Hb.
      destruct Q as [(ta & va & v & Ca & Q & Fo)|(ta & _ & _ & Q)].
      + eapply Hcr; [|exact Q]. destruct left; [eapply c_shl_W; eauto|].
        eapply c_shr_W; [eapply const_of_word; eauto| |exact Fo]. lia.
      + eapply Hnew; eauto; [destruct left; discriminate|intros k [E|E]; destruct left; try discriminate; injection E as <-; lia].
    - destruct Q as (ta & _ & _ & Q). eapply Hnew; eauto; [discriminate|intros ? [E|E]; discriminate].
    - destruct Q as (ta & tb & _ & _ & Q). eapply Hnew; eauto; [discriminate|intros ? [E|E]; discriminate].
    - destruct Q as (t & _ & [(-> & -> & (nd & Hnd & _))|Q]).
      + apply Hsame. eauto.
      + eapply Hnew; eauto; [discriminate|intros ? [E|E]; discriminate].
    - destruct Q as (a0 & rest & t & -> & _ & Q). eapply Hnew; eauto; [discriminate|intros ? [E|E]; discriminate].
    - destruct Q as (t & nd & _ & _ & _ & Q). eapply Hnew; eauto; [discriminate|intros ? [E|E]; discriminate].
    - destruct Q as (-> & Q & _). auto. }
  split.
  - intros n nd c0 Hn Ho. destruct (decide (n = r)) as [->|Hne].
    + eapply Hr; eauto.
    + destruct (Hold _ _ Hn Hne) as (nd0 & Hn0 & E). rewrite E in Ho. eapply G; eauto.
  - intros n nd k Hn Ho. destruct (decide (n = r)) as [->|Hne].
    + eapply Hr; eauto.
    + destruct (Hold _ _ Hn Hne) as (nd0 & Hn0 & E). rewrite E in Ho. eapply G; eauto.
Qed.

Lemma run_good : forall h w w', run F w h = Ok w' -> WF w -> good_ops w -> good_ops w'.
Proof.
  induction h as [|c h IH]; intros w w' H Wf G; cbn [run] in H.
  - injection H as <-. exact G.
  - ropen H. destruct x as [w1 r]. eapply IH; eauto; [eapply step_ext; eauto|eapply step_good; eauto].
Qed.
Lemma init_good : good_ops init_world.
Proof. split; intros n nd; cbn; rewrite lookup_empty; discriminate. Qed.

Lemma instance_good w p k bs w' rs σ : instanced w p k bs w' rs σ -> good_ops w -> good_ops w'.
Proof.
  intros H [G1 G2]. split; intros n nd; intros.
  all: destruct (in_back _ _ _ _ _ _ _ H n nd ltac:(eassumption)) as (y & Hy & _ & E & _); rewrite E in *; eauto.
Qed.
Lemma irun_good : forall h w w', irun F w h = Ok w' -> instances_ok F w h -> sound w -> good_ops w -> good_ops w'.
Proof.
  induction h as [|c h IH]; intros w w' H O S G; cbn [irun instances_ok] in H, O; [injection H as <-; exact G|].
  ropen H. destruct x as [w1 r]. rewrite Hx in O. destruct O as [O1 O2]. eapply IH; eauto; [exact (istep_sound F _ _ _ _ Hx O1 S)|]. destruct c as [c|p k bs|k].
  - cbn in Hx. ropen Hx. destruct x as [w2 r2]. injection Hy0 as <- <-. eapply step_good; eauto. apply S.
  - destruct S as [W N L]. destruct (instance_runs w p k bs W N L O1) as (w2 & rs & σ & X). change (do_instance w p k bs = Ok (w1, r)) in Hx. rewrite (in_run _ _ _ _ _ _ _ X) in Hx. injection Hx as <- <-.
    exact (instance_good _ _ _ _ _ _ _ X G).
  - destruct S as [W N L]. destruct (drop_runs w k W N L O1) as (w2 & X). cbn in Hx. rewrite (dd_run _ _ _ X) in Hx. injection Hx as <- <-.
    destruct G as [G1 G2]. split; intros n nd; intros; destruct (drop_back w k w2 X n nd ltac:(eassumption)) as [Hn _]; eauto.
Qed.
Lemma elab_good h w : elaborates F h w -> good_ops w.
Proof. intros [R O]. exact (irun_good _ _ _ R O init_sound init_good). Qed.

Theorem sim_kernel h w inp r1 v1 v1' :
  elaborates F h w -> inp_words inp -> topological w r1 -> (forall n, 0 <= vget v1 n < 2 ^ 64) ->
  run_sim F w inp v1 r1 = SOk v1' ->
  solution F w inp r1 (vget v1') /\
  (forall f, solution F w inp r1 f -> forall n, n ∈ r1 -> f n = vget v1' n) /\
  (forall r2 v2, topological w r2 -> Permutation r1 r2 -> (forall n, 0 <= vget v2 n < 2 ^ 64) ->
     exists v2', run_sim F w inp v2 r2 = SOk v2' /\ forall n, n ∈ r1 -> vget v2' n = vget v1' n).
Proof.
  intros R HI. destruct (elab_good _ _ R) as [G1 G2].
  apply sim_tick; auto.
  - apply (elab_WF F _ _ R).
  - intros n nd k Hn Ho. specialize (G2 _ _ _ Hn Ho). lia.
Qed.
End B.
