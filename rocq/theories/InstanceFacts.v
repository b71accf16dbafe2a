(** * Sub-kernel instances: facts used by PropertiesInstance.v, and checkers for examples. *)
From Coq Require Import ZArith Bool String Lia Permutation.
From stdpp Require Import gmap list.
From Verif Require Import Types Word Value Graph GraphSpec BuilderProofs BuilderProofs2 BuilderTopo GraphFacts StreamSpec DfcirBuild KernelValues TypingSpec TypingProofs
  Instance InstanceSpec InstanceProofs InstanceBind InstanceLoop InstanceMain InstanceStep InstanceFlow SchedFacts.

(** a variable has at most one value at a position *)
Lemma kval_det {V} (I : interp V) w n i x : kval I w n i x -> forall y, kval I w n i y -> x = y.
Proof.
  revert n i x. apply (kval_ind' w I (fun n i x => forall y, kval I w n i y -> x = y)).
  - intros n nd i Hn Ho Hv Hi y K. destruct K as [n0 nd0|n0 nd0|n0 nd0|n0 nd0|n0 nd0|n0 nd0|n0 nd0]; assert (nd0 = nd) by congruence; subst nd0; try congruence. destruct (n_op nd); try contradiction; discriminate.
  - intros n nd i Hn Ho Hv y K. destruct K as [n0 nd0|n0 nd0|n0 nd0|n0 nd0|n0 nd0|n0 nd0|n0 nd0]; assert (nd0 = nd) by congruence; subst nd0; try congruence. destruct (n_op nd); try contradiction; discriminate.
  - intros n nd t c i Hn Ho Ht y K. destruct K as [n0 nd0|n0 nd0|n0 nd0|n0 nd0|n0 nd0|n0 nd0|n0 nd0]; assert (nd0 = nd) by congruence; subst nd0; try congruence. destruct (n_op nd); try contradiction; discriminate.
  - intros n nd k a i x Hn Ho Oa IH y K. destruct K as [n0 nd0|n0 nd0|n0 nd0|n0 nd0 k0 a0 i0 x0 H1 H2 H3 H4|n0 nd0|n0 nd0|n0 nd0]; assert (nd0 = nd) by congruence; subst nd0; try congruence.
    + rewrite Ho in H2. injection H2 as <-. rewrite Oa in H3. injection H3 as <-. apply IH, H4.
    + rewrite Ho in *. contradiction.
  - intros n nd a i x Hn Ho Oa IH y K. destruct K as [n0 nd0|n0 nd0|n0 nd0|n0 nd0|n0 nd0 a0 i0 x0 H1 H2 H3 H4|n0 nd0|n0 nd0]; assert (nd0 = nd) by congruence; subst nd0; try congruence.
    + rewrite Oa in H3. injection H3 as <-. apply IH, H4.
    + rewrite Ho in *. contradiction.
  - intros n nd c arms a i xc x Hn Ho Oa Hi IHc La IHa _ _ y K. destruct K as [n0 nd0|n0 nd0|n0 nd0|n0 nd0|n0 nd0|n0 nd0 c0 arms0 a0 i0 xc0 x0 H1 H2 H3 H4 H5 H6 H7 H8|n0 nd0]; assert (nd0 = nd) by congruence; subst nd0; try congruence.
    + rewrite Oa in H3. injection H3 as <- <-. rewrite <- (IHc _ H5), La in H6. injection H6 as <-. apply IHa, H7.
    + rewrite Ho in *. contradiction.
  - intros n nd t i xs x Hn Ho Ht Hi F2 E y K. destruct K as [n0 nd0|n0 nd0|n0 nd0|n0 nd0|n0 nd0|n0 nd0|n0 nd0 t0 i0 xs0 x0 H1 H2 H3 H4 H5 H6]; assert (nd0 = nd) by congruence; subst nd0;
      try (match goal with H : n_op nd = _ |- _ => rewrite H in Ho end; contradiction).
    assert (Ex : xs = xs0).
    { clear -F2 H5. revert xs0 H5. induction F2 as [|a z l zs Hz _ IH]; intros xs0 G; inversion G; subst; [reflexivity|]. f_equal; [apply Hz; assumption|apply IH; assumption]. }
    congruence.
Qed.

(** ** One call *)
Section One.
Variables (F : fltops) (w : world) (p k : nat) (bs : list (nat * string)) (w' : world) (rs : list nat).
Hypothesis (S : sound w) (IO : instance_ok w p k bs) (E : istep F w (IInst p k bs) = Ok (w', rs)).
Lemma inst_sigma : exists σ, instanced w p k bs w' rs σ.
Proof.
  destruct S as [W N L]. destruct (instance_runs w p k bs W N L IO) as (w1 & rs1 & σ & H). exists σ.
  change (do_instance w p k bs = Ok (w', rs)) in E. rewrite (in_run _ _ _ _ _ _ _ H) in E. injection E as <- <-. exact H.
Qed.
Lemma inst_live m : is_Some (w_nodes w' !! m) <-> is_Some (w_nodes w !! m) /\ ~ removed w k bs m.
Proof.
  destruct inst_sigma as (σ & H). split.
  - intros (x & Hx). destruct (in_back _ _ _ _ _ _ _ H m x Hx) as (y & Hy & G & _). eauto.
  - intros ((y & Hy) & G). destruct (in_keep _ _ _ _ _ _ _ H m y Hy G) as (x & Hx & _). eauto.
Qed.
Lemma inst_owner m : is_Some (w_nodes w' !! m) -> owner w' m = if decide (owner w m = k) then p else owner w m.
Proof.
  destruct inst_sigma as (σ & H). intros (x & Hx). destruct (in_back _ _ _ _ _ _ _ H m x Hx) as (y & Hy & _ & _ & _ & _ & _ & E5). unfold owner. rewrite Hx, Hy. exact E5.
Qed.
Lemma inst_values {V} (I : interp V) m i x : is_Some (w_nodes w' !! m) -> (kval I w' m i x <-> lval I (link w k bs) w m i x).
Proof.
  destruct inst_sigma as (σ & H). intro Lm. destruct S as [W N L]. rewrite <- (merged_values w p k bs IO w' rs σ H I m i x).
  rewrite (in_id _ _ _ _ _ _ _ H); [tauto|]. apply inst_live in Lm. tauto.
Qed.
Lemma inst_result j v s r : ordered w k bs -> bs !! j = Some (v, s) -> rs !! j = Some r ->
  is_Some (w_nodes w' !! r) /\ forall V (I : interp V) i x, kval I w' r i x <-> lval I (link w k bs) w v i x.
Proof.
  destruct inst_sigma as (σ & H). intros O Hj Hr. destruct S as [W N L]. rewrite (proj2 (in_ret _ _ _ _ _ _ _ H) O j v s Hj) in Hr. injection Hr as <-. split.
  - apply (in_live _ _ _ _ _ _ _ H). destruct (bo_each _ _ _ _ (io_bindings _ _ _ _ IO) v s (elem_of_list_lookup_2 _ _ _ Hj)) as (n & [(_ & _ & _ & X & _)|(_ & _ & _ & _ & _ & [(y & Hy & _)|(y & Hy & _)] & _)]); eauto.
  - intros V I i x. apply (merged_values w p k bs IO w' rs σ H).
Qed.
End One.

(** ** The order of the bindings *)
Section Perm.
Variables (w : world) (p k : nat) (bs bs' : list (nat * string)).
Hypothesis P : Permutation bs bs'.
Lemma perm_mem v s : (v, s) ∈ bs <-> (v, s) ∈ bs'.
Proof. rewrite !elem_of_list_In. split; apply Permutation_in; [exact P|symmetry; exact P]. Qed.
Lemma perm_link a b : link w k bs a b <-> link w k bs' a b.
Proof. unfold link. split; intros (v & s & n & Hb & R); exists v, s, n; (split; [apply perm_mem, Hb|exact R]). Qed.
Lemma perm_removed m : removed w k bs m <-> removed w k bs' m.
Proof. unfold removed. split; intros (v & s & n & Hb & R); exists v, s, n; (split; [apply perm_mem, Hb|exact R]). Qed.
End Perm.
Lemma rules_ext {V} (I : interp V) (L L' : nat -> nat -> Prop) w R : (forall a b, L a b <-> L' a b) -> rules I L w R -> rules I L' w R.
Proof.
  intros Q [r1 r2 r3 r4 r5 r6 r7 r8]. constructor; auto.
  - intros a b i x X. apply r1, Q, X.
  - intros n nd i H1 H2 H3 X Hi. apply r2; auto. intros b Y. apply (X b), Q, Y.
  - intros n nd i H1 H2 H3 X. apply r3; auto. intros b Y. apply (X b), Q, Y.
Qed.
Lemma lval_ext {V} (I : interp V) (L L' : nat -> nat -> Prop) w n i x : (forall a b, L a b <-> L' a b) -> lval I L w n i x -> lval I L' w n i x.
Proof. intros Q H R HR. apply H. eapply rules_ext; [|exact HR]. intros a b. symmetry. apply Q. Qed.
Lemma instance_ok_perm w p k bs bs' : Permutation bs bs' -> instance_ok w p k bs -> instance_ok w p k bs'.
Proof.
  intros P [[D N Ea T] Pa Ch To St In]. pose proof (perm_mem bs bs' P) as M. constructor; auto.
  - constructor; auto.
    + rewrite <- P. exact N.
    + intros v s H. apply M in H. eauto.
    + intros i j v s v' s' Hi Hj Nij X Ev. subst v'.
      assert (Hb : (v, s) ∈ bs) by (apply M; eapply elem_of_list_lookup_2; eauto). assert (Hb' : (v, s') ∈ bs) by (apply M; eapply elem_of_list_lookup_2; eauto).
      assert (s <> s').
      { intros <-. assert (N' : NoDup (map snd bs')) by (rewrite <- P; exact N). apply Nij. eapply (NoDup_lookup (map snd bs')); [exact N'| |].
        - exact (eq_trans (list_lookup_fmap snd bs' i) (f_equal (fmap snd) Hi)).
        - exact (eq_trans (list_lookup_fmap snd bs' j) (f_equal (fmap snd) Hj)). }
      destruct (elem_of_list_lookup_1 _ _ Hb) as [a Ha]. destruct (elem_of_list_lookup_1 _ _ Hb') as [b Hb2].
      refine (T a b v s v s' Ha Hb2 _ X eq_refl). intros ->. congruence.
  - intros n H O. destruct (In n H O) as (v & s & Hb & Pp). exists v, s. split; [apply M, Hb|exact Pp].
Qed.

(** ** Checking concrete histories *)
Definition op_is (w : world) (n : nat) (f : opk -> bool) : bool := match w_nodes w !! n with Some nd => f (n_op nd) | None => false end.
Definition is_in (o : opk) : bool := match o with IN => true | _ => false end.
Definition is_out (o : opk) : bool := match o with OUT => true | _ => false end.
Definition is_none (o : opk) : bool := match o with NONE => true | _ => false end.
Lemma op_in w n : op_is w n is_in = true <-> has_op w n IN.
Proof. unfold op_is, has_op. split; [destruct (w_nodes w !! n) as [nd|]; [|discriminate]; destruct (n_op nd) eqn:E; try discriminate; eauto|intros (nd & -> & ->); reflexivity]. Qed.
Lemma op_out w n : op_is w n is_out = true <-> has_op w n OUT.
Proof. unfold op_is, has_op. split; [destruct (w_nodes w !! n) as [nd|]; [|discriminate]; destruct (n_op nd) eqn:E; try discriminate; eauto|intros (nd & -> & ->); reflexivity]. Qed.
Lemma op_none w n : op_is w n is_none = true <-> has_op w n NONE.
Proof. unfold op_is, has_op. split; [destruct (w_nodes w !! n) as [nd|]; [|discriminate]; destruct (n_op nd) eqn:E; try discriminate; eauto|intros (nd & -> & ->); reflexivity]. Qed.

Definition binding_okb (w : world) (p k v : nat) (n : nat) : bool :=
  (op_is w n is_in && bool_decide (operands w n = []) && bool_decide (is_Some (w_nodes w !! v)) && (owner w v =? p)) ||
  (op_is w n is_out && (length (operands w n) =? 1) && bool_decide (readers w n = []) && (owner w v =? p) &&
   (op_is w v is_none || op_is w v is_out) && bool_decide (operands w v = [])).
Definition eachb (w : world) (k : nat) (bs : list (nat * string)) (f : nat -> string -> nat -> bool) : bool :=
  forallb (fun b => match name_lookup (names w k) (snd b) with Some n => f (fst b) (snd b) n | None => false end) bs.
Lemma eachb_sound w k bs f : eachb w k bs f = true -> forall v s, (v, s) ∈ bs -> exists n, port w k s n /\ f v s n = true.
Proof.
  unfold eachb. intros H v s Hb. rewrite forallb_forall in H. specialize (H (v, s) ltac:(apply elem_of_list_In; exact Hb)). cbn in H. unfold port.
  destruct (name_lookup _ _) as [n|]; [eauto|discriminate].
Qed.
Definition targetsb (w : world) (k : nat) (bs : list (nat * string)) : bool :=
  forallb (fun i => forallb (fun j => match bs !! i, bs !! j with
     | Some (v, s), Some (v', _) => (i =? j) || negb (v =? v') || match name_lookup (names w k) s with Some n => negb (op_is w n is_out) | None => true end
     | _, _ => true end) (seq 0 (length bs))) (seq 0 (length bs)).
Definition instance_okb (w : world) (p k : nat) (bs : list (nat * string)) : bool :=
  negb (p =? k) && bool_decide (NoDup (map snd bs)) && eachb w k bs (fun v s n => binding_okb w p k v n) && targetsb w k bs &&
  bool_decide (is_Some (w_kern w !! p)) && bool_decide (is_Some (w_kern w !! k)) && negb (bool_decide (w_top w = Some k)) &&
  match w_stack w with a :: _ :: _ => a =? k | _ => false end &&
  forallb (fun q : nat * node => let (n, nd) := q in negb (is_in (n_op nd)) || negb (n_meta nd =? k) ||
     existsb (fun b => bool_decide (name_lookup (names w k) (snd b) = Some n)) bs) (map_to_list (w_nodes w)).
Lemma binding_okb_sound w p k v s n : port w k s n -> binding_okb w p k v n = true -> binding_ok w p k v s n.
Proof.
  intros P B. unfold binding_okb in B. apply orb_true_iff in B as [B|B]; rewrite !andb_true_iff in B.
  - left. destruct B as (((B1 & B2) & B3) & B4). apply bool_decide_eq_true in B2, B3. apply Nat.eqb_eq in B4. split; [exact P|]. split; [apply op_in, B1|]. auto.
  - right. destruct B as (((((B1 & B2) & B3) & B4) & B5) & B6). apply bool_decide_eq_true in B3, B6. apply Nat.eqb_eq in B2, B4. split; [exact P|]. split; [apply op_out, B1|].
    split; [destruct (operands w n) as [|d [|? ?]]; try discriminate; eauto|]. split; [exact B3|]. split; [exact B4|]. split; [|exact B6]. apply orb_true_iff in B5 as [B5|B5]; [left; apply op_none, B5|right; apply op_out, B5].
Qed.
Lemma bindingsb_sound w p k bs : negb (p =? k) = true -> bool_decide (NoDup (map snd bs)) = true -> eachb w k bs (fun v s n => binding_okb w p k v n) = true -> targetsb w k bs = true -> bindings_ok w p k bs.
Proof.
  intros H1 H2 H3 H4. apply bool_decide_eq_true in H2. constructor; auto.
  - intros ->. rewrite Nat.eqb_refl in H1. discriminate.
  - intros v s Hb. destruct (eachb_sound w k bs _ H3 v s Hb) as (n & P & B). exists n. apply binding_okb_sound; assumption.
  - intros i j v s v' s' Hi Hj Nij (n & P & X) <-. unfold targetsb in H4. rewrite forallb_forall in H4.
    specialize (H4 i ltac:(apply in_seq; apply lookup_lt_Some in Hi; lia)). rewrite forallb_forall in H4. specialize (H4 j ltac:(apply in_seq; apply lookup_lt_Some in Hj; lia)).
    rewrite Hi, Hj in H4. unfold port in P. rewrite P, (proj2 (op_out w n) X), Nat.eqb_refl in H4. destruct (Nat.eqb_spec i j); [contradiction|discriminate].
Qed.
Lemma instance_okb_sound w p k bs : instance_okb w p k bs = true -> instance_ok w p k bs.
Proof.
  unfold instance_okb. rewrite !andb_true_iff. intros ((((((((H1 & H2) & H3) & H4) & H5) & H6) & H7) & H8) & H9).
  apply bool_decide_eq_true in H5, H6. apply negb_true_iff, bool_decide_eq_false in H7.
  constructor; auto.
  - apply bindingsb_sound; assumption.
  - destruct (w_stack w) as [|a [|b st]]; try discriminate. apply Nat.eqb_eq in H8 as ->. exists (b :: st). split; [reflexivity|discriminate].
  - intros n (nd & Hn & Ho) Eo. pose proof (map_forallb w _ H9 n nd Hn) as X. cbn in X. rewrite Ho in X. unfold owner in Eo. rewrite Hn in Eo. rewrite Eo, Nat.eqb_refl in X. cbn in X.
    apply existsb_exists in X as ((v & s) & Hb & X). apply bool_decide_eq_true in X. exists v, s. split; [apply elem_of_list_In; exact Hb|exact X].
Qed.
Definition feed_forwardb (w : world) (k : nat) (bs : list (nat * string)) (rank : nat -> nat) : bool :=
  forallb (fun q : nat * node => forallb (fun a => rank a <? rank (fst q)) (operands w (fst q))) (map_to_list (w_nodes w)) &&
  eachb w k bs (fun v s n => if op_is w n is_in then rank v <? rank n else rank n <? rank v).
Lemma feed_forwardb_sound w k bs rank : feed_forwardb w k bs rank = true -> feed_forward w k bs.
Proof.
  unfold feed_forwardb. rewrite andb_true_iff. intros [H1 H2]. exists rank. split.
  - intros a b Ha. destruct (w_nodes w !! b) as [nd|] eqn:E; [|unfold operands, in_chans in Ha; rewrite E in Ha; inversion Ha].
    pose proof (map_forallb w _ H1 b nd E) as X. cbn [fst] in X. rewrite forallb_forall in X. apply elem_of_list_In in Ha. apply X in Ha. apply Nat.ltb_lt, Ha.
  - intros a b (v & s & n & Hb & P & X). destruct (eachb_sound w k bs _ H2 v s Hb) as (n' & P' & Y). assert (n' = n) by (unfold port in *; congruence). subst n'.
    destruct X as [(X & -> & ->)|(X & -> & ->)].
    + rewrite (proj2 (op_in w n) X) in Y. apply Nat.ltb_lt, Y.
    + destruct (op_is w n is_in) eqn:Z; [|apply Nat.ltb_lt, Y]. exfalso. apply op_in in Z. pose proof (has_op_det _ _ _ _ X Z). discriminate.
Qed.
Definition types_matchb (w : world) (k : nat) (bs : list (nat * string)) : bool :=
  eachb w k bs (fun v s n => if op_is w n is_in then bool_decide (kind_at w v = kind_at w n)
                             else negb (op_is w v is_none) || forallb (fun d => bool_decide (kind_at w v = kind_at w d)) (operands w n)).
Lemma types_matchb_sound w k bs : types_matchb w k bs = true -> types_match w k bs.
Proof.
  intros H v s n Hb P. destruct (eachb_sound w k bs _ H v s Hb) as (n' & P' & Y). assert (n' = n) by (unfold port in *; congruence). subst n'. split.
  - intro X. rewrite (proj2 (op_in w n) X) in Y. apply bool_decide_eq_true in Y. exact Y.
  - intros X Z d Od. destruct (op_is w n is_in) eqn:Q; [exfalso; apply op_in in Q; pose proof (has_op_det _ _ _ _ X Q); discriminate|].
    rewrite (proj2 (op_none w v) Z), Od in Y. cbn in Y. rewrite andb_true_r in Y. apply bool_decide_eq_true in Y. exact Y.
Qed.
Definition orderedb (w : world) (k : nat) (bs : list (nat * string)) : bool :=
  eachb w k bs (fun v s n => negb (op_is w n is_out) || forallb (fun d => forallb (fun b => negb (bool_decide (name_lookup (names w k) (snd b) = Some d))) bs) (operands w n)).
(** enough for [ordered]: no output is fed directly by a bound input *)
Lemma orderedb_sound w k bs : orderedb w k bs = true -> ordered w k bs.
Proof.
  intros H i j v s v' s' n d Hi Hj _ P X Od P'. destruct (eachb_sound w k bs _ H v s (elem_of_list_lookup_2 _ _ _ Hi)) as (n' & Pn & Y). assert (n' = n) by (unfold port in *; congruence). subst n'.
  rewrite (proj2 (op_out w n) X), Od in Y. cbn in Y. rewrite andb_true_r in Y. rewrite forallb_forall in Y. specialize (Y (v', s') ltac:(apply elem_of_list_In; eapply elem_of_list_lookup_2; exact Hj)).
  apply negb_true_iff, bool_decide_eq_false in Y. exact (Y P').
Qed.

Definition drop_okb (w : world) (k : nat) : bool :=
  match w_stack w with a :: st => (a =? k) && eqb (bool_decide (w_top w = Some k)) (match st with [] => true | _ => false end) | [] => false end &&
  bool_decide (is_Some (w_kern w !! k)) &&
  forallb (fun q : nat * node => forallb (fun a => eqb (owner w a =? k) (owner w (fst q) =? k)) (operands w (fst q))) (map_to_list (w_nodes w)).
Lemma drop_okb_sound w k : drop_okb w k = true -> drop_ok w k.
Proof.
  unfold drop_okb. rewrite !andb_true_iff. intros [[H1 H2] H3]. apply bool_decide_eq_true in H2. destruct (w_stack w) as [|a st] eqn:Es; [discriminate|].
  apply andb_true_iff in H1 as [H0 H1]. apply Nat.eqb_eq in H0 as ->. apply eqb_prop in H1. constructor; [rewrite Es; eauto|exact H2| |].
  - rewrite Es. rewrite <- (bool_decide_eq_true (w_top w = Some k)), H1. destruct st; split; intro X; congruence.
  - intros m a Ha. destruct (w_nodes w !! m) as [nd|] eqn:E; [|unfold operands, in_chans in Ha; rewrite E in Ha; inversion Ha].
    pose proof (map_forallb w _ H3 m nd E) as X. cbn [fst] in X. rewrite forallb_forall in X. apply elem_of_list_In in Ha. apply X, eqb_prop in Ha.
    rewrite <- !Nat.eqb_eq, Ha. tauto.
Qed.
Definition iokb (rank : nat -> nat) (w : world) (c : icmd) : bool :=
  match c with ICall c => ok_callb w c | IInst p k bs => instance_okb w p k bs && feed_forwardb w k bs rank | IDrop k => drop_okb w k end.
Fixpoint idisciplinedb (F : fltops) (rank : nat -> nat) (w : world) (h : list icmd) : bool :=
  match h with
  | [] => true
  | c :: h' => iokb rank w c && match istep F w c with Ok (w', _) => idisciplinedb F rank w' h' | _ => true end
  end.
Lemma idisciplinedb_sound F rank : forall h w, idisciplinedb F rank w h = true -> idisciplined F w h.
Proof.
  induction h as [|c h IH]; intros w H; [exact I|]. cbn [idisciplinedb idisciplined] in *. apply andb_true_iff in H as [A B]. split.
  - destruct c as [c|p k bs|k]; cbn [iokb iok] in *; [| |apply drop_okb_sound, A].
    + destruct (disciplinedb_sound F [c] w) as [X _]; [|exact X]. cbn [disciplinedb]. rewrite A. destruct (step F w c) as [[? ?]| | |]; reflexivity.
    + rewrite !andb_true_iff in A. destruct A as [A1 A2]. split; [apply instance_okb_sound, A1|]. eapply feed_forwardb_sound; exact A2.
  - destruct (istep F w c) as [[w' r]| | |]; auto.
Qed.
Definition irun_ok (F : fltops) (rank : nat -> nat) (h : list icmd) (f : world -> bool) : bool :=
  match irun F init_world h with Ok w => f w && idisciplinedb F rank init_world h | _ => false end.
Lemma irun_check F rank h f : irun_ok F rank h f = true -> exists w, irun F init_world h = Ok w /\ idisciplined F init_world h /\ elaborates F h w /\ f w = true.
Proof.
  unfold irun_ok. destruct (irun F init_world h) as [w| | |] eqn:E; try discriminate. intro H. apply andb_true_iff in H as [A B]. exists w.
  apply idisciplinedb_sound in B. split; [reflexivity|]. split; [exact B|]. split; [|exact A]. split; [exact E|apply disciplined_instances, B].
Qed.
