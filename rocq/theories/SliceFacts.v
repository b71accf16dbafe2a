(** * Slices and concatenations (proofs). *)
From Coq Require Import ZArith Bool String Lia.
From stdpp Require Import gmap list.
From Verif Require Import Types Word Value OpSpec Graph GraphSpec TypingSpec TypesProofs BuilderProofs BuilderProofs2 BuilderTopo GraphFacts StreamSpec Dfcir
     Verilog Stubs Naming Firrtl Lower RtlSpec KernelValues.
Local Open Scope Z_scope.

Lemma imap_src (r : nat) (l : list nat) : map c_src (imap (fun i a => mkChan a r i false) l) = l.
Proof.
  apply list_eq. intro i. rewrite list_lookup_fmap, list_lookup_imap. destruct (l !! i); reflexivity.
Qed.
Lemma run_snoc F h w c w' r : run F init_world h = Ok w -> step F w c = Ok (w', r) -> run F init_world (h ++ [c]) = Ok w'.
Proof.
  generalize init_world. induction h as [|c0 h IH]; intros w0 R S; cbn in *; [injection R as ->; rewrite S; reflexivity|].
  destruct (step F w0 c0) as [[w1 r1]| | |]; try discriminate. cbn in *. exact (IH _ R S).
Qed.

Section Calls.
Variables (F : fltops) (h : list cmd) (w : world).
Hypothesis R : run F init_world h = Ok w.
Lemma cat_call a b ta tb : type_of w a = Some ta -> type_of w b = Some tb -> owner w b = owner w a ->
  exists w' r, step F w (CCat a b) = Ok (w', r) /\
    new_node w w' r (owner w a) CAT (mkRaw (total_bits ta + total_bits tb)) VStream EmptyString [a; b].
Proof.
  intros Ha Hb Ow. pose proof (run_WF F _ _ _ R init_WF) as W. pose proof W as [C _].
  unfold type_of in Ha, Hb. unfold owner in Ow. destruct (w_nodes w !! a) as [na|] eqn:Na; [|discriminate]. destruct (w_nodes w !! b) as [nb|] eqn:Nb; [|discriminate].
  destruct (mk_op_progress (fst (add_type w (mkRaw (total_bits ta + total_bits tb)))) (n_meta na) CAT (length (w_types w)) [a; b]) as (w' & r & Em).
  - apply (add_type_WF w _ W).
  - cbn. rewrite lookup_app_r, Nat.sub_diag by lia. eauto.
  - discriminate.
  - destruct (cs_owned _ C _ _ Na) as (g & Hg & _). cbn. eauto.
  - intros x Hx. rewrite !elem_of_cons in Hx.
    destruct Hx as [->|[->|Hx]]; [exists na|exists nb|inversion Hx]; auto.
  - assert (E : step F w (CCat a b) = Ok (w', r)).
    { cbn [step]. unfold do_cat, get_node, get_type. rewrite Na, Nb. cbn [of_opt rbind]. rewrite Ha, Hb. cbn [of_opt rbind]. unfold add_type in Em |- *. cbn [fst] in Em. exact Em. }
    exists w', r. split; [exact E|]. destruct (step_ext F _ _ _ _ E W) as [_ (ta' & tb' & E1 & E2 & NN)].
    unfold type_of in E1, E2. rewrite Na in E1. rewrite Nb in E2. rewrite Ha in E1. rewrite Hb in E2. injection E1 as <-. injection E2 as <-. exact NN.
Qed.
Lemma new_type w' r k o t vk nm args : new_node w w' r k o t vk nm args -> type_of w' r = Some t.
Proof. intros (_ & (nd & H & _ & Ht & _) & _). unfold type_of. rewrite H. exact Ht. Qed.
Lemma new_owner w' r k o t vk nm args : new_node w w' r k o t vk nm args -> owner w' r = k.
Proof. intros (_ & (nd & H & _ & _ & _ & _ & E) & _). unfold owner. rewrite H. exact E. Qed.
Lemma old_owner c w' r n : step F w c = Ok (w', r) -> is_Some (w_nodes w !! n) -> owner w' n = owner w n.
Proof.
  intros S (nd & E). destruct (step_ext F _ _ _ _ S (run_WF F _ _ _ R init_WF)) as [[_ (P1 & _ & P3 & _)] _].
  destruct (P1 n nd E) as (nd' & E' & _ & _ & _ & _ & Em). unfold owner. rewrite E, E'. symmetry. exact Em.
Qed.
Lemma new_operands w' r k o t vk nm args : new_node w w' r k o t vk nm args -> operands w' r = args.
Proof. intros (_ & _ & H & _). unfold operands. rewrite H. apply imap_src. Qed.
Lemma old_type c w' r n t : step F w c = Ok (w', r) -> type_of w n = Some t -> type_of w' n = Some t.
Proof.
  intros S H. destruct (step_ext F _ _ _ _ S (run_WF F _ _ _ R init_WF)) as [[_ (P1 & _ & P3 & _)] _].
  unfold type_of in *. destruct (w_nodes w !! n) as [nd|] eqn:E; [|discriminate]. destruct (P1 n nd E) as (nd' & E' & _ & Et & _). rewrite E', <- Et. apply P3. exact H.
Qed.

(** the value of a node just created *)
Lemma new_value {V} (I : interp V) c w' r k o t nm args xs i y : step F w c = Ok (w', r) -> (forall a b, c <> CConnect a b) ->
  new_node w w' r k o t VStream nm args ->
  (match o with BIN _ | UN _ | CAST | SHL _ | SHR _ | BITS _ _ | CAT => True | _ => False end) -> 0 <= i ->
  Forall2 (fun a x => kval I w a i x) args xs -> i_op I o t xs = Some y -> kval I w' r i y.
Proof.
  intros S NC NN Ho Hi F2 E. pose proof (run_WF F _ _ _ R init_WF) as W.
  pose proof (new_type _ _ _ _ _ _ _ _ NN) as Ht. pose proof (new_operands _ _ _ _ _ _ _ _ NN) as Op.
  destruct NN as (_ & (nd & Hn & En & _) & _ & Ex). subst o.
  eapply kv_op; [exact Hn|exact Ho|exact Ht|exact Hi| |exact E]. rewrite Op.
  clear -F2 Ex S NC W. induction F2 as [|a x l ys Hx F2 IH]; constructor.
  - apply (step_kval F I w c w' r S W NC a i x); [apply Ex; constructor|exact Hx].
  - apply IH. intros b Hb. apply Ex. right. exact Hb.
Qed.
End Calls.

Lemma slice_raw n : 0 <= n < 65536 -> mkRaw n = TRaw n.
Proof. intro H. unfold mkRaw, u16. rewrite Z.mod_small by exact H. reflexivity. Qed.
Lemma raw_bits n : 0 <= n < 65536 -> total_bits (TRaw n) = n.
Proof. intro H. cbn. try apply Z.mod_small; lia. Qed.

Lemma kind_width t : 0 <= total_bits t < 65536 -> total_bits (kind t) = total_bits t.
Proof. destruct t; try reflexivity. cbn. unfold u16. intro H. rewrite Z.mod_small by lia. lia. Qed.

Section Split.
Variables (F : fltops) (h : list cmd) (w : world) (e : env).
Hypothesis R : run F init_world h = Ok w.

Lemma slice_step a t f s : type_of w a = Some t -> 0 <= Z.min f s -> Z.max f s < total_bits t < 2 ^ 16 ->
  exists w' r, step F w (CSlice a f s) = Ok (w', r) /\ owner w' r = owner w a /\ type_of w' r = Some (TRaw (Z.abs (f - s) + 1)) /\
    (forall i x, 0 <= i -> kval (hw e) w a i x -> kval (hw e) w' r i (kind (TRaw (Z.abs (f - s) + 1)), (snd x / 2 ^ Z.min f s) mod 2 ^ (Z.abs (f - s) + 1))).
Proof.
  intros Ht Hm HM. change (2 ^ 16) with 65536 in HM. assert (Ha : is_Some (w_nodes w !! a)) by (unfold type_of in Ht; destruct (w_nodes w !! a); [eauto|discriminate]).
  destruct (slice_call F h w a f s R Ha ltac:(lia) ltac:(lia)) as (t' & Ht' & SC & _). rewrite Ht in Ht'. injection Ht' as <-.
  destruct (SC ltac:(change (2 ^ 16) with 65536; lia)) as (w' & r & S & _ & NN). exists w', r. split; [exact S|]. split; [eapply new_owner; eauto|]. split; [eapply new_type; eauto|].
  intros i x Hi K. eapply (new_value F h w R (hw e)); [exact S|discriminate|exact NN|exact Logic.I|exact Hi|constructor; [exact K|constructor]|].
  cbn. replace (Z.max f s - Z.min f s + 1) with (Z.abs (f - s) + 1) by lia. reflexivity.
Qed.
Lemma cat_step a b ta tb : type_of w a = Some ta -> type_of w b = Some tb -> owner w b = owner w a -> 0 <= total_bits ta -> 0 <= total_bits tb -> total_bits ta + total_bits tb < 2 ^ 16 ->
  exists w' r, step F w (CCat a b) = Ok (w', r) /\ type_of w' r = Some (TRaw (total_bits ta + total_bits tb)) /\
    (forall i x y, 0 <= i -> kval (hw e) w a i x -> kval (hw e) w b i y -> fst y = kind tb ->
       kval (hw e) w' r i (kind (TRaw (total_bits ta + total_bits tb)), snd x * 2 ^ total_bits tb + snd y)).
Proof.
  intros Ha Hb Ow Pa Pb Hs. change (2 ^ 16) with 65536 in Hs. destruct (cat_call F h w R a b ta tb Ha Hb Ow) as (w' & r & S & NN).
  rewrite slice_raw in NN by lia. exists w', r. split; [exact S|]. split; [eapply new_type; eauto|].
  intros i x y Hi Ka Kb Ey. eapply (new_value F h w R (hw e)); [exact S|discriminate|exact NN|exact Logic.I|exact Hi|constructor; [exact Ka|constructor; [exact Kb|constructor]]|].
  cbn. rewrite Ey, kind_width by lia. reflexivity.
Qed.
Lemma old_value c w' r a i (x : hval) : step F w c = Ok (w', r) -> (forall a b, c <> CConnect a b) -> is_Some (w_nodes w !! a) -> kval (hw e) w a i x -> kval (hw e) w' a i x.
Proof. intros S NC Ha. apply (step_kval F (hw e) w c w' r S (run_WF F _ _ _ R init_WF) NC a i x Ha). Qed.
End Split.
Lemma typed_exists w n t : type_of w n = Some t -> is_Some (w_nodes w !! n).
Proof. unfold type_of. destruct (w_nodes w !! n); [eauto|discriminate]. Qed.

Lemma split_join x w k : 0 < k < w -> 0 <= x < 2 ^ w -> (x / 2 ^ k) mod 2 ^ (w - k) * 2 ^ k + x mod 2 ^ k = x.
Proof.
  intros Hk Hx. assert (0 < 2 ^ k) by (apply Z.pow_pos_nonneg; lia).
  assert (x / 2 ^ k < 2 ^ (w - k)) by (apply Z.div_lt_upper_bound; [lia|]; rewrite <- Z.pow_add_r by lia; replace (k + (w - k)) with w by lia; lia).
  rewrite (Z.mod_small (x / 2 ^ k)) by (split; [apply Z.div_pos; lia|lia]). rewrite (Z.div_mod x (2 ^ k)) at 3 by lia. ring.
Qed.

Theorem split_cat F h w a t k : run F init_world h = Ok w -> type_of w a = Some t -> 0 < k < total_bits t -> total_bits t < 2 ^ 16 ->
  exists w1 hi w2 lo w3 c,
    step F w (CSlice a (total_bits t - 1) k) = Ok (w1, hi) /\ step F w1 (CSlice a (k - 1) 0) = Ok (w2, lo) /\ step F w2 (CCat hi lo) = Ok (w3, c) /\
    type_of w3 c = Some (TRaw (total_bits t)) /\
    forall e i x, 0 <= i -> kval (hw e) w a i x -> 0 <= snd x < 2 ^ total_bits t -> kval (hw e) w3 c i (kind (TRaw (total_bits t)), snd x).
Proof.
  intros R Ht Hk Hw. set (W := total_bits t) in *.
  pose (e0 := {| e_stream := fun _ _ => (t, 0); e_scalar := fun _ => (t, 0) |}).
  destruct (slice_step F h w e0 R a t (W - 1) k Ht ltac:(lia) ltac:(subst W; lia)) as (w1 & hi & S1 & O1 & T1 & _).
  assert (R1 := run_snoc _ _ _ _ _ _ R S1). assert (Ht1 := old_type F h w R _ _ _ _ _ S1 Ht).
  destruct (slice_step F _ w1 e0 R1 a t (k - 1) 0 Ht1 ltac:(lia) ltac:(subst W; lia)) as (w2 & lo & S2 & O2 & T2 & _).
  assert (R2 := run_snoc _ _ _ _ _ _ R1 S2). assert (T1' := old_type F _ w1 R1 _ _ _ _ _ S2 T1).
  replace (Z.abs (W - 1 - k) + 1) with (W - k) in * by lia. replace (Z.abs (k - 1 - 0) + 1) with k in * by lia.
  assert (B1 : total_bits (TRaw (W - k)) = W - k) by (apply raw_bits; change (2 ^ 16) with 65536 in Hw; lia).
  assert (B2 : total_bits (TRaw k) = k) by (apply raw_bits; change (2 ^ 16) with 65536 in Hw; lia).
  assert (OW : owner w2 lo = owner w2 hi).
  { rewrite O2, (old_owner F _ w1 R1 _ _ _ hi S2 (typed_exists _ _ _ T1)), O1. apply (old_owner F h w R _ _ _ a S1 (typed_exists _ _ _ Ht)). }
  destruct (cat_step F _ w2 e0 R2 hi lo _ _ T1' T2 OW ltac:(lia) ltac:(lia) ltac:(lia)) as (w3 & c & S3 & T3 & _).
  exists w1, hi, w2, lo, w3, c. split; [exact S1|]. split; [exact S2|]. split; [exact S3|]. rewrite B1, B2 in T3. replace (W - k + k) with W in T3 by lia. split; [exact T3|].
  intros e i x Hi K Hx.
  destruct (slice_step F h w e R a t (W - 1) k Ht ltac:(lia) ltac:(subst W; lia)) as (w1' & hi' & S1' & _ & _ & K1). rewrite S1 in S1'. injection S1' as <- <-. specialize (K1 i x Hi K).
  assert (Ka := old_value F h w e R _ _ _ _ _ _ S1 ltac:(discriminate) (typed_exists _ _ _ Ht) K).
  destruct (slice_step F _ w1 e R1 a t (k - 1) 0 Ht1 ltac:(lia) ltac:(subst W; lia)) as (w2' & lo' & S2' & _ & _ & K2). rewrite S2 in S2'. injection S2' as <- <-. specialize (K2 i x Hi Ka).
  assert (K1' := old_value F _ w1 e R1 _ _ _ _ _ _ S2 ltac:(discriminate) (typed_exists _ _ _ T1) K1).
  replace (Z.abs (W - 1 - k) + 1) with (W - k) in * by lia. replace (Z.abs (k - 1 - 0) + 1) with k in * by lia.
  replace (Z.min (W - 1) k) with k in * by lia. replace (Z.min (k - 1) 0) with 0 in * by lia.
  destruct (cat_step F _ w2 e R2 hi lo _ _ T1' T2 OW ltac:(lia) ltac:(lia) ltac:(lia)) as (w3' & c' & S3' & _ & K3). rewrite S3 in S3'. injection S3' as <- <-.
  specialize (K3 i _ _ Hi K1' K2 eq_refl). rewrite B1, B2 in K3. cbn [snd] in K3. replace (W - k + k) with W in K3 by lia.
  change (2 ^ 0) with 1 in K3. rewrite Z.div_1_r, split_join in K3 by (try lia; assumption). exact K3.
Qed.

Theorem cat_split F h w a b ta tb : run F init_world h = Ok w -> type_of w a = Some ta -> type_of w b = Some tb -> owner w b = owner w a ->
  1 <= total_bits ta -> 1 <= total_bits tb -> total_bits ta + total_bits tb < 2 ^ 16 ->
  exists w1 c w2 hi w3 lo,
    step F w (CCat a b) = Ok (w1, c) /\ step F w1 (CSlice c (total_bits ta + total_bits tb - 1) (total_bits tb)) = Ok (w2, hi) /\
    step F w2 (CSlice c (total_bits tb - 1) 0) = Ok (w3, lo) /\
    type_of w3 hi = Some (TRaw (total_bits ta)) /\ type_of w3 lo = Some (TRaw (total_bits tb)) /\
    forall e i x y, 0 <= i -> kval (hw e) w a i x -> kval (hw e) w b i y -> of_type ta x -> of_type tb y ->
      kval (hw e) w3 hi i (kind (TRaw (total_bits ta)), snd x) /\ kval (hw e) w3 lo i (kind (TRaw (total_bits tb)), snd y).
Proof.
  intros R Ha Hb Ow Pa Pb Hs. set (A := total_bits ta) in *. set (B := total_bits tb) in *. change (2 ^ 16) with 65536 in Hs.
  assert (BC : total_bits (TRaw (A + B)) = A + B) by (apply raw_bits; lia).
  pose (e0 := {| e_stream := fun _ _ => (ta, 0); e_scalar := fun _ => (ta, 0) |}).
  destruct (cat_step F h w e0 R a b ta tb Ha Hb Ow) as (w1 & c & S1 & T1 & _); [fold A; lia|fold B; lia|exact Hs|]. fold A B in T1.
  assert (R1 := run_snoc _ _ _ _ _ _ R S1).
  destruct (slice_step F _ w1 e0 R1 c _ (A + B - 1) B T1 ltac:(lia) ltac:(rewrite BC; change (2 ^ 16) with 65536; lia)) as (w2 & hi & S2 & O2 & T2 & _).
  assert (R2 := run_snoc _ _ _ _ _ _ R1 S2). assert (T1' := old_type F _ w1 R1 _ _ _ _ _ S2 T1).
  destruct (slice_step F _ w2 e0 R2 c _ (B - 1) 0 T1' ltac:(lia) ltac:(rewrite BC; change (2 ^ 16) with 65536; lia)) as (w3 & lo & S3 & O3 & T3 & _).
  assert (T2' := old_type F _ w2 R2 _ _ _ _ _ S3 T2).
  replace (Z.abs (A + B - 1 - B) + 1) with A in * by lia. replace (Z.abs (B - 1 - 0) + 1) with B in * by lia.
  exists w1, c, w2, hi, w3, lo. do 5 (split; [assumption|]).
  intros e i x y Hi Ka Kb [Ex Wx] [Ey Wy]. unfold StubsSpec.word in Wx, Wy. fold A in Wx. fold B in Wy.
  destruct (cat_step F h w e R a b ta tb Ha Hb Ow) as (w1' & c' & S1' & _ & K1); [fold A; lia|fold B; lia|exact Hs|]. rewrite S1 in S1'. injection S1' as <- <-.
  specialize (K1 i x y Hi Ka Kb Ey). fold A B in K1.
  destruct (slice_step F _ w1 e R1 c _ (A + B - 1) B T1 ltac:(lia) ltac:(rewrite BC; change (2 ^ 16) with 65536; lia)) as (w2' & hi' & S2' & _ & _ & K2). rewrite S2 in S2'. injection S2' as <- <-. specialize (K2 i _ Hi K1).
  assert (K1' := old_value F _ w1 e R1 _ _ _ _ _ _ S2 ltac:(discriminate) (typed_exists _ _ _ T1) K1).
  destruct (slice_step F _ w2 e R2 c _ (B - 1) 0 T1' ltac:(lia) ltac:(rewrite BC; change (2 ^ 16) with 65536; lia)) as (w3' & lo' & S3' & _ & _ & K3). rewrite S3 in S3'. injection S3' as <- <-. specialize (K3 i _ Hi K1').
  assert (K2' := old_value F _ w2 e R2 _ _ _ _ _ _ S3 ltac:(discriminate) (typed_exists _ _ _ T2) K2).
  replace (Z.abs (A + B - 1 - B) + 1) with A in * by lia. replace (Z.abs (B - 1 - 0) + 1) with B in * by lia.
  replace (Z.min (A + B - 1) B) with B in * by lia. replace (Z.min (B - 1) 0) with 0 in * by lia. cbn [snd] in *.
  assert (P : 0 < 2 ^ B) by (apply Z.pow_pos_nonneg; lia).
  change (2 ^ 0) with 1 in K3. rewrite Z.div_1_r in K3. rewrite Z.add_comm, Z.mod_add, Z.mod_small in K3 by lia.
  rewrite Z.div_add_l, (Z.div_small (snd y)), Z.add_0_r, (Z.mod_small (snd x)) in K2' by lia. split; assumption.
Qed.
