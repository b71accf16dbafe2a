From Coq Require Import ZArith Bool String Lia.
From stdpp Require Import gmap list.
From Verif Require Import Instance InstanceSpec InstanceFlow Types Word Value Graph GraphSpec BuilderProofs BuilderProofs2 BuilderTopo
     Sim SimSpec WordProofs SimProofs OpSpec HwSpec.
Local Open Scope Z_scope.

(** ** congruences *)
Lemma mod_mod_le a k m : 0 <= k <= m -> (a mod 2 ^ m) mod 2 ^ k = a mod 2 ^ k.
Proof.
  intros H. replace (2 ^ m) with (2 ^ k * 2 ^ (m - k)) by (rewrite <- Z.pow_add_r by lia; f_equal; lia).
  assert (0 < 2 ^ k) by (apply Z.pow_pos_nonneg; lia). assert (0 < 2 ^ (m - k)) by (apply Z.pow_pos_nonneg; lia).
  rewrite Z.rem_mul_r by lia. rewrite (Z.mul_comm (2 ^ k)), Z.mod_add by lia. apply Z.mod_mod. lia.
Qed.
Lemma w64_mod a k : 0 <= k <= 64 -> w64 a mod 2 ^ k = a mod 2 ^ k.
Proof. intros H. unfold w64. rewrite two64_eq. now apply mod_mod_le. Qed.
Lemma s64_mod a k : 0 <= k <= 64 -> s64 a mod 2 ^ k = a mod 2 ^ k.
Proof.
  intros H. unfold s64. destruct (a <? two63); [reflexivity|]. rewrite two64_eq.
  rewrite <- (mod_mod_le (a - 2 ^ 64) k 64), <- (mod_mod_le a k 64) by lia.
  f_equal. replace (a - 2 ^ 64) with (a + (-1) * 2 ^ 64) by lia. apply Z.mod_add. lia.
Qed.
Lemma num_mod s k x : 0 <= k -> num s k x mod 2 ^ k = x mod 2 ^ k.
Proof.
  intros H. unfold num. destruct (s && _); [|reflexivity].
  replace (x - 2 ^ k) with (x + (-1) * 2 ^ k) by lia. apply Z.mod_add. apply Z.pow_nonzero; lia.
Qed.

Lemma land_mod a b k : 0 <= k -> Z.land a b mod 2 ^ k = Z.land (a mod 2 ^ k) (b mod 2 ^ k).
Proof.
  intros H. rewrite <- !Z.land_ones by lia. apply Z.bits_inj'. intros i Hi. rewrite !Z.land_spec.
  destruct (Z.testbit a i), (Z.testbit b i), (Z.testbit (Z.ones k) i); reflexivity.
Qed.
Lemma lor_mod a b k : 0 <= k -> Z.lor a b mod 2 ^ k = Z.lor (a mod 2 ^ k) (b mod 2 ^ k).
Proof.
  intros H. rewrite <- !Z.land_ones by lia. apply Z.bits_inj'. intros i Hi. rewrite ?Z.land_spec, ?Z.lor_spec, ?Z.land_spec.
  destruct (Z.testbit a i), (Z.testbit b i), (Z.testbit (Z.ones k) i); reflexivity.
Qed.
Lemma lxor_mod a b k : 0 <= k -> Z.lxor a b mod 2 ^ k = Z.lxor (a mod 2 ^ k) (b mod 2 ^ k).
Proof.
  intros H. rewrite <- !Z.land_ones by lia. apply Z.bits_inj'. intros i Hi. rewrite ?Z.land_spec, ?Z.lxor_spec, ?Z.land_spec.
  destruct (Z.testbit a i), (Z.testbit b i), (Z.testbit (Z.ones k) i); reflexivity.
Qed.

(** equal modulo 2^k is a congruence for the ring operators *)
Lemma ring_math_mod o x y x' y' k : ring_op o = true -> 0 <= k ->
  x mod 2 ^ k = x' mod 2 ^ k -> y mod 2 ^ k = y' mod 2 ^ k ->
  bin_math o x y mod 2 ^ k = bin_math o x' y' mod 2 ^ k.
Proof.
  intros Ho Hk Hx Hy. destruct o; try discriminate; cbn [bin_math].
  - rewrite Z.add_mod, Hx, Hy, <- Z.add_mod; auto; apply Z.pow_nonzero; lia.
  - rewrite Zminus_mod, Hx, Hy, <- Zminus_mod. reflexivity.
  - rewrite Z.mul_mod, Hx, Hy, <- Z.mul_mod; auto; apply Z.pow_nonzero; lia.
  - rewrite !(land_mod _ _ k) by auto. congruence.
  - rewrite !(lor_mod _ _ k) by auto. congruence.
  - rewrite !(lxor_mod _ _ k) by auto. congruence.
Qed.

Lemma sim_bin_ring F o s i f a b x k : ring_op o = true -> 0 <= k <= 64 ->
  sim_bin F o (TFixed s i f) a b = Some (CV x) -> x mod 2 ^ k = bin_math o a b mod 2 ^ k.
Proof.
  intros Ho Hk H. unfold sim_bin in H. destruct (is_bitwise o) eqn:Eb.
  - destruct o; try discriminate; cbn in H; injection H as <-; reflexivity.
  - cbn [sim_ctype] in H. destruct s; injection H as H; cbn [c_bin] in H.
    + assert (E : x = w64 (bin_math o (s64 a) (s64 b))).
      { unfold c_int in H. destruct o; try discriminate; cbn [bin_math]; destruct (fits_s64 _); try discriminate; congruence. }
      subst x. rewrite w64_mod by auto. apply ring_math_mod; [auto|lia|apply s64_mod; auto..].
    + assert (E : x = w64 (bin_math o a b)).
      { unfold c_uint in H. destruct o; try discriminate; cbn [bin_math]; congruence. }
      subst x. apply w64_mod. auto.
Qed.

Lemma sim_un_ring F u s i f a x k : 0 <= k <= 64 ->
  sim_un F u (TFixed s i f) a = Some (CV x) ->
  x mod 2 ^ k = (match u with NOT => -1 - a | NEG => - a end) mod 2 ^ k.
Proof.
  intros Hk H. destruct u; cbn [sim_un sim_ctype] in H.
  - unfold c_not in H. injection H as <-. rewrite two64_eq.
    replace (2 ^ 64 - 1 - a) with ((-1 - a) + 1 * 2 ^ 64) by lia.
    rewrite <- (mod_mod_le (_ + 1 * _) k 64) by lia. rewrite Z.mod_add by lia. now apply mod_mod_le.
  - destruct s; injection H as H; cbn [c_neg] in H.
    + destruct (fits_s64 _); [|discriminate]. injection H as <-. rewrite w64_mod by auto.
      rewrite <- !Z.sub_0_l, Zminus_mod, s64_mod, <- Zminus_mod by auto. reflexivity.
    + subst x. now rewrite w64_mod.
Qed.

Section H.
Variable F : fltops.
Variable w : world.
Variable inp : string -> option Z.

Lemma node_type n nd t : w_nodes w !! n = Some nd -> w_types w !! n_ty nd = Some t -> type_of w n = Some t.
Proof. intros Hn Ht. unfold type_of. now rewrite Hn. Qed.

Ltac samenode :=
  repeat match goal with
  | A : w_nodes w !! ?n = Some ?x, B : w_nodes w !! ?n = Some ?y |- _ =>
      let E := fresh in assert (E : y = x) by congruence; subst y; clear B
  | A : n_op ?x = _, B : n_op ?x = _ |- _ => rewrite A in B; try discriminate; injection B; intros; subst; clear B
  end.
Ltac sameops :=
  match goal with
  | A : operands w ?n = _, B : operands w ?n = _ |- _ => rewrite A in B; injection B; intros; subst; clear B
  end.

Lemma ring_step v f n : node_eq F w inp v n -> hw_eq w inp f n -> ring_node w v n ->
  (forall a, a ∈ operands w n -> v a mod 2 ^ wd w a = f a) ->
  v n mod 2 ^ wd w n = f n.
Proof.
  intros Nv Hf (nd & Hn & Hk & Hop) IH.
  assert (Hpos : 0 < 2 ^ wd w n) by (apply Z.pow_pos_nonneg; lia).
  destruct Nv as [nd1 Hn1 Ho1 Hi1|nd1 c1 Hn1 Ho1 Hc1|nd1 s1 rest1 Hn1 Ho1 Hop1 Hf1|nd1 c1 arms1 a1 Hn1 Ho1 Hop1 Hc1 Hl1 Hf1
    |nd1 c1 arms1 Hn1 Ho1 Hop1 Hc1 Hf1|nd1 o1 t1 a1 b1 rest1 Hn1 Ho1 Hop1 Ht1 Hs1|nd1 u1 t1 a1 rest1 Hn1 Ho1 Hop1 Ht1 Hs1|nd1 k1 a1 rest1 Hn1 Ho1 Hop1 Hk1 Hf1|nd1 k1 a1 rest1 Hn1 Ho1 Hop1 Hk1 Hf1];
    rewrite Hn in Hn1; injection Hn1 as <-; rewrite Ho1 in Hop; try contradiction;
  destruct Hf as [nd2 x2 Hn2 Ho2 Hi2 Hf2|nd2 c2 Hn2 Ho2 Hf2|nd2 s2 rest2 Hn2 Ho2 Hop2 Hf2|nd2 c2 arms2 a2 Hn2 Ho2 Hop2 Hc2 Hl2 Hf2
    |nd2 o2 a2 b2 rest2 Hn2 Ho2 Hop2 Hd2 Hf2|nd2 a2 rest2 Hn2 Ho2 Hop2 Hf2|nd2 a2 rest2 Hn2 Ho2 Hop2 Hf2|nd2 k2 a2 rest2 Hn2 Ho2 Hop2 Hf2|nd2 k2 a2 rest2 Hn2 Ho2 Hop2 Hf2];
    rewrite Hn in Hn2; injection Hn2 as <-; rewrite Ho1 in Ho2; try discriminate; try (rewrite Hop1 in Hop2).
  - rewrite Hi1 in Hi2. injection Hi2 as ->. now rewrite Hf2.
  - injection Ho2 as <-. now rewrite Hf2, Hc1.
  - injection Hop2 as <- <-. rewrite Hf1, Hf2. destruct Hop as [_ Hw].
    rewrite <- (Hw s1) by (rewrite Hop1; left). apply IH. rewrite Hop1. left.
  - injection Hop2 as <- <-. destruct Hop as (c & arms & Hops & Hwc & Hvc & Hwa). rewrite Hop1 in Hops. injection Hops as <- <-.
    assert (Ec : v c1 = f c1).
    { rewrite <- (IH c1) by (rewrite Hop1; left). symmetry. apply Z.mod_small. lia. }
    rewrite Ec in Hl1. rewrite Hl1 in Hl2. injection Hl2 as <-. rewrite Hf1, Hf2.
    assert (Ha : a1 ∈ arms1) by (eapply elem_of_list_lookup_2; eauto).
    rewrite <- (Hwa _ Ha). apply IH. rewrite Hop1. now right.
  - destruct Hop as (c & arms & Hops & Hwc & Hvc & _). rewrite Hop1 in Hops. injection Hops as <- <-.
    assert (2 ^ wd w c1 <= 2 ^ 63) by (apply Z.pow_le_mono_r; lia). lia.
  - injection Hop2 as <- <- <-. injection Ho2 as <-. destruct Hop as ((s & i & fr & Ht) & Hr & Hw).
    rewrite (node_type _ _ _ Hn Ht1) in Ht. injection Ht as ->.
    rewrite Hf2. rewrite (sim_bin_ring _ _ _ _ _ _ _ _ (wd w n) Hr Hk Hs1).
    rewrite Hop1 in Hw, IH.
    assert (Wa : wd w a1 = wd w n) by (apply Hw; left). assert (Wb : wd w b1 = wd w n) by (apply Hw; right; left).
    assert (Ia : v a1 mod 2 ^ wd w a1 = f a1) by (apply IH; left). assert (Ib : v b1 mod 2 ^ wd w b1 = f b1) by (apply IH; right; left).
    rewrite Wa in *. rewrite Wb in *.
    apply ring_math_mod; [auto|lia| |]; rewrite num_mod by lia; [rewrite <- Ia|rewrite <- Ib]; rewrite Z.mod_mod by lia; reflexivity.
  - injection Hop2 as <- <-. injection Ho2 as ->. destruct Hop as ((s & i & fr & Ht) & Hw).
    rewrite (node_type _ _ _ Hn Ht1) in Ht. injection Ht as ->.
    rewrite (sim_un_ring _ _ _ _ _ _ _ (wd w n) Hk Hs1). rewrite Hop1 in Hw, IH.
    assert (Wa : wd w a1 = wd w n) by (apply Hw; left).
    assert (Ia : v a1 mod 2 ^ wd w a1 = f a1) by (apply IH; left). rewrite Wa in Ia.
    rewrite Hf2, <- Ia. rewrite Zminus_mod. pose proof (Z.mod_pos_bound (v a1) _ Hpos).
    symmetry. apply (Z.mod_unique _ _ 0); [lia|].
    assert (E : (-1) mod 2 ^ wd w n = 2 ^ wd w n - 1).
    { symmetry. apply (Z.mod_unique _ _ (-1)); lia. }
    rewrite E. lia.
  - injection Hop2 as <- <-. injection Ho2 as ->. destruct Hop as ((s & i & fr & Ht) & Hw).
    rewrite (node_type _ _ _ Hn Ht1) in Ht. injection Ht as ->.
    rewrite (sim_un_ring _ _ _ _ _ _ _ (wd w n) Hk Hs1). rewrite Hop1 in Hw, IH.
    assert (Wa : wd w a1 = wd w n) by (apply Hw; left).
    assert (Ia : v a1 mod 2 ^ wd w a1 = f a1) by (apply IH; left). rewrite Wa in Ia.
    rewrite Hf2, <- Ia. rewrite <- !Z.sub_0_l, (Zminus_mod 0 (v a1 mod _)), Z.mod_mod by lia. now rewrite <- Zminus_mod.
  - injection Hop2 as <- <-. injection Ho2 as <-. destruct Hop as (Hk0 & Hw). rewrite Hop1 in Hw, IH.
    assert (Wa : wd w a1 = wd w n) by (apply Hw; left).
    assert (Ia : v a1 mod 2 ^ wd w a1 = f a1) by (apply IH; left). rewrite Wa in Ia.
    rewrite Hf1, Hf2, <- Ia. rewrite mod_mod_le by lia.
    rewrite Z.mul_mod_idemp_l by lia. reflexivity.
Qed.

Lemma sim_bin_exact o i fr a b x : 0 <= a < 2 ^ 64 -> 0 <= b < 2 ^ 64 -> (o = DIV -> b <> 0) ->
  0 <= bin_math o a b < 2 ^ 64 ->
  sim_bin F o (TFixed false i fr) a b = Some (CV x) -> x = bin_math o a b.
Proof.
  intros Ha Hb Hd Hr H. unfold sim_bin in H.
  assert (E : c_uint o a b = CV x) by (destruct (is_bitwise o); cbn in H; congruence).
  clear H. unfold c_uint, w64 in E. rewrite two64_eq in E.
  destruct o; cbn [bin_math] in *; try (injection E as <-; try reflexivity; apply Z.mod_small; lia).
  destruct (Z.eqb_spec b 0); [discriminate|]. injection E as <-. symmetry. apply Z.quot_div_nonneg; lia.
Qed.

Lemma exact_step v f n : node_eq F w inp v n -> hw_eq w inp f n -> exact_node w inp f n -> W (v n) ->
  (forall a, a ∈ operands w n -> exact_node w inp f a) ->
  (forall a, a ∈ operands w n -> v a = f a /\ W (v a) /\ f a < 2 ^ wd w a) ->
  v n = f n /\ f n < 2 ^ wd w n.
Proof.
  intros Nv Hf (nd & i & fr & Hn & Hk & Hty & Hop) Wn Hex IH.
  assert (Hpos : 0 < 2 ^ wd w n) by (apply Z.pow_pos_nonneg; lia).
  assert (Hle : 2 ^ wd w n <= 2 ^ 64) by (apply Z.pow_le_mono_r; lia).
  assert (Hnum : forall a, a ∈ operands w n -> num (sgn w a) (wd w a) (f a) = f a).
  { intros a Ha. destruct (Hex _ Ha) as (nda & ia & fra & _ & _ & Hta & _). unfold num, sgn. rewrite Hta. reflexivity. }
  assert (Hmono : forall a, wd w a <= wd w n -> 2 ^ wd w a <= 2 ^ wd w n).
  { intros a Ha. destruct (Z.lt_ge_cases (wd w a) 0); [rewrite (Z.pow_neg_r 2 (wd w a)) by auto; lia|]. apply Z.pow_le_mono_r; lia. }
  unfold W in *.
  destruct Nv as [nd1 Hn1 Ho1 Hi1|nd1 c1 Hn1 Ho1 Hc1|nd1 s1 rest1 Hn1 Ho1 Hop1 Hf1|nd1 c1 arms1 a1 Hn1 Ho1 Hop1 Hc1 Hl1 Hf1
    |nd1 c1 arms1 Hn1 Ho1 Hop1 Hc1 Hf1|nd1 o1 t1 a1 b1 rest1 Hn1 Ho1 Hop1 Ht1 Hs1|nd1 u1 t1 a1 rest1 Hn1 Ho1 Hop1 Ht1 Hs1|nd1 k1 a1 rest1 Hn1 Ho1 Hop1 Hk1 Hf1|nd1 k1 a1 rest1 Hn1 Ho1 Hop1 Hk1 Hf1];
    rewrite Hn in Hn1; injection Hn1 as <-; rewrite Ho1 in Hop; try contradiction;
  destruct Hf as [nd2 x2 Hn2 Ho2 Hi2 Hf2|nd2 c2 Hn2 Ho2 Hf2|nd2 s2 rest2 Hn2 Ho2 Hop2 Hf2|nd2 c2 arms2 a2 Hn2 Ho2 Hop2 Hc2 Hl2 Hf2
    |nd2 o2 a2 b2 rest2 Hn2 Ho2 Hop2 Hd2 Hf2|nd2 a2 rest2 Hn2 Ho2 Hop2 Hf2|nd2 a2 rest2 Hn2 Ho2 Hop2 Hf2|nd2 k2 a2 rest2 Hn2 Ho2 Hop2 Hf2|nd2 k2 a2 rest2 Hn2 Ho2 Hop2 Hf2];
    rewrite Hn in Hn2; injection Hn2 as <-; rewrite Ho1 in Ho2; try discriminate; try (rewrite Hop1 in Hop2);
    try rewrite Hop1 in IH; try rewrite Hop1 in Hnum.
  - rewrite Hi1 in Hi2. injection Hi2 as <-. specialize (Hop _ Hi1).
    assert (E : v n mod 2 ^ wd w n = v n) by (apply Z.mod_small; lia). lia.
  - injection Ho2 as <-. assert (E : c1 mod 2 ^ wd w n = c1) by (apply Z.mod_small; lia). lia.
  - injection Hop2 as <- <-. destruct (IH s1) as (E & _ & B); [left|].
    assert (wd w s1 <= wd w n) as Hws by (apply Hop; rewrite Hop1; left). specialize (Hmono _ Hws). lia.
  - injection Hop2 as <- <-. destruct (IH c1) as [Ec _]; [left|]. destruct Hop as (c & arms & Hops & _ & Hwa).
    rewrite Hop1 in Hops. injection Hops as <- <-.
    rewrite Ec in Hl1. rewrite Hl1 in Hl2. injection Hl2 as <-.
    assert (Ha : a1 ∈ arms1) by (eapply elem_of_list_lookup_2; eauto).
    destruct (IH a1) as (E & _ & B); [now right|]. specialize (Hmono _ (Hwa _ Ha)). lia.
  - exfalso. injection Hop2 as <- <-. destruct Hop as (c & arms & Hops & Hwc & _). rewrite Hop1 in Hops. injection Hops as <- <-.
    destruct (IH c1) as (Ec & _ & Hc); [left|].
    assert (2 ^ wd w c1 <= 2 ^ 63) by (apply Z.pow_le_mono_r; lia). lia.
  - injection Hop2 as <- <- <-. injection Ho2 as <-. destruct Hop as (a & b & rest & Hops & Hr). rewrite Hop1 in Hops. injection Hops as <- <- <-.
    rewrite (node_type _ _ _ Hn Ht1) in Hty. injection Hty as ->.
    destruct (IH a1) as (Ea & Wa & Ba); [left|]. destruct (IH b1) as (Eb & Wb & Bb); [right; left|].
    rewrite (Hnum a1), (Hnum b1) in Hf2 by (try left; right; left).
    rewrite Z.mod_small in Hf2 by lia. rewrite Ea, Eb in *.
    rewrite (sim_bin_exact o1 i fr (f a1) (f b1) (v n)); auto; [|lia]. rewrite <- Hf2. split; [reflexivity|lia].
  - injection Ho2 as ->. contradiction.
  - injection Hop2 as <- <-. injection Ho2 as ->. destruct Hop as (a & rest & Hops & Hz). rewrite Hop1 in Hops. injection Hops as <- <-.
    rewrite (node_type _ _ _ Hn Ht1) in Hty. injection Hty as ->. destruct (IH a1) as (Ea & _); [left|].
    rewrite Hz in *. rewrite Ea in Hs1. cbv in Hs1. injection Hs1 as Hs1. rewrite Hf2, <- Hs1. change (- 0) with 0. rewrite Z.mod_0_l by lia. lia.
  - injection Hop2 as <- <-. injection Ho2 as <-. destruct Hop as (Hk0 & a & rest & Hops & Hr). rewrite Hop1 in Hops. injection Hops as <- <-.
    destruct (IH a1) as (Ea & Wa & Ba); [left|]. assert (0 < 2 ^ k1) by (apply Z.pow_pos_nonneg; lia).
    rewrite Hf1, Hf2, Ea. rewrite !Z.mod_small by nia. lia.
  - injection Hop2 as <- <-. injection Ho2 as <-. destruct Hop as (Hk0 & Hw). rewrite Hop1 in Hw.
    destruct (IH a1) as (Ea & Wa & Ba); [left|]. assert (Hp : 0 < 2 ^ k1) by (apply Z.pow_pos_nonneg; lia).
    rewrite (Hnum a1) in Hf2 by left. specialize (Hmono a1 (Hw a1 ltac:(left))).
    assert (0 <= f a1 / 2 ^ k1 <= f a1).
    { split; [apply Z.div_pos; lia|]. apply Z.div_le_upper_bound; [lia|]. nia. }
    rewrite Hf1, Hf2, Ea. rewrite Z.mod_small by lia. lia.
Qed.

Lemma order_induct r (P : nat -> Prop) : topological w r ->
  (forall n, n ∈ r -> (forall a, a ∈ operands w n -> a ∈ r /\ P a) -> P n) -> forall n, n ∈ r -> P n.
Proof.
  intros (Nd & Cl & Ho) H.
  assert (G : forall k i n, (i < k)%nat -> r !! i = Some n -> P n).
  { induction k as [|k IH]; intros i n Hi Hn; [lia|].
    assert (Hr : n ∈ r) by (eapply elem_of_list_lookup_2; eauto).
    apply H; [exact Hr|]. intros a Ha. pose proof (Cl _ _ Hr Ha) as Hin. split; [exact Hin|].
    apply elem_of_list_lookup in Hin as [j Hj]. specialize (Ho _ _ _ _ Hj Hn Ha). eapply (IH j); eauto. lia. }
  intros n Hn. apply elem_of_list_lookup in Hn as [i Hi]. eapply (G (S i)); eauto.
Qed.
End H.

Theorem ring_kernel F h w inp r v v' f :
  flt_words F -> elaborates F h w -> inp_words inp -> topological w r ->
  (forall n, 0 <= vget v n < 2 ^ 64) -> run_sim F w inp v r = SOk v' ->
  (forall n, n ∈ r -> hw_eq w inp f n) -> (forall n, n ∈ r -> ring_node w (vget v') n) ->
  forall n, n ∈ r -> vget v' n mod 2 ^ wd w n = f n.
Proof.
  intros HF R HI T Hv S Hf Hr.
  destruct (sim_kernel F HF h w inp r v v' R HI T Hv S) as (So & _).
  apply (order_induct w r _ T). intros n Hn IH.
  eapply (ring_step F); eauto. intros a Ha. now apply IH.
Qed.

Theorem exact_kernel F h w inp r v v' f :
  flt_words F -> elaborates F h w -> inp_words inp -> topological w r ->
  (forall n, 0 <= vget v n < 2 ^ 64) -> run_sim F w inp v r = SOk v' ->
  (forall n, n ∈ r -> hw_eq w inp f n) -> (forall n, n ∈ r -> exact_node w inp f n) ->
  forall n, n ∈ r -> vget v' n = f n /\ f n < 2 ^ wd w n.
Proof.
  intros HF R HI T Hv S Hf Hr.
  destruct (sim_kernel F HF h w inp r v v' R HI T Hv S) as (So & _).
  destruct (elab_good F HF _ _ R) as [G1 G2].
  assert (Wv : forall n, W (vget v' n)).
  { eapply run_sim_sound; eauto using topological_ordered; try (eapply (elab_WF F); eauto).
    intros n nd k Hn Ho. specialize (G2 _ _ _ Hn Ho). lia. }
  apply (order_induct w r _ T). intros n Hn IH.
  eapply (exact_step F); eauto.
  - intros a Ha. apply Hr. now apply IH.
  - intros a Ha. destruct (IH _ Ha) as (_ & A & B). auto.
Qed.
