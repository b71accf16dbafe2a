(** * Arithmetic of GF(2^8) (proofs). *)
From Coq Require Import ZArith Bool List Lia.
From Verif Require Import CryptoSpec.
Import ListNotations.
Local Open Scope Z_scope.

Lemma lxor_div m a b : 0 <= m -> Z.lxor a b / 2 ^ m = Z.lxor (a / 2 ^ m) (b / 2 ^ m).
Proof. intro H. rewrite <- !Z.shiftr_div_pow2 by exact H. apply Z.shiftr_lxor. Qed.
Lemma lxor_mul m a b : 0 <= m -> Z.lxor a b * 2 ^ m = Z.lxor (a * 2 ^ m) (b * 2 ^ m).
Proof. intro H. rewrite <- !Z.shiftl_mul_pow2 by exact H. apply Z.shiftl_lxor. Qed.
Lemma lxor_pos a b : 0 <= a -> 0 <= b -> 0 <= Z.lxor a b.
Proof. intros. apply Z.lxor_nonneg. tauto. Qed.
Lemma div_zero_lt m a : 0 <= m -> 0 <= a -> a / 2 ^ m = 0 -> a < 2 ^ m.
Proof. intros Hm Ha E. assert (0 < 2 ^ m) by (apply Z.pow_pos_nonneg; lia). pose proof (Z.div_mod a (2 ^ m) ltac:(lia)) as D. pose proof (Z.mod_pos_bound a (2 ^ m) ltac:(lia)). rewrite E in D. lia. Qed.
Lemma lxor_lt m a b : 0 <= m -> 0 <= a < 2 ^ m -> 0 <= b < 2 ^ m -> 0 <= Z.lxor a b < 2 ^ m.
Proof.
  intros Hm Ha Hb. assert (0 <= Z.lxor a b) by (apply lxor_pos; lia). split; [assumption|]. apply div_zero_lt; [lia|assumption|]. rewrite lxor_div by lia. rewrite (Z.div_small a), (Z.div_small b) by lia. reflexivity.
Qed.
Lemma dbl_lxor a b : 2 * Z.lxor a b = Z.lxor (2 * a) (2 * b).
Proof. pose proof (lxor_mul 1 a b ltac:(lia)) as H. change (2 ^ 1) with 2 in H. rewrite (Z.mul_comm 2), H, (Z.mul_comm a), (Z.mul_comm b). reflexivity. Qed.
Lemma half_lxor a b : Z.lxor a b / 2 = Z.lxor (a / 2) (b / 2).
Proof. exact (lxor_div 1 a b ltac:(lia)). Qed.
Lemma odd_lxor a b : Z.odd (Z.lxor a b) = xorb (Z.odd a) (Z.odd b).
Proof. rewrite <- !Z.bit0_odd. apply Z.lxor_spec. Qed.
Lemma lxor_swap a b c : Z.lxor a (Z.lxor b c) = Z.lxor b (Z.lxor a c).
Proof. rewrite <- !Z.lxor_assoc, (Z.lxor_comm a b). reflexivity. Qed.
Lemma lxor_cancel a b : Z.lxor a (Z.lxor a b) = b.
Proof. rewrite <- Z.lxor_assoc, Z.lxor_nilpotent. apply Z.lxor_0_l. Qed.
Lemma lxor_eq a b c : Z.lxor a b = c -> a = Z.lxor c b.
Proof. intros <-. rewrite Z.lxor_assoc, Z.lxor_nilpotent, Z.lxor_0_r. reflexivity. Qed.

(** ** Products of polynomials *)
Lemma clmul_0_r a : clmul a 0 = 0.
Proof. reflexivity. Qed.
Lemma clmul_step a b : 0 <= b -> clmul a b = Z.lxor (if Z.odd b then a else 0) (2 * clmul a (b / 2)).
Proof.
  intro H. destruct b as [|[b|b|]|b]; [reflexivity| | |cbn; now rewrite Z.lxor_0_r|lia].
  - replace (Z.pos b~1 / 2) with (Z.pos b) by (apply Z.div_unique with 1; [lia|]; rewrite Pos2Z.inj_xI; lia). reflexivity.
  - replace (Z.pos b~0 / 2) with (Z.pos b) by (apply Z.div_unique with 0; [lia|]; rewrite Pos2Z.inj_xO; lia). cbn. destruct (clmul_pos a b); reflexivity.
Qed.
Lemma clmul_ind (P : Z -> Prop) : P 0 -> (forall b, 0 < b -> P (b / 2) -> P b) -> forall b, 0 <= b -> P b.
Proof.
  intros H0 HS. apply (Zlt_0_ind P). intros b IH Hb. destruct (Z.eq_dec b 0) as [->|]; [exact H0|]. apply HS; [lia|]. apply IH. split; [apply Z.div_pos; lia|apply Z.div_lt; lia].
Qed.
Lemma clmul_0_l b : clmul 0 b = 0.
Proof. destruct b as [|b|b]; [reflexivity| |reflexivity]. induction b as [b IH|b IH|]; cbn in *; rewrite ?IH; reflexivity. Qed.
Lemma clmul_lxor_l a a' b : clmul (Z.lxor a a') b = Z.lxor (clmul a b) (clmul a' b).
Proof.
  destruct b as [|b|b]; [reflexivity| |reflexivity]. cbn [clmul]. induction b as [b IH|b IH|]; cbn [clmul_pos]; [| |reflexivity]; rewrite IH, dbl_lxor; [|reflexivity].
  rewrite !Z.lxor_assoc. f_equal. rewrite lxor_swap. reflexivity.
Qed.
Lemma clmul_dbl_l a b : clmul (2 * a) b = 2 * clmul a b.
Proof. destruct b as [|b|b]; [reflexivity| |reflexivity]. cbn [clmul]. induction b as [b IH|b IH|]; cbn [clmul_pos]; [rewrite IH, dbl_lxor; reflexivity|rewrite IH; reflexivity|reflexivity]. Qed.
Lemma clmul_lxor_r a b : 0 <= b -> forall b', 0 <= b' -> clmul a (Z.lxor b b') = Z.lxor (clmul a b) (clmul a b').
Proof.
  revert b. apply (clmul_ind (fun b => forall b', 0 <= b' -> clmul a (Z.lxor b b') = Z.lxor (clmul a b) (clmul a b'))).
  - intros b' _. rewrite !Z.lxor_0_l. reflexivity.
  - intros b Hb IH b' Hb'. rewrite (clmul_step a (Z.lxor b b')), (clmul_step a b), (clmul_step a b') by (try apply lxor_pos; lia).
    rewrite half_lxor, odd_lxor, IH, dbl_lxor by (apply Z.div_pos; lia).
    set (x := 2 * clmul a (b / 2)). set (y := 2 * clmul a (b' / 2)). destruct (Z.odd b), (Z.odd b'); cbn [xorb]; rewrite ?Z.lxor_0_l.
    + rewrite (Z.lxor_assoc a x), (lxor_swap x a y), lxor_cancel. reflexivity.
    + rewrite Z.lxor_assoc. reflexivity.
    + rewrite (lxor_swap x a y). reflexivity.
    + reflexivity.
Qed.
Lemma clmul_dbl_r a b : 0 <= b -> clmul a (2 * b) = 2 * clmul a b.
Proof. intro H. destruct b as [|b|b]; [reflexivity|reflexivity|lia]. Qed.
Lemma clmul_pow a i : 0 <= i -> clmul a (2 ^ i) = a * 2 ^ i.
Proof.
  intro H. revert i H. apply natlike_ind; [cbn; lia|]. intros i Hi IH. rewrite Z.pow_succ_r by exact Hi. rewrite clmul_dbl_r by (apply Z.pow_nonneg; lia). rewrite IH. ring.
Qed.
Lemma clmul_nonneg a b : 0 <= a -> 0 <= clmul a b.
Proof.
  intro Ha. destruct b as [|b|b]; [cbn; lia| |cbn; lia]. cbn. induction b as [b IH|b IH|]; cbn [clmul_pos]; [apply lxor_pos; lia|lia|exact Ha].
Qed.
Lemma clmul_bound a n : 0 <= n -> 0 <= a < 256 -> forall b, 0 <= b < 2 ^ n -> 0 <= clmul a b < 2 ^ (n + 8).
Proof.
  intros Hn Ha. revert n Hn. apply (natlike_ind (fun n => forall b, 0 <= b < 2 ^ n -> 0 <= clmul a b < 2 ^ (n + 8))).
  - intros b Hb. change (2 ^ 0) with 1 in Hb. assert (b = 0) by lia. subst. cbn. lia.
  - intros n Hn IH b Hb. rewrite clmul_step by lia. rewrite Z.pow_succ_r in Hb by lia. specialize (IH (b / 2) ltac:(split; [apply Z.div_pos; lia|apply Z.div_lt_upper_bound; lia])).
    replace (Z.succ n + 8) with (1 + (n + 8)) by lia. assert (2 ^ 8 <= 2 ^ (n + 8)) by (apply Z.pow_le_mono_r; lia). change (2 ^ 8) with 256 in *.
    apply lxor_lt; [lia| |]; rewrite Z.pow_add_r, Z.pow_1_r by lia; [|lia]. destruct (Z.odd b); lia.
Qed.

(** ** Remainders *)
Lemma poly_multiple q : 0 < q -> 256 <= clmul gf_poly q.
Proof.
  destruct q as [|q|q]; try lia. intros _. cbn [clmul]. induction q as [q IH|q IH|]; cbn [clmul_pos]; [|lia|unfold gf_poly; cbn; lia].
  assert (0 <= Z.lxor gf_poly (2 * clmul_pos gf_poly q)) by (apply lxor_pos; [unfold gf_poly; cbn; lia|lia]).
  assert (E : Z.lxor gf_poly (2 * clmul_pos gf_poly q) / 2 ^ 9 = (2 * clmul_pos gf_poly q) / 2 ^ 9) by (rewrite lxor_div by lia; change (gf_poly / 2 ^ 9) with 0; apply Z.lxor_0_l).
  assert (1 <= (2 * clmul_pos gf_poly q) / 2 ^ 9) by (apply Z.div_le_lower_bound; change (2 ^ 9) with 512; lia). rewrite <- E in H0.
  set (z := Z.lxor gf_poly _) in *. destruct (Z.le_gt_cases 256 z); [assumption|]. rewrite Z.div_small in H0; change (2 ^ 9) with 512; lia.
Qed.
Theorem gf_product_unique a b r r' : gf_product a b r -> gf_product a b r' -> r = r'.
Proof.
  intros (Hr & q & Hq & E) (Hr' & q' & Hq' & E'). rewrite E in E'. clear E.
  assert (X : clmul gf_poly (Z.lxor q q') = Z.lxor r r').
  { rewrite clmul_lxor_r by assumption. apply lxor_eq in E'. rewrite E'. rewrite (Z.lxor_comm _ r), Z.lxor_assoc. f_equal. rewrite (Z.lxor_comm (clmul gf_poly q')), Z.lxor_assoc, Z.lxor_nilpotent. apply Z.lxor_0_r. }
  pose proof (lxor_lt 8 r r' ltac:(lia) ltac:(lia) ltac:(lia)). change (2 ^ 8) with 256 in *.
  assert (0 <= Z.lxor q q') by (apply lxor_pos; assumption). destruct (Z.eq_dec (Z.lxor q q') 0) as [E|E]; [|pose proof (poly_multiple (Z.lxor q q') ltac:(lia)); lia].
  rewrite E in X. cbn in X. symmetry in X. apply Z.lxor_eq in X. exact X.
Qed.

(** the reduction *)
Lemma reduce_step a i x : 0 <= i -> 0 <= x < 2 ^ (9 + i) -> (exists q, 0 <= q /\ clmul a 1 = Z.lxor (clmul gf_poly q) x) ->
  let x' := if Z.testbit x (8 + i) then Z.lxor x (gf_poly * 2 ^ i) else x in 0 <= x' < 2 ^ (8 + i) /\ exists q, 0 <= q /\ clmul a 1 = Z.lxor (clmul gf_poly q) x'.
Proof.
  intros Hi Hx (q & Hq & E). cbn zeta. assert (P8 : 0 < 2 ^ (8 + i)) by (apply Z.pow_pos_nonneg; lia). assert (P0 : 0 < 2 ^ i) by (apply Z.pow_pos_nonneg; lia).
  assert (E9 : 2 ^ (9 + i) = 2 * 2 ^ (8 + i)) by (replace (9 + i) with (Z.succ (8 + i)) by lia; apply Z.pow_succ_r; lia).
  assert (D : 0 <= x / 2 ^ (8 + i) < 2) by (split; [apply Z.div_pos; lia|apply Z.div_lt_upper_bound; lia]).
  rewrite Z.testbit_odd, Z.shiftr_div_pow2 by lia. destruct (Z.odd (x / 2 ^ (8 + i))) eqn:O.
  - assert (D1 : x / 2 ^ (8 + i) = 1) by (destruct (Z.eq_dec (x / 2 ^ (8 + i)) 0) as [Z0|]; [rewrite Z0 in O; discriminate|lia]).
    assert (N : 0 <= Z.lxor x (gf_poly * 2 ^ i)) by (apply lxor_pos; [lia|apply Z.mul_nonneg_nonneg; [discriminate|lia]]). split.
    + split; [exact N|]. apply div_zero_lt; [lia|exact N|]. rewrite lxor_div by lia. rewrite D1. replace (gf_poly * 2 ^ i / 2 ^ (8 + i)) with 1; [reflexivity|].
      rewrite Z.pow_add_r by lia. rewrite Z.div_mul_cancel_r by lia. reflexivity.
    + exists (Z.lxor q (2 ^ i)). split; [apply lxor_pos; lia|]. rewrite clmul_lxor_r, clmul_pow by lia. rewrite E. rewrite Z.lxor_assoc. f_equal. rewrite (Z.lxor_comm x), lxor_cancel. reflexivity.
  - assert (D0 : x / 2 ^ (8 + i) = 0) by (destruct (Z.eq_dec (x / 2 ^ (8 + i)) 1) as [Z0|]; [rewrite Z0 in O; discriminate|lia]).
    split; [split; [lia|apply div_zero_lt; lia]|exists q; auto].
Qed.
Lemma clmul_tight a n : 0 <= n -> 0 <= a < 256 -> forall b, 0 <= b < 2 ^ (n + 1) -> 0 <= clmul a b < 2 ^ (n + 8).
Proof.
  intros Hn Ha. revert n Hn. apply (natlike_ind (fun n => forall b, 0 <= b < 2 ^ (n + 1) -> 0 <= clmul a b < 2 ^ (n + 8))).
  - intros b Hb. change (2 ^ (0 + 1)) with 2 in Hb. change (2 ^ (0 + 8)) with 256. assert (H : b = 0 \/ b = 1) by lia. destruct H; subst b; cbn; lia.
  - intros n Hn IH b Hb. rewrite clmul_step by lia. replace (Z.succ n + 1) with (Z.succ (n + 1)) in Hb by lia. rewrite Z.pow_succ_r in Hb by lia. specialize (IH (b / 2) ltac:(split; [apply Z.div_pos; lia|apply Z.div_lt_upper_bound; lia])).
    replace (Z.succ n + 8) with (1 + (n + 8)) by lia. assert (2 ^ 8 <= 2 ^ (n + 8)) by (apply Z.pow_le_mono_r; lia). change (2 ^ 8) with 256 in *.
    apply lxor_lt; [lia| |]; rewrite Z.pow_add_r, Z.pow_1_r by lia; [|lia]. destruct (Z.odd b); lia.
Qed.
Theorem gf_mul_product a b : 0 <= a < 256 -> 0 <= b < 256 -> gf_product a b (gf_mul a b).
Proof.
  intros Ha Hb. set (p := clmul a b). assert (Ep : clmul p 1 = p) by reflexivity.
  assert (B : 0 <= p < 2 ^ (9 + 6)) by (apply (clmul_tight a 7); [lia|exact Ha|exact Hb]).
  unfold gf_product, gf_mul. fold p. cbn [fold_left].
  assert (Q : exists q, 0 <= q /\ clmul p 1 = Z.lxor (clmul gf_poly q) p) by (exists 0; split; [lia|rewrite Ep; reflexivity]).
  destruct (reduce_step p 6 p ltac:(lia) B Q) as (B6 & Q6). set (x6 := if Z.testbit p (8 + 6) then _ else p) in *.
  destruct (reduce_step p 5 x6 ltac:(lia) B6 Q6) as (B5 & Q5). set (x5 := if Z.testbit x6 (8 + 5) then _ else x6) in *.
  destruct (reduce_step p 4 x5 ltac:(lia) B5 Q5) as (B4 & Q4). set (x4 := if Z.testbit x5 (8 + 4) then _ else x5) in *.
  destruct (reduce_step p 3 x4 ltac:(lia) B4 Q4) as (B3 & Q3). set (x3 := if Z.testbit x4 (8 + 3) then _ else x4) in *.
  destruct (reduce_step p 2 x3 ltac:(lia) B3 Q3) as (B2 & Q2). set (x2 := if Z.testbit x3 (8 + 2) then _ else x3) in *.
  destruct (reduce_step p 1 x2 ltac:(lia) B2 Q2) as (B1 & Q1). set (x1 := if Z.testbit x2 (8 + 1) then _ else x2) in *.
  destruct (reduce_step p 0 x1 ltac:(lia) B1 Q1) as (B0 & Q0). split; [exact B0|exact Q0].
Qed.
Lemma gf_mul_byte a b : 0 <= a < 256 -> 0 <= b < 256 -> 0 <= gf_mul a b < 256.
Proof. intros Ha Hb. exact (proj1 (gf_mul_product a b Ha Hb)). Qed.

(** ** The loop of Galois8Mul *)
(** one iteration on (left, right, currValue), as the kernel computes it *)
Definition peasant_step (s : Z * Z * Z) : Z * Z * Z :=
  let '(l, r, c) := s in
  (Z.lxor ((l * 2 ^ 1) mod 2 ^ 8) (if Z.odd (l / 2 ^ 7) then 195 else 0), r / 2 ^ 1, Z.lxor c (if Z.odd r then l else 0)).
Definition peasant (a b : Z) : Z :=
  let '(l, r, c) := Nat.iter 7 peasant_step (a, b, 0) in Z.lxor c (if Z.odd r then l else 0).

Definition peasant_inv (a b : Z) (n : Z) (s : Z * Z * Z) : Prop :=
  let '(l, r, c) := s in 0 <= l < 256 /\ 0 <= r < 2 ^ n /\ 0 <= c < 256 /\
  exists q, 0 <= q /\ clmul a b = Z.lxor (clmul gf_poly q) (Z.lxor c (clmul l r)).
Lemma peasant_left l : 0 <= l < 256 ->
  Z.lxor ((l * 2 ^ 1) mod 2 ^ 8) (if Z.odd (l / 2 ^ 7) then 195 else 0) = Z.lxor (2 * l) (if Z.odd (l / 2 ^ 7) then gf_poly else 0).
Proof.
  intro Hl. change (2 ^ 1) with 2. change (2 ^ 7) with 128. change (2 ^ 8) with 256. assert (D : l / 128 = 0 \/ l / 128 = 1).
  { assert (0 <= l / 128 < 2) by (split; [apply Z.div_pos; lia|apply Z.div_lt_upper_bound; lia]). lia. }
  pose proof (Z.div_mod l 128 ltac:(lia)) as E. pose proof (Z.mod_pos_bound l 128 ltac:(lia)) as M. destruct D as [D|D]; rewrite D in *; cbn [Z.odd].
  - rewrite !Z.lxor_0_r. rewrite Z.mod_small by lia. lia.
  - assert (X : l * 2 = Z.lxor 256 ((l * 2) mod 256)).
    { replace (l * 2 mod 256) with (2 * (l mod 128)); [|apply Z.mod_unique with 1; lia]. rewrite <- Z.add_nocarry_lxor; [lia|].
      apply Z.bits_inj'. intros m Hm. rewrite Z.land_spec, Z.bits_0. change 256 with (2 ^ 8). rewrite Z.pow2_bits_eqb by lia. destruct (Z.eqb_spec 8 m) as [<-|]; [|reflexivity].
      rewrite Z.testbit_odd, Z.shiftr_div_pow2 by lia. change (2 ^ 8) with 256. rewrite Z.div_small by lia. reflexivity. }
    rewrite (Z.mul_comm 2 l). rewrite X at 2. change gf_poly with (Z.lxor 256 195). rewrite (Z.lxor_comm 256 (_ mod _)), Z.lxor_assoc, lxor_cancel. reflexivity.
Qed.
Lemma peasant_step_inv a b n s : 0 <= n -> peasant_inv a b (Z.succ n) s -> peasant_inv a b n (peasant_step s).
Proof.
  intros Hn. destruct s as [[l r] c]. intros (Hl & Hr & Hc & q & Hq & E). unfold peasant_step, peasant_inv. rewrite Z.pow_succ_r in Hr by exact Hn.
  rewrite peasant_left by exact Hl. change (2 ^ 1) with 2. rewrite (clmul_step l r) in E by lia. rewrite <- clmul_dbl_l in E.
  assert (R : 0 <= r / 2 < 2 ^ n) by (split; [apply Z.div_pos; lia|apply Z.div_lt_upper_bound; lia]). repeat apply conj; try lia.
  - rewrite <- peasant_left by exact Hl. apply lxor_pos; [apply Z.mod_pos_bound; lia|destruct (Z.odd (l / 2 ^ 7)); lia].
  - rewrite <- peasant_left by exact Hl. apply (lxor_lt 8); [lia|apply Z.mod_pos_bound; lia|destruct (Z.odd (l / 2 ^ 7)); lia].
  - apply lxor_pos; [lia|destruct (Z.odd r); lia].
  - apply (lxor_lt 8); [lia|exact Hc|destruct (Z.odd r); lia].
  - rewrite <- (Z.lxor_assoc c) in E. set (c' := Z.lxor c (if Z.odd r then l else 0)) in *. clearbody c'. destruct (Z.odd (l / 2 ^ 7)).
    + exists (Z.lxor q (r / 2)). split; [apply lxor_pos; lia|]. rewrite E. rewrite clmul_lxor_r by lia. rewrite clmul_lxor_l. rewrite Z.lxor_assoc. f_equal.
      rewrite (lxor_swap _ c'). f_equal. rewrite (Z.lxor_comm (clmul (2 * l) (r / 2))), lxor_cancel. reflexivity.
    + exists q. split; [exact Hq|]. rewrite Z.lxor_0_r. exact E.
Qed.
Theorem peasant_product a b : 0 <= a < 256 -> 0 <= b < 256 -> gf_product a b (peasant a b).
Proof.
  intros Ha Hb. unfold peasant.
  assert (I : forall m n, 0 <= n -> peasant_inv a b (Z.of_nat m + n) (a, b, 0) -> peasant_inv a b n (Nat.iter m peasant_step (a, b, 0))).
  { induction m as [|m IH]; intros n Hn H; [exact H|]. cbn [Nat.iter nat_rect]. apply peasant_step_inv; [exact Hn|]. apply IH; [lia|]. replace (Z.of_nat m + Z.succ n) with (Z.of_nat (S m) + n) by lia. exact H. }
  specialize (I 7%nat 1 ltac:(lia)). destruct (Nat.iter 7 peasant_step (a, b, 0)) as [[l r] c]. destruct I as (Hl & Hr & Hc & q & Hq & E).
  { change (2 ^ (Z.of_nat 7 + 1)) with 256. repeat apply conj; try lia. exists 0. split; [lia|]. cbn [clmul]. rewrite !Z.lxor_0_l. reflexivity. }
  change (2 ^ 1) with 2 in Hr. split; [apply (lxor_lt 8); [lia|exact Hc|destruct (Z.odd r); lia]|]. exists q. split; [exact Hq|]. rewrite E.
  f_equal. f_equal. assert (H : r = 0 \/ r = 1) by lia. destruct H; subst r; reflexivity.
Qed.
Corollary peasant_gf_mul a b : 0 <= a < 256 -> 0 <= b < 256 -> peasant a b = gf_mul a b.
Proof. intros Ha Hb. exact (gf_product_unique a b _ _ (peasant_product a b Ha Hb) (gf_mul_product a b Ha Hb)). Qed.
