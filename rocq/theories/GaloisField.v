(** * GF(2^8) is a field (proofs). *)
From Coq Require Import ZArith Bool List Lia.
From Verif Require Import CryptoSpec GaloisFacts.
Import ListNotations.
Local Open Scope Z_scope.

Lemma clmul_1_l b : 0 <= b -> clmul 1 b = b.
Proof.
  revert b. apply clmul_ind; [reflexivity|]. intros b Hb IH. rewrite clmul_step by lia. rewrite IH.
  pose proof (Zdiv2_odd_eqn b) as E. rewrite Z.div2_div in E. destruct (Z.odd b) eqn:O; cbn iota in E |- *; [|rewrite Z.lxor_0_l; lia].
  rewrite Z.lxor_comm. rewrite <- Z.add_nocarry_lxor; [lia|]. apply Z.bits_inj'. intros n Hn. rewrite Z.land_spec, Z.bits_0.
  destruct (Z.eq_dec n 0) as [->|Nn]; [rewrite Z.testbit_even_0; reflexivity|]. replace (Z.testbit 1 n) with false; [apply andb_false_r|]. symmetry. apply (Z.bits_above_log2 1 n); [lia|change (Z.log2 1) with 0; lia].
Qed.
Lemma clmul_comm a b : 0 <= a -> 0 <= b -> clmul a b = clmul b a.
Proof.
  intros Ha Hb. revert a Ha. apply clmul_ind; [apply clmul_0_l|]. intros a Ha IH. rewrite (clmul_step b a) by lia. rewrite <- IH. rewrite <- clmul_dbl_l.
  assert (E : a = Z.lxor (if Z.odd a then 1 else 0) (2 * (a / 2))).
  { pose proof (clmul_step 1 a ltac:(lia)) as S. rewrite !clmul_1_l in S by (try apply Z.div_pos; lia). exact S. }
  rewrite E at 1. rewrite clmul_lxor_l. f_equal. destruct (Z.odd a); [apply clmul_1_l; exact Hb|apply clmul_0_l].
Qed.
Lemma clmul_assoc a b c : 0 <= a -> 0 <= b -> 0 <= c -> clmul (clmul a b) c = clmul a (clmul b c).
Proof.
  intros Ha Hb Hc. revert c Hc. apply clmul_ind; [reflexivity|]. intros c Hc IH. rewrite (clmul_step (clmul a b) c), (clmul_step b c) by lia. rewrite IH.
  pose proof (clmul_nonneg b (c / 2) Hb). rewrite clmul_lxor_r; [|destruct (Z.odd c); lia|lia]. rewrite clmul_dbl_r by lia. f_equal. destruct (Z.odd c); reflexivity.
Qed.

(** ** The field *)
Section Field.
Variables a b c : Z.
Hypothesis (Ha : 0 <= a < 256) (Hb : 0 <= b < 256) (Hc : 0 <= c < 256).
Lemma gf_comm : gf_mul a b = gf_mul b a.
Proof.
  apply (gf_product_unique a b); [apply gf_mul_product; assumption|]. destruct (gf_mul_product b a Hb Ha) as (R & q & Hq & E). split; [exact R|]. exists q. split; [exact Hq|]. rewrite clmul_comm by lia. exact E.
Qed.
Lemma gf_assoc : gf_mul (gf_mul a b) c = gf_mul a (gf_mul b c).
Proof.
  pose proof (gf_mul_product a b Ha Hb) as (R1 & q1 & Hq1 & E1). pose proof (gf_mul_product b c Hb Hc) as (R2 & q2 & Hq2 & E2).
  pose proof (gf_mul_product (gf_mul a b) c R1 Hc) as (R3 & q3 & Hq3 & E3). apply (gf_product_unique a (gf_mul b c)); [|apply gf_mul_product; assumption].
  split; [exact R3|]. set (r1 := gf_mul a b) in *. set (r2 := gf_mul b c) in *. set (r3 := gf_mul r1 c) in *. assert (P : 0 <= gf_poly) by (vm_compute; discriminate).
  assert (X1 : r1 = Z.lxor (clmul gf_poly q1) (clmul a b)) by (rewrite E1, lxor_cancel; reflexivity). assert (X2 : r2 = Z.lxor (clmul gf_poly q2) (clmul b c)) by (rewrite E2, lxor_cancel; reflexivity).
  exists (Z.lxor (clmul a q2) (Z.lxor (clmul q1 c) q3)). pose proof (clmul_nonneg a q2 ltac:(lia)). pose proof (clmul_nonneg q1 c Hq1). assert (0 <= Z.lxor (clmul q1 c) q3) by (apply lxor_pos; lia). split; [apply lxor_pos; lia|].
  pose proof (clmul_nonneg gf_poly q2 P). pose proof (clmul_nonneg b c ltac:(lia)).
  rewrite X2, clmul_lxor_r by lia. rewrite <- (clmul_assoc a b c) by lia. assert (Y : clmul (clmul a b) c = Z.lxor (clmul (clmul gf_poly q1) c) (clmul r1 c)) by (rewrite <- clmul_lxor_l; f_equal; exact E1).
  rewrite Y, E3. rewrite !clmul_lxor_r by lia. rewrite (clmul_assoc gf_poly q1 c) by lia.
  assert (Z1 : clmul a (clmul gf_poly q2) = clmul gf_poly (clmul a q2)) by (rewrite <- !clmul_assoc by lia; f_equal; apply clmul_comm; lia).
  rewrite Z1. rewrite !Z.lxor_assoc. reflexivity.
Qed.
Lemma gf_distr : gf_mul a (Z.lxor b c) = Z.lxor (gf_mul a b) (gf_mul a c).
Proof.
  pose proof (gf_mul_product a b Ha Hb) as (R1 & q1 & Hq1 & E1). pose proof (gf_mul_product a c Ha Hc) as (R2 & q2 & Hq2 & E2).
  pose proof (lxor_lt 8 b c ltac:(lia) Hb Hc) as BC. apply (gf_product_unique a (Z.lxor b c)); [apply gf_mul_product; assumption|]. split; [exact (lxor_lt 8 _ _ ltac:(lia) R1 R2)|].
  exists (Z.lxor q1 q2). split; [apply lxor_pos; lia|]. rewrite !clmul_lxor_r by lia. rewrite E1, E2. rewrite !Z.lxor_assoc. f_equal. apply lxor_swap.
Qed.
End Field.
Definition gf_pow254 (a : Z) : Z := (* a^254 by squarings *)
  let s x := gf_mul x x in
  let a2 := s a in let a4 := s a2 in let a8 := s a4 in let a16 := s a8 in let a32 := s a16 in let a64 := s a32 in let a128 := s a64 in
  gf_mul a2 (gf_mul a4 (gf_mul a8 (gf_mul a16 (gf_mul a32 (gf_mul a64 a128))))).
Definition pair_ok (a r : Z) : bool := (gf_mul a r =? 1) && (0 <=? r) && (r <? 256).
Lemma pair_ok_sound a r : pair_ok a r = true -> 0 <= r < 256 /\ gf_mul a r = 1.
Proof. intro X. unfold pair_ok in X. apply andb_prop in X as [X X3]. apply andb_prop in X as [X1 X2]. apply Z.eqb_eq in X1. apply Z.leb_le in X2. apply Z.ltb_lt in X3. auto. Qed.
Definition inverse_ok (f : Z -> Z) (j : nat) : bool := pair_ok (Z.of_nat j) (f (Z.of_nat j)).
Lemma inverses_checked : forallb (inverse_ok gf_pow254) (seq 1 255) = true.
Proof. vm_compute. reflexivity. Qed.
Lemma inverse_nat f j : inverse_ok f j = true -> exists b, 0 <= b < 256 /\ gf_mul (Z.of_nat j) b = 1.
Proof. intro X. exists (f (Z.of_nat j)). exact (pair_ok_sound _ _ X). Qed.
Lemma gf_inverse a : 0 < a < 256 -> exists b, 0 <= b < 256 /\ gf_mul a b = 1.
Proof.
  intro H. pose proof (inverse_nat gf_pow254 (Z.to_nat a) (proj1 (forallb_forall _ _) inverses_checked (Z.to_nat a) ltac:(apply in_seq; lia))) as X. rewrite Z2Nat.id in X by lia. exact X.
Qed.
