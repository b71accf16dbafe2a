(** Ranges of the word operations. *)
From Coq Require Import ZArith Bool Lia.
From Verif Require Import Types Word Value SimSpec.
Local Open Scope Z_scope.

Definition W (z : Z) : Prop := 0 <= z < 2 ^ 64.
Lemma two64_eq : two64 = 2 ^ 64. Proof. reflexivity. Qed.
Lemma two63_eq : two63 = 2 ^ 63. Proof. reflexivity. Qed.

Lemma w64_W z : W (w64 z).
Proof. unfold w64, W. rewrite two64_eq. apply Z.mod_pos_bound. lia. Qed.
Lemma b2z_W b : W (b2z b).
Proof. destruct b; unfold W, b2z; lia. Qed.
Lemma W_bits z : W z <-> 0 <= z /\ (z = 0 \/ Z.log2 z < 64).
Proof.
  unfold W. split.
  - intros [A B]. split; [auto|]. destruct (Z.eq_dec z 0); [auto|right]. apply Z.log2_lt_pow2; lia.
  - intros [A [->|B]]; [lia|]. split; [auto|]. destruct (Z.eq_dec z 0) as [->|]; [lia|].
    apply Z.log2_lt_pow2; lia.
Qed.
Lemma land_W a b : W a -> W b -> W (Z.land a b).
Proof.
  rewrite !W_bits. intros [A1 A2] [B1 B2]. split; [apply Z.land_nonneg; auto|].
  destruct (Z.eq_dec (Z.land a b) 0); [auto|right]. pose proof (Z.log2_land a b A1 B1).
  destruct A2 as [->|]; [rewrite Z.land_0_l in n; congruence|lia].
Qed.
Lemma lor_W a b : W a -> W b -> W (Z.lor a b).
Proof.
  rewrite !W_bits. intros [A1 A2] [B1 B2]. split; [apply Z.lor_nonneg; auto|].
  destruct (Z.eq_dec (Z.lor a b) 0); [auto|right]. rewrite (Z.log2_lor a b A1 B1).
  destruct A2 as [->|], B2 as [->|]; cbn; try lia.
  all: try pose proof (Z.log2_nonneg a); try pose proof (Z.log2_nonneg b); lia.
Qed.
Lemma lxor_W a b : W a -> W b -> W (Z.lxor a b).
Proof.
  rewrite !W_bits. intros [A1 A2] [B1 B2]. split; [apply Z.lxor_nonneg; tauto|].
  destruct (Z.eq_dec (Z.lxor a b) 0); [auto|right]. pose proof (Z.log2_lxor a b A1 B1).
  destruct A2 as [->|], B2 as [->|]; cbn in *; try lia.
  all: try pose proof (Z.log2_nonneg a); try pose proof (Z.log2_nonneg b); lia.
Qed.
Lemma div_W a b : W a -> 0 < b -> W (a / b).
Proof.
  unfold W. intros H Hb. split; [apply Z.div_pos; lia|].
  apply Z.div_lt_upper_bound; [lia|]. nia.
Qed.

Section F.
Variable F : fltops.
Hypothesis HF : flt_words F.

Lemma c_bin_W k o a b x : W a -> W b -> c_bin F k o a b = CV x -> W x.
Proof.
  intros Ha Hb. destruct k; cbn [c_bin].
  - unfold c_int. destruct o; try (intros E; injection E as <-; auto using land_W, lor_W, lxor_W, b2z_W; fail).
    + destruct (fits_s64 _); [|discriminate]. intros E; injection E as <-. apply w64_W.
    + destruct (fits_s64 _); [|discriminate]. intros E; injection E as <-. apply w64_W.
    + destruct (fits_s64 _); [|discriminate]. intros E; injection E as <-. apply w64_W.
    + destruct (_ =? 0); [discriminate|]. destruct (fits_s64 _); [|discriminate]. intros E; injection E as <-. apply w64_W.
  - unfold c_uint. destruct o; try (intros E; injection E as <-; auto using land_W, lor_W, lxor_W, b2z_W, w64_W; fail).
    destruct (Z.eqb_spec b 0); [discriminate|]. intros E; injection E as <-. apply div_W; [auto|]. unfold W in Hb. lia.
  - intros E; injection E as <-. apply HF.
Qed.
Lemma c_uint_W o a b x : W a -> W b -> c_uint o a b = CV x -> W x.
Proof. apply (c_bin_W CUInt). Qed.
Lemma c_neg_W k a x : c_neg F k a = CV x -> W x.
Proof.
  destruct k; cbn [c_neg].
  - destruct (fits_s64 _); [|discriminate]. intros E; injection E as <-. apply w64_W.
  - intros E; injection E as <-. apply w64_W.
  - intros E; injection E as <-. apply HF.
Qed.
Lemma c_not_W a x : W a -> c_not a = CV x -> W x.
Proof. unfold c_not, W. rewrite two64_eq. intros H E. injection E as <-. lia. Qed.
Lemma c_shl_W a n x : c_shl a n = CV x -> W x.
Proof. unfold c_shl. destruct (_ <? _); [|discriminate]. intros E; injection E as <-. apply w64_W. Qed.
Lemma c_shr_W a n x : W a -> 0 <= n -> c_shr a n = CV x -> W x.
Proof.
  unfold c_shr. intros Ha Hn. destruct (_ <? _); [|discriminate]. intros E; injection E as <-.
  apply div_W; [auto|]. apply Z.pow_pos_nonneg; lia.
Qed.
Lemma sim_bin_W o t a b x : W a -> W b -> sim_bin F o t a b = Some (CV x) -> W x.
Proof.
  intros Ha Hb. unfold sim_bin. destruct (is_bitwise o).
  - intros E; injection E as E. exact (c_uint_W _ _ _ _ Ha Hb E).
  - destruct (sim_ctype t); [|discriminate]. intros E; injection E as E. exact (c_bin_W _ _ _ _ _ Ha Hb E).
Qed.
Lemma sim_un_W u t a x : W a -> sim_un F u t a = Some (CV x) -> W x.
Proof.
  intros Ha. unfold sim_un. destruct u.
  - intros E; injection E as E. subst x. unfold W in *. rewrite two64_eq. lia.
  - destruct (sim_ctype t); [|discriminate]. intros E; injection E as E. eapply c_neg_W; eauto.
Qed.
Lemma fold_bin_W o t a b x : W a -> W b -> fold_bin F o t a b = CV x -> W x.
Proof.
  intros Ha Hb. unfold fold_bin. destruct (is_bitwise o); [apply c_uint_W; auto|].
  destruct (kind_by_type t); apply c_bin_W; auto.
Qed.
Lemma fold_un_W u t a x : W a -> fold_un F u t a = CV x -> W x.
Proof. intros Ha. destruct u; cbn [fold_un]; [apply c_not_W; auto|apply c_neg_W]. Qed.
End F.
