(** * The example encoders of Kuznechik, round by round (proofs). *)
From Coq Require Import ZArith Bool String Lia.
From stdpp Require Import gmap list.
From Verif Require Import Types Word Value OpSpec Graph GraphSpec TypesProofs BuilderProofs BuilderProofs2 BuilderTopo GraphFacts StreamSpec Dfcir DfcirBuild
     Verilog Stubs Naming Firrtl Lower RtlSpec KernelSpec KernelValues Instance InstanceSpec InstanceLoop InstanceMain InstanceStep InstanceFlow LifeProofs ProgTyping SliceFacts
     CryptoSpec GaloisFacts KuzFacts Prog ProgFrame ProgRules ProgCalls ProgMux ProgPorts ProgInstance StdKernels ProgLib GaloisKernel KuzKernel KuzCipher ExampleKuz.
Local Open Scope string_scope.
Local Open Scope Z_scope.

(** what the substitution of the examples has computed after [n] bytes: the byte at the top comes first, once more *)
Definition wide_part (n : nat) (x : Z) : Z := nth (Z.to_nat (byte x 0)) permut_fwd 0 * 2 ^ (8 * Z.of_nat n) + sub_part permut_fwd n x.
Lemma wide_S n x : wide_part n x * 2 ^ 8 + nth (Z.to_nat (byte x n)) permut_fwd 0 = wide_part (S n) x.
Proof. unfold wide_part, sub_part. rewrite seq_S, fold_left_app. cbn [fold_left Nat.add]. replace (8 * Z.of_nat (S n)) with (8 * Z.of_nat n + 8) by lia. rewrite Z.pow_add_r by lia. ring. Qed.
#[local] Opaque kuz_lin gf_mul kuz_sub permut_fwd permut_inv kuz_pi.
Lemma byte_low y j : (j <= 15)%nat -> byte y j = byte (y mod 2 ^ 128) j.
Proof.
  intro H. unfold byte. change 256 with (2 ^ 8). set (a := 8 * Z.of_nat (15 - j)). assert (A : 0 <= a <= 120) by lia. apply Z.bits_inj'. intros i Hi. destruct (Z_lt_dec i 8).
  - rewrite !Z.mod_pow2_bits_low by lia. rewrite !Z.div_pow2_bits by lia. rewrite Z.mod_pow2_bits_low by lia. reflexivity.
  - rewrite !Z.mod_pow2_bits_high by lia. reflexivity.
Qed.
Lemma lin_low y : lin_part 16 y = lin_part 16 (y mod 2 ^ 128).
Proof. unfold lin_part. cbn [seq fold_left]. do 16 (rewrite <- byte_low by lia). reflexivity. Qed.
Lemma rest_low y : (y / 2 ^ 8) mod 2 ^ 120 = (y mod 2 ^ 128) / 2 ^ 8.
Proof.
  apply Z.bits_inj'. intros i Hi. rewrite Z.div_pow2_bits by lia. destruct (Z_lt_dec i 120).
  - rewrite !Z.mod_pow2_bits_low by lia. rewrite Z.div_pow2_bits by lia. reflexivity.
  - rewrite !Z.mod_pow2_bits_high by lia. reflexivity.
Qed.
Lemma wide_low x : wide_part 16 x mod 2 ^ 128 = kuz_sub x.
Proof.
  unfold wide_part. change (8 * Z.of_nat 16) with 128. rewrite Z.add_comm, Z.mod_add by (vm_compute; discriminate). replace (sub_part permut_fwd 16 x) with (kuz_sub x) by (symmetry; exact (sub_table false x)). apply Z.mod_small. exact (kuz_sub_block x).
Qed.

#[local] Opaque kuz_lin gf_mul kuz_r kuz_r_inv kuz_l kuz_l_inv kuz_sub kuz_sub_inv kuz_c kuz_f kuz_lsx permut_fwd permut_inv kuz_consts kuz_pi.
Section Example.
Variable F : fltops.
Variable T : bool.
Variable e : env.
Variable opt : bool.

Lemma rule_exS h w k v x : st F T h w -> topk w k -> holds e w k v 128 x ->
  wp F T h w (ex_S k v) (fun w' s => fr T w w' /\ holds e w' k s 136 (fun i => wide_part 16 (x i))).
Proof.
  intros S TK HV. unfold ex_S. pose proof (permut_byte false) as BT.
  seqr (rule_byte F T e h w k v 128 x 0 S HV ltac:(lia) ltac:(lia)). intros h1 w1 b S1 (F1 & HB). ck F1.
  seqr (rule_permut F T e h1 w1 k b _ false S1 TK HB BT). intros h2 w2 s S2 (F2 & HS). ck F2.
  eapply wp_conseq; [apply (rule_fold F T _ (fun r w' s => (length r <= 16)%nat /\ r = seq (16 - length r) (length r) /\ fr T w2 w' /\ holds e w' k s (8 + 8 * Z.of_nat (16 - length r)) (fun i => wide_part (16 - length r) (x i)))); [|exact S2|]|].
  - intros j r h' w' s' S' (LE & ER & F' & H'). cbn [length] in *. assert (Ej : j = (16 - Datatypes.S (length r))%nat) by (cbn [seq] in ER; injection ER; auto). assert (Er : r = seq (Datatypes.S (16 - Datatypes.S (length r))) (length r)) by (cbn [seq] in ER; injection ER; auto).
    pose proof (topk_frame _ _ _ (f_frame _ _ _ F') TK) as TK'. pose proof (holds_gr _ _ _ _ _ _ _ _ (f_gr _ _ _ F') HV) as HV'.
    seqr (rule_byte F T e h' w' k v 128 x j S' HV' ltac:(lia) ltac:(lia)). intros h3 w3 b' S3 (F3 & HB'). ck F3.
    seqr (rule_permut F T e h3 w3 k b' _ false S3 TK' HB' BT). intros h4 w4 t S4 (F4 & HT). ck F4.
    eapply wp_conseq; [apply (rule_cat F e T h4 w4 k s' t _ _ 8 _ S4 H' (proj1 HT)); lia|]. cbn beta. intros w5 s5 (F5 & H5).
    replace (16 - length r)%nat with (Datatypes.S (16 - Datatypes.S (length r))) by lia. split; [lia|]. split; [exact Er|]. split; [exact (fr_trans _ _ _ _ F' (fr_trans _ _ _ _ F3 (fr_trans _ _ _ _ F4 F5)))|].
    replace (8 + 8 * Z.of_nat (Datatypes.S (16 - Datatypes.S (length r)))) with (8 + 8 * Z.of_nat (16 - Datatypes.S (length r)) + 8) by lia. eapply holds_ext; [|exact H5]. intros i _. cbn beta. rewrite <- wide_S. rewrite <- Ej. reflexivity.
  - rewrite seq_length. split; [lia|]. split; [reflexivity|]. split; [apply fr_refl|]. eapply holds_ext; [|exact HS]. intros i _. unfold wide_part, sub_part. cbn [seq fold_left Nat.sub]. change (2 ^ (8 * Z.of_nat 0)) with 1. rewrite Z.mul_1_r, Z.add_0_r. reflexivity.
  - cbn beta. intros w' s' (_ & _ & F' & H'). split; [exact (fr_trans _ _ _ _ F1 (fr_trans _ _ _ _ F2 F'))|exact H'].
Qed.
(** the first step of [L] reads the low 128 bits *)
Lemma rule_exR h w k v x : st F T h w -> topk w k -> holds e w k v 136 x ->
  wp F T h w (kuz_R opt k v false) (fun w' s => fr T w w' /\ holds e w' k s 128 (fun i => kuz_r (x i mod 2 ^ 128))).
Proof.
  intros S TK H. unfold kuz_R. seqr (rule_lin F T e opt h w k v 136 x S TK H ltac:(lia)). intros h1 w1 l S1 (F1 & H1). ck F1.
  seqr (rule_bits F e T h1 w1 k v 136 x 127 8 120 S1 H ltac:(lia) ltac:(lia) eq_refl). intros h2 w2 rs S2 (F2 & H2). ck F2.
  eapply wp_conseq; [exact (rule_cat F e T h2 w2 k l rs 8 _ 120 _ S2 H1 (proj1 H2) ltac:(lia))|]. cbn beta. intros w3 s (F3 & H3). change (8 + 120) with 128 in H3.
  split; [exact (fr_trans _ _ _ _ F1 (fr_trans _ _ _ _ F2 F3))|]. eapply holds_ext; [|exact H3]. intros i Hi. cbn beta. assert (B : block (x i mod 2 ^ 128)) by (unfold block; apply Z.mod_pos_bound; reflexivity).
  rewrite (kuz_r_value _ B), <- lin_full, <- lin_low, rest_low. reflexivity.
Qed.
Lemma rule_exL h w k v x : st F T h w -> topk w k -> holds e w k v 136 x ->
  wp F T h w (kuz_L opt k v false) (fun w' s => fr T w w' /\ holds e w' k s 128 (fun i => kuz_l (x i mod 2 ^ 128))).
Proof.
  intros S TK H. unfold kuz_L. change (seq 0 16) with (0%nat :: seq 1 15). cbn [pfold].
  seqr (rule_exR h w k v x S TK H). intros h1 w1 a S1 (F1 & H1). ck F1.
  eapply wp_conseq; [apply (rule_fold F T _ (fun (r : list nat) w' s => (length r <= 15)%nat /\ fr T w1 w' /\ holds e w' k s 128 (fun i => Nat.iter (16 - length r) (dir_r false) (x i mod 2 ^ 128)))); [|exact S1|]|].
  - intros j r h' w' s' S' (LE & F' & H'). cbn [length] in *. pose proof (topk_frame _ _ _ (f_frame _ _ _ F') TK) as TK'.
    eapply wp_conseq; [exact (rule_R F T e opt h' w' k s' _ false S' TK' H')|]. cbn beta. intros w2 s2 (F2 & H2). split; [lia|]. split; [exact (fr_trans _ _ _ _ F' F2)|]. eapply holds_ext; [|exact H2]. intros i _. cbn beta.
    replace (16 - length r)%nat with (Datatypes.S (16 - Datatypes.S (length r))) by lia. reflexivity.
  - rewrite seq_length. split; [lia|]. split; [apply fr_refl|exact H1].
  - cbn beta. intros w' s' (_ & F' & H'). split; [exact (fr_trans _ _ _ _ F1 F')|]. eapply holds_ext; [|exact H']. intros i _. exact (eq_sym (dir_l_iter false (x i mod 2 ^ 128))).
Qed.
Lemma rule_exXSL h w k key v kx x : st F T h w -> topk w k -> holds e w k key 128 kx -> holds e w k v 128 x ->
  wp F T h w (ex_XSL opt k key v) (fun w' s => fr T w w' /\ holds e w' k s 128 (fun i => kuz_lsx (kx i) (x i))).
Proof.
  intros S TK HK HV. unfold ex_XSL. seqr (rule_xor F e T h w k key v 128 kx x S (proj1 HK) (proj1 HV) (or_introl HK)). intros h1 w1 a S1 (F1 & H1 & _). ck F1.
  seqr (rule_exS h1 w1 k a _ S1 TK H1). intros h2 w2 b S2 (F2 & H2). ck F2.
  eapply wp_conseq; [exact (rule_exL h2 w2 k b _ S2 TK H2)|]. cbn beta. intros w3 s (F3 & H3). split; [exact (fr_trans _ _ _ _ F1 (fr_trans _ _ _ _ F2 F3))|]. eapply holds_ext; [|exact H3]. intros i Hi. cbn beta. rewrite kuz_lsx_eq.
  rewrite wide_low. reflexivity.
Qed.
Lemma rule_exF h w k c a0 a1 (cx : Z) x0 x1 : st F T h w -> topk w k -> holds e w k c 128 (fun _ => cx) -> holds e w k a0 128 x0 -> holds e w k a1 128 x1 ->
  wp F T h w (ex_F opt k c (a0, a1)) (fun w' s => fr T w w' /\ holds e w' k (fst s) 128 (fun i => fst (kuz_f cx (x0 i, x1 i))) /\ holds e w' k (snd s) 128 (fun i => snd (kuz_f cx (x0 i, x1 i)))).
Proof.
  intros S TK HC H0 H1. unfold ex_F. cbn [fst snd]. seqr (rule_exXSL h w k c a0 _ x0 S TK HC H0). intros h1 w1 a S1 (F1 & HA). ck F1.
  seqr (rule_xor F e T h1 w1 k a a1 128 _ x1 S1 (proj1 HA) (proj1 H1) (or_introl HA)). intros h2 w2 b S2 (F2 & HB & _). ck F2. apply wp_ret; [exact S2|]. cbn [fst snd].
  split; [exact (fr_trans _ _ _ _ F1 F2)|]. split; [eapply holds_ext; [|exact HB]|eapply holds_ext; [|exact H0]]; intros i _; cbn beta; rewrite kuz_f_eq; cbn [fst snd]; reflexivity.
Qed.
Lemma rule_exinner h w k m consts a0 a1 (x : Z -> Z * Z) : st F T h w -> topk w k -> words e w k consts kuz_consts -> (m < 4)%nat -> holds e w k a0 128 (fun i => fst (x i)) -> holds e w k a1 128 (fun i => snd (x i)) ->
  wp F T h w (pfold (fun c j => ex_F opt k (nth (8 * m + j) consts 0%nat) c) (a0, a1) (seq 0 8))
    (fun w' s => fr T w w' /\ holds e w' k (fst s) 128 (fun i => fst (inner m 8 (x i))) /\ holds e w' k (snd s) 128 (fun i => snd (inner m 8 (x i)))).
Proof.
  intros S TK CS Hm H0 H1. eapply wp_conseq; [apply (rule_fold F T _ (fun (r : list nat) w' s => (length r <= 8)%nat /\ r = seq (8 - length r) (length r) /\ fr T w w' /\ holds e w' k (fst s) 128 (fun i => fst (inner m (8 - length r) (x i))) /\ holds e w' k (snd s) 128 (fun i => snd (inner m (8 - length r) (x i))))); [|exact S|]|].
  - intros j r h' w' [c0 c1] S' (LE & ER & F' & G0 & G1). cbn [fst snd length seq] in *. assert (Ej : j = (8 - Datatypes.S (length r))%nat) by (injection ER; auto). assert (Er : r = seq (Datatypes.S (8 - Datatypes.S (length r))) (length r)) by (injection ER; auto).
    pose proof (topk_frame _ _ _ (f_frame _ _ _ F') TK) as TK'. pose proof (words_gr _ _ _ _ _ _ _ (f_gr _ _ _ F') CS) as CS'.
    assert (JL : (8 * m + j < 32)%nat) by lia. pose proof (words_nth _ _ _ _ _ (8 * m + j) CS' ltac:(rewrite consts_length; exact JL)) as HC. destruct (const_word _ JL) as (_ & _ & EC). cbn zeta in EC. rewrite EC in HC.
    eapply wp_conseq; [exact (rule_exF h' w' k _ c0 c1 _ _ _ S' TK' HC G0 G1)|]. cbn beta. intros w2 s2 (F2 & K0 & K1).
    replace (8 - length r)%nat with (Datatypes.S (8 - Datatypes.S (length r))) by lia. split; [lia|]. split; [exact Er|]. split; [exact (fr_trans _ _ _ _ F' F2)|].
    assert (E : forall i, inner m (Datatypes.S (8 - Datatypes.S (length r))) (x i) = kuz_f (kuz_c (Z.of_nat (Datatypes.S (8 * m + j)))) (fst (inner m (8 - Datatypes.S (length r)) (x i)), snd (inner m (8 - Datatypes.S (length r)) (x i)))).
    { intro i. rewrite inner_S, <- surjective_pairing. replace (8 * Z.of_nat m + Z.of_nat (Datatypes.S (8 - Datatypes.S (length r)))) with (Z.of_nat (Datatypes.S (8 * m + j))) by lia. reflexivity. }
    split; [eapply holds_ext; [|exact K0]|eapply holds_ext; [|exact K1]]; intros i _; cbn beta; rewrite E; reflexivity.
  - rewrite seq_length. split; [lia|]. split; [reflexivity|]. split; [apply fr_refl|]. split; assumption.
  - cbn beta. intros w' s' (_ & _ & F' & G0 & G1). cbn [length Nat.sub] in G0, G1. split; [exact F'|]. split; [exact G0|exact G1].
Qed.
Lemma rule_exgenKeys h w k k0 k1 key : st F T h w -> topk w k -> holds e w k k0 128 (fun i => fst (key_pair 0 (key i))) -> holds e w k k1 128 (fun i => snd (key_pair 0 (key i))) ->
  wp F T h w (ex_genKeys opt k k0 k1) (fun w' keys => fr T w w' /\ round_keys e w' k 5 keys key).
Proof.
  intros S TK H0 H1. unfold ex_genKeys. seqr (rule_getConsts F T e h w k S TK). intros h1 w1 cs S1 (F1 & CS). ck F1.
  eapply wp_conseq; [apply (rule_fold F T _ (fun (r : list nat) w' keys => (length r <= 4)%nat /\ r = seq (4 - length r) (length r) /\ fr T w1 w' /\ round_keys e w' k (5 - length r) keys key)); [|exact S1|]|].
  - intros m r h' w' keys S' (LE & ER & F' & LK & RK). cbn [length seq] in *. assert (Em : m = (4 - Datatypes.S (length r))%nat) by (injection ER; auto). assert (Er : r = seq (Datatypes.S (4 - Datatypes.S (length r))) (length r)) by (injection ER; auto).
    pose proof (topk_frame _ _ _ (f_frame _ _ _ F') TK) as TK'. pose proof (words_gr _ _ _ _ _ _ _ (f_gr _ _ _ F') CS) as CS'. destruct (RK m ltac:(lia)) as [G0 G1].
    seqr (rule_exinner h' w' k m cs _ _ (fun i => key_pair m (key i)) S' TK' CS' ltac:(lia) G0 G1). intros h2 w2 [c0 c1] S2 (F2 & K0 & K1). cbn [fst snd] in *. apply wp_ret; [exact S2|].
    split; [lia|]. split; [replace (4 - length r)%nat with (Datatypes.S (4 - Datatypes.S (length r))) by lia; exact Er|]. split; [exact (fr_trans _ _ _ _ F' F2)|]. split; [rewrite app_length; cbn [length]; lia|].
    intros j Hj. destruct (decide (j = Datatypes.S m)) as [-> | Nj].
    + replace (2 * Datatypes.S m)%nat with (length keys) by lia. rewrite !app_nth2 by lia. replace (length keys - length keys)%nat with 0%nat by lia. replace (length keys + 1 - length keys)%nat with 1%nat by lia. cbn [nth].
      split; [eapply holds_ext; [|exact K0]|eapply holds_ext; [|exact K1]]; intros i _; cbn beta; rewrite inner_all; reflexivity.
    + rewrite !app_nth1 by lia. destruct (RK j ltac:(lia)) as [A B]. split; [exact (holds_gr _ _ _ _ _ _ _ _ (f_gr _ _ _ F2) A)|exact (holds_gr _ _ _ _ _ _ _ _ (f_gr _ _ _ F2) B)].
  - rewrite seq_length. split; [lia|]. split; [reflexivity|]. split; [apply fr_refl|]. split; [reflexivity|]. intros j Hj. assert (j = 0%nat) by lia. subst j. split; [exact H0|exact H1].
  - cbn beta. intros w' keys (_ & _ & F' & RK). split; [exact (fr_trans _ _ _ _ F1 F')|exact RK].
Qed.
Lemma rule_excipher (from to : string) (core : list nat -> nat -> (nat -> prog nat) -> prog nat) (g : Z -> Z -> Z) h w k key x : st F T h w -> topk w k -> names w k = [] -> carries e "key" 256 key -> carries e from 128 x ->
  from <> EmptyString /\ from <> "left" -> to <> EmptyString -> from <> "key" -> to <> from -> to <> "key" ->
  (forall h w keys v K Q, st F T h w -> topk w k -> round_keys e w k 5 keys key -> holds e w k v 128 x ->
     (forall h' w' s, st F T h' w' -> fr T w w' -> holds e w' k s 128 (fun i => g (key i) (x i)) -> wp F T h' w' (K s) Q) -> wp F T h w (core keys v K) Q) ->
  wp F T h w (do ioType <- dfUInt 128; do block <- io_input k from ioType; do keyType <- dfUInt 256; do key <- io_input k "key" keyType; do k0 <- bits key 255 128; do k1 <- bits key 127 0;
                  do gKeys <- ex_genKeys opt k k0 k1; core gKeys block (fun v => do out <- io_output k to ioType; do _ <- call (CConnect out v); Ret out))
    (fun w2 r => exists ports d, child T e w w2 k [from; "key"] [128; 256] ports to r d 128 (fun i => g (key i) (x i))).
Proof.
  intros S TK NW (fk & EK) (fx & EX) Nf Nt Nfk Ntf Ntk CORE. pose proof (proj1 (proj2 TK)) as KW.
  seqr (rule_dfUInt F T h w 128 S ltac:(lia)). intros h1 w1 ty S1 (F1 & Ht). ck F1. pose proof (f_names _ _ _ F1 k) as N1. rewrite NW in N1.
  seqr (rule_input F e T h1 w1 k from ty 128 x fx S1 Ht ltac:(lia) KW Nf EX). intros h2 w2 bl S2 (X2 & Fr2 & HB & IB & TB & N2 & N2'). carry (x_gr _ _ _ _ X2) (x_frame _ _ _ _ X2). apply (topk_frame _ _ _ (x_frame _ _ _ _ X2)) in TK. rewrite N1 in N2.
  seqr (rule_dfUInt F T h2 w2 256 S2 ltac:(lia)). intros h3 w3 kty S3 (F3 & Hk). ck F3. pose proof (f_names _ _ _ F3) as N3.
  seqr (rule_input F e T h3 w3 k "key" kty 256 key fk S3 Hk ltac:(lia) KW ltac:(split; discriminate) EK). intros h4 w4 ky S4 (X4 & Fr4 & HK & IK & TKy & N4 & N4'). carry (x_gr _ _ _ _ X4) (x_frame _ _ _ _ X4). apply (topk_frame _ _ _ (x_frame _ _ _ _ X4)) in TK. rewrite N3, N2 in N4.
  seqr (rule_bits F e T h4 w4 k ky 256 key 255 128 128 S4 HK ltac:(lia) ltac:(lia) eq_refl). intros h5 w5 k0 S5 (F5 & H0). ck F5.
  seqr (rule_bits F e T h5 w5 k ky 256 key 127 0 128 S5 HK ltac:(lia) ltac:(lia) eq_refl). intros h6 w6 k1 S6 (F6 & H1). ck F6.
  assert (H0' : holds e w6 k k0 128 (fun i => fst (key_pair 0 (key i)))).
  { eapply holds_ext; [|exact H0]. intros i Hi. cbn [key_pair fst]. apply Z.mod_small. pose proof (holds_range _ _ _ _ _ _ i HK Hi) as R. split; [apply Z.div_pos; lia|apply Z.div_lt_upper_bound; [lia|]]. replace (2 ^ 128 * 2 ^ 128) with (2 ^ 256) by reflexivity. lia. }
  assert (H1' : holds e w6 k k1 128 (fun i => snd (key_pair 0 (key i)))) by (eapply holds_ext; [|exact H1]; intros i Hi; cbn [key_pair snd]; change (2 ^ 0) with 1; rewrite Z.div_1_r; reflexivity).
  seqr (rule_exgenKeys h6 w6 k k0 k1 key S6 TK H0' H1'). intros h7 w7 keys S7 (F7 & RK). ck F7.
  apply (CORE h7 w7 keys bl _ _ S7 TK RK HB). intros h8 w8 d S8 F8 HD. ck F8.
  pose proof (fr_trans _ _ _ _ F5 (fr_trans _ _ _ _ F6 (fr_trans _ _ _ _ F7 F8))) as F58.
  seqr (rule_output F T h8 w8 k to ty 128 S8 Ht ltac:(lia) KW Nt). intros h9 w9 out S9 (X9 & Fr9 & OO & TO & _ & N9 & N9'). carry (x_gr _ _ _ _ X9) (x_frame _ _ _ _ X9).
  seqr (rule_connect F e T h9 w9 k out d 128 _ (TFixed false 128 0) S9 OO HD TO ltac:(intros _; split; [reflexivity|vm_compute; discriminate])). intros h10 w10 zz S10 (X10 & O10 & D10 & R10 & W10 & N10). carry (x_gr _ _ _ _ X10) (x_frame _ _ _ _ X10).
  apply wp_ret; [exact S10|]. exists [bl; ky], d.
  pose proof (ext_trans _ _ _ _ _ _ (fr_ext _ _ _ F1) X2) as Y2. pose proof (ext_trans _ _ _ _ _ _ Y2 (fr_ext _ _ _ F3)) as Y3. pose proof (ext_trans _ _ _ _ _ _ Y3 X4) as Y4. pose proof (ext_trans _ _ _ _ _ _ Y4 (fr_ext _ _ _ F58)) as Y8. pose proof (ext_trans _ _ _ _ _ _ Y8 X9) as Y9. pose proof (ext_trans _ _ _ _ _ _ Y9 X10) as Y10. cbn [app] in Y2, Y3, Y4, Y8, Y9, Y10.
  pose proof (f_names _ _ _ F58) as N58. constructor; auto.
  - apply (ext_same _ _ _ _ _ Y10). intro n. rewrite !elem_of_cons. tauto.
  - intros n Hn. rewrite !elem_of_cons in Hn. destruct Hn as [->|[->|[->|Hn]]]; [exact (old_free _ _ _ _ (x_gr _ _ _ _ Y8) Fr9)|exact (old_free _ _ _ _ (f_gr _ _ _ F1) Fr2)|exact (old_free _ _ _ _ (x_gr _ _ _ _ Y3) Fr4)|inversion Hn].
  - intros j Nj. rewrite N10, N9', N58, N4', N3, N2', (f_names _ _ _ F1) by exact Nj. reflexivity.
  - assert (NE : forall a b : string, a <> b -> String.eqb a b = false) by (intros a b Hab; apply String.eqb_neq, Hab).
    constructor; [|constructor; [|constructor]]; (split; [unfold port; rewrite N10, N9, N58, N4; unfold name_lookup; cbn [List.find fst snd]|assumption]).
    + rewrite (NE to from Ntf), (NE "key" from (not_eq_sym Nfk)), String.eqb_refl. reflexivity.
    + rewrite (NE to "key" Ntk), String.eqb_refl. reflexivity.
  - unfold port. rewrite N10, N9. unfold name_lookup. cbn [List.find fst snd]. rewrite String.eqb_refl. reflexivity.
Qed.
#[local] Opaque kuz_keys kuz_encrypt kuz_decrypt.
Lemma rule_exencoder h w k key x : st F T h w -> topk w k -> names w k = [] -> carries e "key" 256 key -> carries e "block" 128 x ->
  wp F T h w (ExampleEncoder opt k) (fun w2 r => exists ports d, child T e w w2 k ["block"; "key"] [128; 256] ports "encoded" r d 128 (fun i => kuz_encrypt (key i) (x i))).
Proof.
  intros S TK NW EK EX. unfold ExampleEncoder.
  apply (rule_excipher "block" "encoded" (fun keys v K => do currValue <- pfold (fun v i => ex_XSL opt k (nth i keys 0%nat) v) v (seq 0 9); do currValue <- xor currValue (nth 9 keys 0%nat); K currValue) kuz_encrypt h w k key x S TK NW EK EX); try discriminate; [split; discriminate|].
  intros h0 w0 keys v K Q S0 TK0 RK HV HQ.
  eapply rule_bind; [apply (rule_rounds F T e (fun v i => ex_XSL opt k (nth i keys 0%nat) v) (fun j kx x => kuz_lsx (nth j (kuz_keys kx) 0) x) k (fun j => (j < 10)%nat) (fun w => topk w k /\ round_keys e w k 5 keys key) key); [| | |exact S0|exact (conj TK0 RK)|exact HV]|].
  - intros wa wb FR [A B]. split; [exact (topk_frame _ _ _ (f_frame _ _ _ FR) A)|exact (round_keys_gr _ _ _ _ _ _ _ _ (f_gr _ _ _ FR) B)].
  - intros j h' w' v' x' Hj S' [A B] H'. exact (rule_exXSL h' w' k _ v' _ x' S' A (round_key_nth _ _ _ _ _ j B Hj) H').
  - apply Forall_forall. intros j Hj. apply elem_of_seq in Hj. lia.
  - cbn beta. intros h1 w1 s S1 (F1 & H1). pose proof (round_keys_gr _ _ _ _ _ _ _ _ (f_gr _ _ _ F1) RK) as RK1. pose proof (round_key_nth _ _ _ _ _ 9 RK1 ltac:(lia)) as K9.
    seqr (rule_xor F e T h1 w1 k s _ 128 _ _ S1 (proj1 H1) (proj1 K9) (or_introl H1)). intros h2 w2 s2 S2 (F2 & H2 & _). apply (HQ h2 w2 s2 S2 (fr_trans _ _ _ _ F1 F2)). eapply holds_ext; [|exact H2]. intros i _. cbn beta. exact (eq_sym (encrypt_rounds (key i) (x i))).
Qed.
End Example.
