(** * Words, bytes, and the transformations of Kuznechik (proofs). *)
From Coq Require Import ZArith Bool List Lia.
From Verif Require Import CryptoSpec GaloisFacts.
Import ListNotations.
Local Open Scope Z_scope.

Definition is_byte (b : Z) : Prop := 0 <= b < 256.
Lemma word_snoc l b : word_of (l ++ [b]) = 256 * word_of l + b.
Proof. unfold word_of. rewrite fold_left_app. reflexivity. Qed.
Lemma pow8_succ n : 2 ^ (8 * Z.of_nat (S n)) = 256 * 2 ^ (8 * Z.of_nat n).
Proof. replace (8 * Z.of_nat (S n)) with (8 + 8 * Z.of_nat n) by lia. rewrite Z.pow_add_r by lia. reflexivity. Qed.
Lemma pow8_pos n : 0 < 2 ^ (8 * Z.of_nat n).
Proof. apply Z.pow_pos_nonneg; lia. Qed.
Lemma word_cons a l : word_of (a :: l) = a * 2 ^ (8 * Z.of_nat (length l)) + word_of l.
Proof.
  induction l as [|b l IH] using rev_ind; [unfold word_of; cbn; lia|]. change (a :: l ++ [b]) with ((a :: l) ++ [b]). rewrite !word_snoc, IH, app_length. cbn [length]. rewrite Nat.add_1_r, pow8_succ. ring.
Qed.
Lemma word_range l : Forall is_byte l -> 0 <= word_of l < 2 ^ (8 * Z.of_nat (length l)).
Proof.
  induction l as [|b l IH] using rev_ind; intro H; [cbn; lia|]. apply Forall_app in H as [H1 H2]. inversion H2 as [|? ? H3 _]; subst. unfold is_byte in H3. specialize (IH H1). rewrite word_snoc, app_length. cbn [length]. rewrite Nat.add_1_r, pow8_succ. lia.
Qed.
Lemma bytes_length n x : length (bytes n x) = n.
Proof. unfold bytes. rewrite map_length, seq_length. reflexivity. Qed.
Lemma bytes_byte n x : Forall is_byte (bytes n x).
Proof. apply Forall_forall. intros b H. unfold bytes in H. apply in_map_iff in H as (j & <- & _). apply Z.mod_pos_bound. lia. Qed.
Lemma bytes_snoc n x : bytes (S n) x = bytes n (x / 256) ++ [x mod 256].
Proof.
  unfold bytes. rewrite seq_S, map_app. cbn [map Nat.add]. f_equal.
  - apply map_ext_in. intros j Hj. apply in_seq in Hj. rewrite Z.div_div by (try apply pow8_pos; lia). rewrite <- pow8_succ. replace (S n - 1 - j)%nat with (S (n - 1 - j)) by lia. reflexivity.
  - replace (S n - 1 - n)%nat with 0%nat by lia. cbn. rewrite Z.div_1_r. reflexivity.
Qed.
Lemma word_bytes n : forall x, word_of (bytes n x) = x mod 2 ^ (8 * Z.of_nat n).
Proof.
  induction n as [|n IH]; intro x; [cbn; rewrite Z.mod_1_r; reflexivity|]. rewrite bytes_snoc, word_snoc, IH, pow8_succ. rewrite Z.rem_mul_r by (try apply pow8_pos; lia). lia.
Qed.
Lemma bytes_word l : Forall is_byte l -> bytes (length l) (word_of l) = l.
Proof.
  induction l as [|b l IH] using rev_ind; intro H; [reflexivity|]. apply Forall_app in H as [H1 H2]. inversion H2 as [|? ? H3 _]; subst. unfold is_byte in H3. rewrite app_length, Nat.add_1_r, bytes_snoc, word_snoc.
  replace ((256 * word_of l + b) / 256) with (word_of l) by (apply Z.div_unique with b; lia). replace ((256 * word_of l + b) mod 256) with b by (apply Z.mod_unique with (word_of l); lia). rewrite (IH H1). reflexivity.
Qed.
Lemma bytes_mod n m x : (n <= m)%nat -> bytes n (x mod 2 ^ (8 * Z.of_nat m)) = bytes n x.
Proof.
  intro L. rewrite <- (bytes_word (bytes n (x mod _)) (bytes_byte _ _)), <- (bytes_word (bytes n x) (bytes_byte _ _)), !bytes_length, !word_bytes. f_equal.
  symmetry. apply Znumtheory.Zmod_div_mod; [apply pow8_pos|apply pow8_pos|]. exists (2 ^ (8 * Z.of_nat (m - n))). rewrite <- Z.pow_add_r by lia. f_equal. lia.
Qed.
Lemma bytes_cons n x : bytes (S n) x = (x / 2 ^ (8 * Z.of_nat n)) mod 256 :: bytes n (x mod 2 ^ (8 * Z.of_nat n)).
Proof.
  rewrite bytes_mod by lia. unfold bytes. cbn [seq map]. f_equal; [f_equal; f_equal; f_equal; lia|]. rewrite <- seq_shift, map_map. apply map_ext_in. intros j Hj. apply in_seq in Hj. do 4 f_equal. lia.
Qed.

(** ** The linear transformation *)
Definition kuz_coef : list Z := [148; 32; 133; 16; 194; 192; 1; 251; 1; 192; 194; 16; 133; 32; 148; 1].
Definition lin15 (l : list Z) : Z := fold_left Z.lxor (map (fun p => gf_mul (fst p) (snd p)) (combine (removelast kuz_coef) l)) 0.
Lemma gf_mul_1 x : 0 <= x < 256 -> gf_mul 1 x = x.
Proof.
  intro H. apply (gf_product_unique 1 x); [apply gf_mul_product; lia|]. split; [exact H|]. exists 0. split; [lia|]. cbn [clmul]. rewrite Z.lxor_0_l. symmetry.
  apply (clmul_ind (fun x => x = clmul 1 x)); [reflexivity| |lia]. intros b Hb IH. rewrite clmul_step by lia. rewrite <- IH. pose proof (Z.div_mod b 2 ltac:(lia)) as D. rewrite Zmod_odd in D.
  rewrite <- Z.add_nocarry_lxor; [destruct (Z.odd b); lia|]. destruct (Z.odd b); [|reflexivity]. apply Z.bits_inj'. intros n Hn. rewrite Z.land_spec, Z.bits_0.
  destruct (Z.eq_dec n 0) as [->|N]; [rewrite Z.testbit_even_0; apply andb_false_r|]. change 1 with (2 ^ 0). rewrite Z.pow2_bits_false by lia. reflexivity.
Qed.
Lemma lin_snoc l b : length l = 15%nat -> is_byte b -> kuz_lin (l ++ [b]) = Z.lxor (lin15 l) b.
Proof.
  intros L B. do 15 (destruct l as [|? l]; [discriminate|]). destruct l; [|discriminate]. unfold kuz_lin, lin15, kuz_coef. cbn [removelast combine app map fold_left fst snd]. rewrite (gf_mul_1 b B). reflexivity.
Qed.
Lemma fold_lxor_byte l : forall a, is_byte a -> Forall is_byte l -> is_byte (fold_left Z.lxor l a).
Proof. induction l as [|b l IH]; intros a Ha H; [exact Ha|]. inversion H; subst. cbn. apply IH; [|assumption]. apply (lxor_lt 8); [lia|assumption|assumption]. Qed.
Lemma coef_byte : Forall is_byte kuz_coef.
Proof. repeat constructor; discriminate. Qed.
Lemma lin_byte l : Forall is_byte l -> is_byte (kuz_lin l).
Proof.
  intro H. unfold kuz_lin. fold kuz_coef. apply fold_lxor_byte; [split; lia|]. apply Forall_forall. intros p Hp. apply in_map_iff in Hp as ([c b] & <- & I). apply gf_mul_byte.
  - exact (proj1 (Forall_forall _ _) coef_byte c (in_combine_l _ _ _ _ I)).
  - exact (proj1 (Forall_forall _ _) H b (in_combine_r _ _ _ _ I)).
Qed.
Definition block (x : Z) : Prop := 0 <= x < 2 ^ 128.
Lemma kuz_r_value x : block x -> kuz_r x = kuz_lin (bytes 16 x) * 2 ^ 120 + x / 2 ^ 8.
Proof.
  intro H. unfold kuz_r. cbn zeta. rewrite (bytes_snoc 15 x) at 2. rewrite removelast_last, word_cons, bytes_length, word_bytes. change (8 * Z.of_nat 15) with 120. f_equal. change (2 ^ 8) with 256.
  apply Z.mod_small. unfold block in H. split; [apply Z.div_pos; lia|apply Z.div_lt_upper_bound; [lia|]]. exact (proj2 H).
Qed.
Lemma kuz_r_block x : block x -> block (kuz_r x).
Proof.
  intro H. unfold kuz_r, block. cbn zeta. assert (B : Forall is_byte (kuz_lin (bytes 16 x) :: removelast (bytes 16 x))).
  { constructor; [apply lin_byte, bytes_byte|]. rewrite (bytes_snoc 15 x), removelast_last. apply bytes_byte. }
  pose proof (word_range _ B) as R. cbn [length] in R. replace (length (removelast (bytes 16 x))) with 15%nat in R by (rewrite (bytes_snoc 15 x), removelast_last, bytes_length; reflexivity). exact R.
Qed.
Lemma kuz_r_inv_value x : block x -> kuz_r_inv x = (x mod 2 ^ 120) * 2 ^ 8 + kuz_lin (bytes 16 ((x mod 2 ^ 120) * 2 ^ 8 + x / 2 ^ 120)).
Proof.
  intro H. unfold kuz_r_inv. cbn zeta. assert (D : 0 <= x / 2 ^ 120 < 256) by (unfold block in H; split; [apply Z.div_pos; lia|apply Z.div_lt_upper_bound; [lia|exact (proj2 H)]]).
  assert (E : bytes 16 x = x / 2 ^ 120 :: bytes 15 (x mod 2 ^ 120)) by (rewrite (bytes_cons 15 x); change (8 * Z.of_nat 15) with 120; rewrite (Z.mod_small (x / 2 ^ 120)) by exact D; reflexivity).
  rewrite E. cbn [tl hd]. rewrite word_snoc, word_bytes. change (8 * Z.of_nat 15) with 120. rewrite Z.mod_mod by lia. f_equal; [change (2 ^ 8) with 256; ring|].
  f_equal. rewrite (bytes_snoc 15). change (2 ^ 8) with 256. replace ((x mod 2 ^ 120 * 256 + x / 2 ^ 120) / 256) with (x mod 2 ^ 120) by (apply Z.div_unique with (x / 2 ^ 120); lia). f_equal. f_equal. apply Z.mod_unique with (x mod 2 ^ 120); lia.
Qed.
Theorem kuz_r_inverse x : block x -> kuz_r_inv (kuz_r x) = x.
Proof.
  intro H. rewrite (kuz_r_inv_value _ (kuz_r_block x H)), (kuz_r_value x H). pose proof (lin_byte _ (bytes_byte 16 x)) as LB. unfold is_byte in LB.
  assert (X : 0 <= x / 2 ^ 8 < 2 ^ 120) by (unfold block in H; split; [apply Z.div_pos; lia|apply Z.div_lt_upper_bound; [lia|exact (proj2 H)]]).
  set (l := kuz_lin (bytes 16 x)) in *. replace ((l * 2 ^ 120 + x / 2 ^ 8) mod 2 ^ 120) with (x / 2 ^ 8) by (apply Z.mod_unique with l; lia).
  replace ((l * 2 ^ 120 + x / 2 ^ 8) / 2 ^ 120) with l by (apply Z.div_unique with (x / 2 ^ 8); lia). change (2 ^ 8) with 256 in *.
  rewrite (bytes_snoc 15). replace ((x / 256 * 256 + l) / 256) with (x / 256) by (apply Z.div_unique with l; lia). replace ((x / 256 * 256 + l) mod 256) with l by (apply Z.mod_unique with (x / 256); lia).
  rewrite lin_snoc by (try apply bytes_length; exact LB). assert (L : l = Z.lxor (lin15 (bytes 15 (x / 256))) (x mod 256)).
  { unfold l. rewrite (bytes_snoc 15 x). apply lin_snoc; [apply bytes_length|]. apply Z.mod_pos_bound. lia. }
  rewrite L, lxor_cancel. pose proof (Z.div_mod x 256 ltac:(lia)). lia.
Qed.
Lemma kuz_r_inv_block x : block x -> block (kuz_r_inv x).
Proof.
  intro H. rewrite (kuz_r_inv_value x H). pose proof (lin_byte _ (bytes_byte 16 (x mod 2 ^ 120 * 2 ^ 8 + x / 2 ^ 120))) as LB. unfold is_byte in LB. pose proof (Z.mod_pos_bound x (2 ^ 120) ltac:(lia)). unfold block.
  change (2 ^ 128) with (2 ^ 120 * 256). change (2 ^ 8) with 256 in *. lia.
Qed.
Theorem kuz_r_inv_inverse x : block x -> kuz_r (kuz_r_inv x) = x.
Proof.
  intro H. rewrite (kuz_r_value _ (kuz_r_inv_block x H)), (kuz_r_inv_value x H).
  assert (D : 0 <= x / 2 ^ 120 < 256) by (unfold block in H; split; [apply Z.div_pos; lia|apply Z.div_lt_upper_bound; [lia|exact (proj2 H)]]).
  set (m := x mod 2 ^ 120). set (t := x / 2 ^ 120) in *. set (l := kuz_lin (bytes 16 (m * 2 ^ 8 + t))). assert (LB : is_byte l) by apply lin_byte, bytes_byte. unfold is_byte in LB. change (2 ^ 8) with 256 in *.
  replace ((m * 256 + l) / 256) with m by (apply Z.div_unique with l; lia). rewrite (bytes_snoc 15 (m * 256 + l)). replace ((m * 256 + l) / 256) with m by (apply Z.div_unique with l; lia). replace ((m * 256 + l) mod 256) with l by (apply Z.mod_unique with m; lia).
  rewrite lin_snoc by (try apply bytes_length; exact LB). assert (L : l = Z.lxor (lin15 (bytes 15 m)) t).
  { unfold l. rewrite (bytes_snoc 15). replace ((m * 256 + t) / 256) with m by (apply Z.div_unique with t; lia). replace ((m * 256 + t) mod 256) with t by (apply Z.mod_unique with m; lia). apply lin_snoc; [apply bytes_length|exact D]. }
  rewrite L, lxor_cancel. unfold m, t. pose proof (Z.div_mod x (2 ^ 120) ltac:(lia)). lia.
Qed.
Lemma iter_block f n x : (forall x, block x -> block (f x)) -> block x -> block (Nat.iter n f x).
Proof. intros Hf Hx. induction n as [|n IH]; [exact Hx|]. cbn. apply Hf, IH. Qed.
Lemma iter_inverse f g n : (forall x, block x -> block (f x)) -> (forall x, block x -> g (f x) = x) -> forall x, block x -> Nat.iter n g (Nat.iter n f x) = x.
Proof.
  intros Hf Hg. induction n as [|n IH]; intros x Hx; [reflexivity|]. assert (C : forall m y, Nat.iter m g (g y) = g (Nat.iter m g y)) by (intros m y; induction m as [|m IHm]; [reflexivity|change (g (Nat.iter m g (g y)) = g (g (Nat.iter m g y))); rewrite IHm; reflexivity]).
  change (g (Nat.iter n g (f (Nat.iter n f x))) = x). rewrite <- C, Hg by (apply iter_block; assumption). apply IH, Hx.
Qed.
Theorem kuz_l_block x : block x -> block (kuz_l x).
Proof. apply iter_block, kuz_r_block. Qed.
Theorem kuz_l_inv_block x : block x -> block (kuz_l_inv x).
Proof. apply iter_block, kuz_r_inv_block. Qed.
Theorem kuz_l_inverse x : block x -> kuz_l_inv (kuz_l x) = x.
Proof. intro H. exact (iter_inverse kuz_r kuz_r_inv 16 kuz_r_block kuz_r_inverse x H). Qed.
Theorem kuz_l_inv_inverse x : block x -> kuz_l (kuz_l_inv x) = x.
Proof. intro H. exact (iter_inverse kuz_r_inv kuz_r 16 kuz_r_inv_block kuz_r_inv_inverse x H). Qed.

(** the same on lists of bytes *)
Definition r_list (a : list Z) : list Z := kuz_lin a :: removelast a.
Lemma r_list_bytes x : bytes 16 (kuz_r x) = r_list (bytes 16 x).
Proof.
  unfold kuz_r. cbn zeta. fold (r_list (bytes 16 x)). assert (B : Forall is_byte (r_list (bytes 16 x))).
  { constructor; [apply lin_byte, bytes_byte|]. rewrite (bytes_snoc 15 x), removelast_last. apply bytes_byte. }
  assert (L : length (r_list (bytes 16 x)) = 16%nat) by (unfold r_list; cbn [length]; rewrite (bytes_snoc 15 x), removelast_last, bytes_length; reflexivity).
  rewrite <- L at 1. apply bytes_word, B.
Qed.
Lemma block_word y : block y -> word_of (bytes 16 y) = y.
Proof. intro H. rewrite word_bytes. apply Z.mod_small. exact H. Qed.
Lemma iter_words f g n x : (forall x, bytes 16 (f x) = g (bytes 16 x)) -> (forall y, block y -> block (f y)) -> block x -> Nat.iter n f x = word_of (Nat.iter n g (bytes 16 x)).
Proof.
  intros E B H. rewrite <- (block_word (Nat.iter n f x)) by (apply iter_block; assumption). f_equal. induction n as [|n IH]; [reflexivity|].
  change (bytes 16 (f (Nat.iter n f x)) = g (Nat.iter n g (bytes 16 x))). rewrite E, IH. reflexivity.
Qed.
Lemma l_list x : block x -> kuz_l x = word_of (Nat.iter 16 r_list (bytes 16 x)).
Proof. exact (iter_words kuz_r r_list 16 x r_list_bytes kuz_r_block). Qed.

(** ** The substitution *)
Definition pi_ok : bool := forallb (fun j => let p := nth j kuz_pi 0 in (0 <=? p) && (p <? 256) && (index_of p kuz_pi =? Z.of_nat j) && (nth (Z.to_nat (index_of (Z.of_nat j) kuz_pi)) kuz_pi 0 =? Z.of_nat j) && (0 <=? index_of (Z.of_nat j) kuz_pi) && (index_of (Z.of_nat j) kuz_pi <? 256)) (seq 0 256).
Lemma pi_checked : pi_ok = true.
Proof. vm_compute. reflexivity. Qed.
Lemma pi_facts b : is_byte b -> is_byte (nth (Z.to_nat b) kuz_pi 0) /\ index_of (nth (Z.to_nat b) kuz_pi 0) kuz_pi = b /\ nth (Z.to_nat (index_of b kuz_pi)) kuz_pi 0 = b /\ is_byte (index_of b kuz_pi).
Proof.
  intro H. unfold is_byte in *. pose proof pi_checked as C. unfold pi_ok in C. rewrite forallb_forall in C. specialize (C (Z.to_nat b) ltac:(apply in_seq; lia)). cbn zeta in C. rewrite Z2Nat.id in C by lia.
  repeat (apply andb_prop in C as [C ?]). repeat match goal with X : (_ <=? _) = true |- _ => apply Z.leb_le in X | X : (_ <? _) = true |- _ => apply Z.ltb_lt in X | X : (_ =? _) = true |- _ => apply Z.eqb_eq in X end. auto.
Qed.
Lemma sub_block (f : Z -> Z) x : (forall b, is_byte b -> is_byte (f b)) -> block (word_of (map f (bytes 16 x))) /\ bytes 16 (word_of (map f (bytes 16 x))) = map f (bytes 16 x).
Proof.
  intro Hf. assert (B : Forall is_byte (map f (bytes 16 x))) by (apply Forall_forall; intros b Hb; apply in_map_iff in Hb as (c & <- & I); apply Hf; exact (proj1 (Forall_forall _ _) (bytes_byte 16 x) c I)).
  assert (L : length (map f (bytes 16 x)) = 16%nat) by (rewrite map_length; apply bytes_length). split.
  - pose proof (word_range _ B) as R. rewrite L in R. exact R.
  - rewrite <- L at 1. apply bytes_word, B.
Qed.
Lemma sub_inverse (f g : Z -> Z) x : (forall b, is_byte b -> is_byte (f b)) -> (forall b, is_byte b -> g (f b) = b) -> block x -> word_of (map g (bytes 16 (word_of (map f (bytes 16 x))))) = x.
Proof.
  intros Hf Hg Hx. rewrite (proj2 (sub_block f x Hf)), map_map. rewrite (map_ext_in _ id); [rewrite map_id, word_bytes; apply Z.mod_small, Hx|].
  intros b Hb. apply Hg. exact (proj1 (Forall_forall _ _) (bytes_byte 16 x) b Hb).
Qed.
Theorem kuz_sub_block x : block (kuz_sub x).
Proof. apply (sub_block (fun b => nth (Z.to_nat b) kuz_pi 0)). intros b Hb. apply (pi_facts b Hb). Qed.
Theorem kuz_sub_inv_block x : block (kuz_sub_inv x).
Proof. apply (sub_block (fun b => index_of b kuz_pi)). intros b Hb. apply (pi_facts b Hb). Qed.
Theorem kuz_sub_inverse x : block x -> kuz_sub_inv (kuz_sub x) = x.
Proof. apply (sub_inverse (fun b => nth (Z.to_nat b) kuz_pi 0) (fun b => index_of b kuz_pi)); intros b Hb; apply (pi_facts b Hb). Qed.
Theorem kuz_sub_inv_inverse x : block x -> kuz_sub (kuz_sub_inv x) = x.
Proof. apply (sub_inverse (fun b => index_of b kuz_pi) (fun b => nth (Z.to_nat b) kuz_pi 0)); intros b Hb; apply (pi_facts b Hb). Qed.

(** ** Keys and rounds *)
Lemma block_lxor x y : block x -> block y -> block (Z.lxor x y).
Proof. intros Hx Hy. apply (lxor_lt 128); [lia|exact Hx|exact Hy]. Qed.
Lemma kuz_lsx_block k x : block (kuz_lsx k x).
Proof. apply kuz_l_block, kuz_sub_block. Qed.
Lemma kuz_f_block k a : block (fst a) -> block (snd a) -> block (fst (kuz_f k a)) /\ block (snd (kuz_f k a)).
Proof. intros A B. split; [apply block_lxor; [apply kuz_lsx_block|exact B]|exact A]. Qed.
Local Opaque kuz_f kuz_c kuz_lsx kuz_sub kuz_l kuz_sub_inv kuz_l_inv.
Lemma kuz_fs_block i l : forall a, block (fst a) -> block (snd a) -> let b := fold_left (fun a j => kuz_f (kuz_c (i + j)) a) l a in block (fst b) /\ block (snd b).
Proof. induction l as [|j l IH]; intros a A B; [split; assumption|]. cbn [fold_left]. destruct (kuz_f_block (kuz_c (i + j)) a A B) as [A' B']. exact (IH _ A' B'). Qed.
Lemma kuz_schedule_block n : forall i a, block (fst a) -> block (snd a) -> Forall block (kuz_schedule n i a).
Proof.
  induction n as [|n IH]; intros i a A B; cbn [kuz_schedule]; (constructor; [exact A|constructor; [exact B|]]); [constructor|]. destruct (kuz_fs_block i [1; 2; 3; 4; 5; 6; 7; 8] a A B) as [A' B']. exact (IH _ _ A' B').
Qed.
Lemma kuz_schedule_length n : forall i a, length (kuz_schedule n i a) = (2 * n + 2)%nat.
Proof. induction n as [|n IH]; intros i a; cbn [kuz_schedule length]; [reflexivity|]. rewrite IH. lia. Qed.
Lemma kuz_keys_block key : 0 <= key < 2 ^ 256 -> Forall block (kuz_keys key).
Proof.
  intro H. apply kuz_schedule_block; unfold block; cbn [fst snd]; [|apply Z.mod_pos_bound; lia]. split; [apply Z.div_pos; lia|apply Z.div_lt_upper_bound; [lia|]]. replace (2 ^ 128 * 2 ^ 128) with (2 ^ 256) by reflexivity. lia.
Qed.
(** decryption undoes encryption, and the other way round *)
Section Rounds.
Variables f g : Z -> Z.
Hypotheses (fb : forall x, block x -> block (f x)) (gb : forall x, block x -> block (g x)) (gf : forall x, block x -> g (f x) = x) (fg : forall x, block x -> f (g x) = x).
Lemma rounds_inverse l : Forall block l -> forall x, block x -> fold_left (fun x k => Z.lxor k (g x)) (rev l) (fold_left (fun x k => f (Z.lxor k x)) l x) = x.
Proof.
  induction l as [|k l IH] using rev_ind; intros H x Hx; [reflexivity|]. apply Forall_app in H as [H1 H2]. inversion H2 as [|? ? Hk _]; subst.
  assert (B : block (fold_left (fun x k => f (Z.lxor k x)) l x)) by (clear - Hx H1 fb; revert x Hx; induction H1 as [|a l Ha H1 IH]; intros x Hx; [exact Hx|cbn; apply IH, fb, block_lxor; assumption]).
  rewrite rev_app_distr. cbn [rev app fold_left]. rewrite fold_left_app. cbn [fold_left]. rewrite gf by (apply block_lxor; assumption). rewrite lxor_cancel. apply IH; assumption.
Qed.
Lemma rounds_inverse' l : Forall block l -> forall x, block x -> fold_left (fun x k => f (Z.lxor k x)) l (fold_left (fun x k => Z.lxor k (g x)) (rev l) x) = x.
Proof.
  induction l as [|k l IH]; intros H x Hx; [reflexivity|]. inversion H as [|? ? Hk H']; subst. cbn [rev]. rewrite fold_left_app. cbn [fold_left].
  assert (B : block (fold_left (fun x k => Z.lxor k (g x)) (rev l) x)) by (apply Forall_rev in H'; clear - Hx H' gb; revert x Hx; induction H' as [|a m Ha H' IHm]; intros x Hx; [exact Hx|cbn; apply IHm, block_lxor; [assumption|apply gb, Hx]]).
  rewrite lxor_cancel, fg by exact B. apply IH; assumption.
Qed.
Variable ks : list Z.
Hypotheses (KB : Forall block ks) (KN : ks <> []).
Definition enc x := Z.lxor (last ks 0) (fold_left (fun x k => f (Z.lxor k x)) (removelast ks) x).
Definition dec x := fold_left (fun x k => Z.lxor k (g x)) (tl (rev ks)) (Z.lxor (hd 0 (rev ks)) x).
Lemma dec_enc x : block x -> dec (enc x) = x.
Proof.
  intro Hx. unfold dec, enc. destruct (exists_last KN) as (l & kl & E). rewrite E in *. rewrite rev_app_distr. cbn [rev app hd tl]. rewrite last_last, removelast_last, lxor_cancel. apply Forall_app in KB as [KB' _]. exact (rounds_inverse l KB' x Hx).
Qed.
Lemma enc_dec x : block x -> enc (dec x) = x.
Proof.
  intro Hx. unfold dec, enc. destruct (exists_last KN) as (l & kl & E). rewrite E in *. rewrite rev_app_distr. cbn [rev app hd tl]. rewrite last_last, removelast_last. apply Forall_app in KB as [KB' K1]. inversion K1 as [|? ? B _]; subst.
  rewrite rounds_inverse' by (try apply block_lxor; assumption). apply lxor_cancel.
Qed.
End Rounds.
Lemma kuz_keys_some key : kuz_keys key <> [].
Proof. intro E. pose proof (kuz_schedule_length 4 0 (key / 2 ^ 128, key mod 2 ^ 128)) as X. unfold kuz_keys in E. rewrite E in X. discriminate X. Qed.
Lemma ls_block x : block x -> block (kuz_l (kuz_sub x)).
Proof. intros _. apply kuz_l_block, kuz_sub_block. Qed.
Lemma sl_block x : block x -> block (kuz_sub_inv (kuz_l_inv x)).
Proof. intros _. apply kuz_sub_inv_block. Qed.
Lemma sl_ls x : block x -> kuz_sub_inv (kuz_l_inv (kuz_l (kuz_sub x))) = x.
Proof. intro H. rewrite kuz_l_inverse by apply kuz_sub_block. apply kuz_sub_inverse, H. Qed.
Lemma ls_sl x : block x -> kuz_l (kuz_sub (kuz_sub_inv (kuz_l_inv x))) = x.
Proof. intro H. rewrite kuz_sub_inv_inverse by (apply kuz_l_inv_block, H). apply kuz_l_inv_inverse, H. Qed.
Theorem kuz_decrypt_encrypt key x : 0 <= key < 2 ^ 256 -> block x -> kuz_decrypt key (kuz_encrypt key x) = x.
Proof. intros Hk Hx. exact (dec_enc (fun x => kuz_l (kuz_sub x)) (fun x => kuz_sub_inv (kuz_l_inv x)) ls_block sl_ls (kuz_keys key) (kuz_keys_block key Hk) (kuz_keys_some key) x Hx). Qed.
Theorem kuz_encrypt_decrypt key x : 0 <= key < 2 ^ 256 -> block x -> kuz_encrypt key (kuz_decrypt key x) = x.
Proof. intros Hk Hx. exact (enc_dec (fun x => kuz_l (kuz_sub x)) (fun x => kuz_sub_inv (kuz_l_inv x)) sl_block ls_sl (kuz_keys key) (kuz_keys_block key Hk) (kuz_keys_some key) x Hx). Qed.

(** ** The key schedule, pair by pair *)
Fixpoint key_pair (m : nat) (key : Z) : Z * Z :=
  match m with
  | O => (key / 2 ^ 128, key mod 2 ^ 128)
  | S m => fold_left (fun a j => kuz_f (kuz_c (8 * Z.of_nat m + j)) a) [1; 2; 3; 4; 5; 6; 7; 8] (key_pair m key)
  end.
Lemma schedule_step n m key : kuz_schedule (S n) (8 * Z.of_nat m) (key_pair m key) = fst (key_pair m key) :: snd (key_pair m key) :: kuz_schedule n (8 * Z.of_nat (S m)) (key_pair (S m) key).
Proof. cbn [kuz_schedule]. do 2 f_equal. replace (8 * Z.of_nat (S m)) with (8 * Z.of_nat m + 8) by lia. reflexivity. Qed.
Lemma keys_pairs key : kuz_keys key = flat_map (fun m => [fst (key_pair m key); snd (key_pair m key)]) (seq 0 5).
Proof.
  unfold kuz_keys. change 0 with (8 * Z.of_nat 0) at 1. change (key / 2 ^ 128, key mod 2 ^ 128) with (key_pair 0 key). rewrite !schedule_step. cbn [seq flat_map app]. reflexivity.
Qed.
Lemma keys_even key m : (m <= 4)%nat -> nth (2 * m) (kuz_keys key) 0 = fst (key_pair m key).
Proof. intro H. rewrite keys_pairs. cbn [seq flat_map app]. do 5 (destruct m as [|m]; [reflexivity|]). lia. Qed.
Lemma keys_odd key m : (m <= 4)%nat -> nth (2 * m + 1) (kuz_keys key) 0 = snd (key_pair m key).
Proof. intro H. rewrite keys_pairs. cbn [seq flat_map app]. do 5 (destruct m as [|m]; [reflexivity|]). lia. Qed.
Lemma ten (ks : list Z) : length ks = 10%nat -> removelast ks = map (fun j => nth j ks 0) (seq 0 9) /\ last ks 0 = nth 9 ks 0 /\ tl (rev ks) = map (fun j => nth j ks 0) (rev (seq 0 9)) /\ hd 0 (rev ks) = nth 9 ks 0.
Proof. intro H. do 10 (destruct ks as [|? ks]; [discriminate H|]). destruct ks; [|discriminate H]. repeat split. Qed.
Lemma kuz_keys_length key : length (kuz_keys key) = 10%nat.
Proof. exact (kuz_schedule_length 4 0 _). Qed.
