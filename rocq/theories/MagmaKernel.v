(** * MagmaEncoder and MagmaDecoder compute GOST R 34.12-2015 (proofs). *)
From Coq Require Import ZArith Bool String Lia.
From stdpp Require Import gmap list.
From Verif Require Import Types Word Value OpSpec Graph GraphSpec TypesProofs BuilderProofs BuilderProofs2 BuilderTopo GraphFacts StreamSpec Dfcir DfcirBuild
     Verilog Stubs Naming Firrtl Lower RtlSpec KernelSpec KernelValues Instance InstanceSpec InstanceLoop InstanceMain InstanceStep InstanceFlow LifeProofs ProgTyping SliceFacts
     CryptoSpec GaloisFacts KuzFacts Prog ProgFrame ProgRules ProgCalls ProgMux ProgPorts ProgInstance StdKernels ProgLib GaloisKernel KuzKernel.
Local Open Scope string_scope.
Local Open Scope Z_scope.

(** ** The cipher *)
Definition half (x : Z) : Prop := 0 <= x < 2 ^ 32.
Lemma nibble_range x i : 0 <= nibble x i < 16.
Proof. apply Z.mod_pos_bound. lia. Qed.
Definition pi_small (i : nat) : bool := Nat.eqb (length (magma_pi i)) 16 && forallb (fun c => (0 <=? c) && (c <? 16)) (magma_pi i).
Lemma pi_small_all : forallb pi_small (seq 0 8) = true.
Proof. vm_compute. reflexivity. Qed.
Lemma magma_pi_facts i : (i < 8)%nat -> length (magma_pi i) = 16%nat /\ Forall (fun c => 0 <= c < 16) (magma_pi i).
Proof.
  intro H. pose proof (proj1 (forallb_forall _ _) pi_small_all i ltac:(apply in_seq; lia)) as C. unfold pi_small in C. apply andb_prop in C as [A B]. apply Nat.eqb_eq in A. split; [exact A|]. rewrite forallb_forall in B. apply Forall_forall. intros c Hc.
  apply elem_of_list_In in Hc. specialize (B c Hc). apply andb_prop in B as [B1 B2]. apply Z.leb_le in B1. apply Z.ltb_lt in B2. lia.
Qed.
Lemma magma_pi_nth i x : (i < 8)%nat -> 0 <= x < 16 -> 0 <= nth (Z.to_nat x) (magma_pi i) 0 < 16.
Proof.
  intros H Hx. destruct (magma_pi_facts i H) as [L B]. assert (I : nth (Z.to_nat x) (magma_pi i) 0 ∈ magma_pi i) by (apply elem_of_list_In, nth_In; lia). exact (proj1 (Forall_forall _ _) B _ I).
Qed.
(** the substitution of the nibbles [i] of [l], the first the most significant *)
Definition t_part (l : list nat) (x : Z) : Z := fold_left (fun acc i => 16 * acc + nth (Z.to_nat (nibble x i)) (magma_pi i) 0) l 0.
Lemma t_part_snoc l j x : t_part (l ++ [j]) x = 16 * t_part l x + nth (Z.to_nat (nibble x j)) (magma_pi j) 0.
Proof. unfold t_part. rewrite fold_left_app. reflexivity. Qed.
Lemma t_part_range l x : Forall (fun i => (i < 8)%nat) l -> 0 <= t_part l x < 2 ^ (4 * Z.of_nat (length l)).
Proof.
  induction l as [|j l IH] using rev_ind; intro H; [cbn; lia|]. apply Forall_app in H as [H1 H2]. inversion H2 as [|? ? Hj _]; subst. specialize (IH H1). rewrite t_part_snoc, app_length. cbn [length].
  replace (4 * Z.of_nat (length l + 1)) with (4 * Z.of_nat (length l) + 4) by lia. rewrite Z.pow_add_r by lia. change (2 ^ 4) with 16. pose proof (magma_pi_nth j _ Hj (nibble_range x j)). lia.
Qed.
Lemma magma_t_half x : half (magma_t x).
Proof. apply (t_part_range [7; 6; 5; 4; 3; 2; 1; 0]%nat x). repeat (constructor; [lia|]). constructor. Qed.
Lemma rot11_value x : half x -> rot11 x = (x mod 2 ^ 21) * 2 ^ 11 + (x / 2 ^ 21) mod 2 ^ 11.
Proof.
  unfold half. intro H. unfold rot11. rewrite (Z.mod_small (x / 2 ^ 21)) by (split; [apply Z.div_pos; lia|apply Z.div_lt_upper_bound; lia]). f_equal.
  change (2 ^ 32) with (2 ^ 21 * 2 ^ 11). rewrite Z.mul_mod_distr_r by lia. reflexivity.
Qed.
Lemma rot11_half x : half x -> half (rot11 x).
Proof. intro H. rewrite (rot11_value x H). unfold half. pose proof (Z.mod_pos_bound x (2 ^ 21) ltac:(lia)). pose proof (Z.mod_pos_bound (x / 2 ^ 21) (2 ^ 11) ltac:(lia)). change (2 ^ 32) with (2 ^ 21 * 2 ^ 11). lia. Qed.
Lemma magma_g_half k a : half (magma_g k a).
Proof. apply rot11_half, magma_t_half. Qed.
Lemma magma_g_eq k a : magma_g k a = rot11 (magma_t ((a + k) mod 2 ^ 32)).
Proof. unfold magma_g. reflexivity. Qed.
#[local] Opaque magma_g.
Definition halfs (a : Z * Z) : Prop := half (fst a) /\ half (snd a).
Lemma magma_G_halfs k a : halfs a -> halfs (magma_G k a).
Proof. intros [A B]. split; [exact B|]. apply (lxor_lt 32); [lia|apply magma_g_half|exact A]. Qed.
Definition swap (a : Z * Z) : Z * Z := (snd a, fst a).
Definition join (a : Z * Z) : Z := snd a * 2 ^ 32 + fst a.
Lemma join_G k a : join (magma_G k a) = magma_Gstar k a.
Proof. unfold join, magma_G, magma_Gstar. cbn [fst snd]. reflexivity. Qed.
Lemma G_swap k a : magma_G k (swap (magma_G k a)) = swap a.
Proof. destruct a as [l r]. unfold magma_G, swap. cbn [fst snd]. rewrite lxor_cancel. reflexivity. Qed.
Lemma fold_swap {K A} (G : K -> A -> A) (sw : A -> A) ks : (forall k a, G k (sw (G k a)) = sw a) -> forall a, fold_left (fun a k => G k a) (rev ks) (sw (fold_left (fun a k => G k a) ks a)) = sw a.
Proof.
  intro H. induction ks as [|k ks IH] using rev_ind; intro a; [reflexivity|]. rewrite rev_app_distr. cbn [rev app]. rewrite fold_left_app. cbn [fold_left]. rewrite H. apply IH.
Qed.
Lemma rounds_swap ks a : fold_left (fun a k => magma_G k a) (rev ks) (swap (fold_left (fun a k => magma_G k a) ks a)) = swap a.
Proof. exact (fold_swap magma_G swap ks G_swap a). Qed.
Lemma fold_last {K A B} (G : K -> A -> A) (fin : K -> A -> B) (jn : A -> B) d ks : (forall k a, jn (G k a) = fin k a) -> ks <> [] ->
  forall a, fin (List.last ks d) (fold_left (fun a k => G k a) (removelast ks) a) = jn (fold_left (fun a k => G k a) ks a).
Proof.
  intros H N a. destruct (exists_last N) as (l & k & ->). rewrite List.last_last, removelast_last, fold_left_app. cbn [fold_left]. symmetry. apply H.
Qed.
Lemma crypt_join ks x : ks <> [] -> magma_crypt ks x = join (fold_left (fun a k => magma_G k a) ks (halves x)).
Proof. intro N. exact (fold_last magma_G magma_Gstar join 0 ks join_G N (halves x)). Qed.
Lemma halves_halfs x : 0 <= x < 2 ^ 64 -> halfs (halves x).
Proof. intro H. split; unfold half; cbn [halves fst snd]; [split; [apply Z.div_pos; lia|apply Z.div_lt_upper_bound; lia]|apply Z.mod_pos_bound; lia]. Qed.
Lemma halves_join a : halfs a -> halves (join a) = swap a.
Proof.
  unfold halfs, half. intros [A B]. unfold halves, join, swap. f_equal; symmetry; [apply Z.div_unique with (fst a)|apply Z.mod_unique with (snd a)]; lia.
Qed.
Lemma join_halves x : join (swap (halves x)) = x.
Proof. unfold join, swap, halves. cbn [fst snd]. pose proof (Z.div_mod x (2 ^ 32) ltac:(lia)). lia. Qed.
Lemma fold_keeps {K A} (G : K -> A -> A) (P : A -> Prop) ks : (forall k a, P a -> P (G k a)) -> forall a, P a -> P (fold_left (fun a k => G k a) ks a).
Proof. intro H. induction ks as [|k ks IH]; intros a Ha; [exact Ha|]. apply IH, H, Ha. Qed.
Lemma rounds_halfs ks : forall a, halfs a -> halfs (fold_left (fun a k => magma_G k a) ks a).
Proof. exact (fold_keeps magma_G halfs ks magma_G_halfs). Qed.
Lemma join_range a : halfs a -> 0 <= join a < 2 ^ 64.
Proof. unfold halfs, half, join. change (2 ^ 64) with (2 ^ 32 * 2 ^ 32). lia. Qed.
Lemma crypt_inverse ks x : ks <> [] -> 0 <= x < 2 ^ 64 -> magma_crypt (rev ks) (magma_crypt ks x) = x.
Proof.
  intros N Hx. assert (N' : rev ks <> []) by (intro E; apply N; rewrite <- (rev_involutive ks), E; reflexivity). rewrite (crypt_join (rev ks) _ N'), (crypt_join ks x N).
  rewrite halves_join by (apply rounds_halfs, halves_halfs, Hx). rewrite rounds_swap. apply join_halves.
Qed.
Lemma magma_keys_some key : magma_keys key <> [].
Proof. discriminate. Qed.
Theorem magma_decrypt_encrypt key x : 0 <= x < 2 ^ 64 -> magma_decrypt key (magma_encrypt key x) = x.
Proof. apply crypt_inverse, magma_keys_some. Qed.
Theorem magma_encrypt_decrypt key x : 0 <= x < 2 ^ 64 -> magma_encrypt key (magma_decrypt key x) = x.
Proof.
  intro H. unfold magma_encrypt, magma_decrypt. pose proof (crypt_inverse (rev (magma_keys key)) x) as E. rewrite rev_involutive in E. apply E; [|exact H]. discriminate.
Qed.
(** the order of the round keys *)
Lemma encrypt_order key : magma_keys key = map (magma_word key) (seq 0 8 ++ seq 0 8 ++ seq 0 8 ++ rev (seq 0 8)).
Proof. reflexivity. Qed.
Lemma decrypt_order key : rev (magma_keys key) = map (magma_word key) (seq 0 8 ++ rev (seq 0 8) ++ rev (seq 0 8) ++ rev (seq 0 8)).
Proof. reflexivity. Qed.
Lemma table_spec_magma id : (id < 8)%nat -> map (fun j => nth j (map Z.of_nat (seq 0 16)) 0) (magma_table id) = magma_pi id.
Proof. intro H. do 8 (destruct id as [|id]; [reflexivity|]). lia. Qed.
Lemma magma_table_small id : Forall (fun j => (j < 16)%nat) (magma_table id).
Proof. do 8 (destruct id as [|id]; [cbn [magma_table]; repeat (constructor; [lia|]); constructor|]). constructor. Qed.
#[local] Opaque magma_pi magma_table.

Section Magma.
Variable F : fltops.
Variable e : env.
Variable T : bool.
Definition mk (w : world) (k : nat) : Prop := is_Some (w_top w) /\ is_Some (w_kern w !! k).
Lemma mk_frame w w' k : frame w w' -> mk w k -> mk w' k.
Proof. intros FR [A B]. split; [exact (top_frame _ _ FR A)|exact (kern_frame _ _ _ FR B)]. Qed.
Ltac cm FR := cfr FR; match type of FR with fr _ ?w ?w' => repeat match goal with H : mk w ?k |- _ => apply (mk_frame w w' k (f_frame _ _ _ FR)) in H end end.

Lemma rule_magma_permut h w k id v x : st F T h w -> mk w k -> (id < 8)%nat -> holds e w k v 4 x ->
  wp F T h w (magma_permut k id v) (fun w' s => fr T w w' /\ holds e w' k s 4 (fun i => nth (Z.to_nat (x i)) (magma_pi id) 0)).
Proof.
  intros S MK Hid HV. unfold magma_permut. seqr (rule_dfUInt F T h w 4 S ltac:(lia)). intros h1 w1 ty S1 (F1 & Ht). cm F1.
  eapply rule_bind; [apply (rule_consts F T ty 4 ltac:(lia) (map Z.of_nat (seq 0 16)) h1 w1 S1 Ht); [apply Forall_forall; intros c Hc; apply elem_of_list_In, in_map_iff in Hc as (j & <- & Hj); apply in_seq in Hj; lia|apply MK]|]. cbn beta. intros h2 w2 cs S2 (F2 & C2). cm F2.
  replace (id <? 8)%nat with true by (symmetry; apply Nat.ltb_lt, Hid).
  assert (CT : consts w2 4 (map (fun j => nth j cs 0%nat) (magma_table id)) (magma_pi id)).
  { rewrite <- (table_spec_magma id Hid). pose proof (magma_table_small id) as ST. unfold consts. induction ST as [|j l Hj ST IH]; cbn [map]; [constructor|]. constructor; [apply (consts_nth _ _ _ _ j C2); rewrite map_length, seq_length; exact Hj|exact IH]. }
  destruct (magma_pi_facts id Hid) as [LP BP].
  eapply wp_conseq; [apply (rule_table F e T h2 w2 k v 4 x _ 4 (magma_pi id) S2 HV CT); [lia|eapply Forall_impl; [exact BP|]; cbn; intros; lia|rewrite LP; cbn; lia]|].
  cbn beta. intros w3 s (F3 & H3 & _). split; [exact (fr_trans _ _ _ _ F1 (fr_trans _ _ _ _ F2 F3))|exact H3].
Qed.
(** a list of variables *)
Definition many (w : world) (k : nat) (W : Z) (rs : list nat) (xs : list (Z -> Z)) : Prop := Forall2 (fun r x => holds e w k r W x) rs xs.
Lemma many_gr X w w' k W rs xs : gr X w w' -> many w k W rs xs -> many w' k W rs xs.
Proof. intros G H. unfold many in *. induction H; constructor; [exact (holds_gr _ _ _ _ _ _ _ _ G H)|assumption]. Qed.
Lemma many_nth w k W rs xs j : many w k W rs xs -> (j < length xs)%nat -> holds e w k (nth j rs 0%nat) W (nth j xs (fun _ => 0)).
Proof. intro H. revert j. induction H as [|r c rs l Hc H IH]; intros j Hj; cbn in Hj; [lia|]. destruct j; [exact Hc|cbn; apply IH; lia]. Qed.
Lemma rule_slices k a W x n (hi lo : nat -> Z) : forall l h w, st F T h w -> holds e w k a W x -> Forall (fun j => 0 <= lo j <= hi j /\ hi j < W /\ hi j - lo j + 1 = n) l ->
  wp F T h w (pmap (fun j => bits a (hi j) (lo j)) l) (fun w' rs => fr T w w' /\ many w' k n rs (map (fun j i => (x i / 2 ^ lo j) mod 2 ^ n) l)).
Proof.
  induction l as [|j l IH]; intros h w S H HL; cbn [pmap map]; [apply wp_ret; [exact S|]; split; [apply fr_refl|constructor]|]. pose proof (Forall_inv HL) as (A & B & C). pose proof (Forall_inv_tail HL) as HL'.
  seqr (rule_bits F e T h w k a W x (hi j) (lo j) _ S H A B C). intros h1 w1 r S1 (F1 & H1). cfr F1. seqr (IH h1 w1 S1 H HL'). intros h2 w2 rs S2 (F2 & H2). cfr F2. apply wp_ret; [exact S2|]. split; [exact (fr_trans _ _ _ _ F1 F2)|constructor; assumption].
Qed.
Lemma map_nth_fun {A} (f : nat -> A) n j d : (j < n)%nat -> nth j (map f (seq 0 n)) d = f j.
Proof. intro H. rewrite (nth_indep _ d (f 0%nat)) by (rewrite map_length, seq_length; exact H). rewrite map_nth, seq_nth by exact H. reflexivity. Qed.
Lemma rule_magma_round h w k l r key xl xr xk : st F T h w -> mk w k -> holds e w k l 32 xl -> holds e w k r 32 xr -> holds e w k key 32 xk ->
  wp F T h w (magma_round k (l, r) key) (fun w' s => fr T w w' /\ holds e w' k (fst s) 32 (fun i => fst (magma_G (xk i) (xl i, xr i))) /\ holds e w' k (snd s) 32 (fun i => snd (magma_G (xk i) (xl i, xr i)))).
Proof.
  intros S MK HL HR HK. unfold magma_round. seqr (rule_dfUInt F T h w 32 S ltac:(lia)). intros h1 w1 ty S1 (F1 & Ht). cm F1.
  seqr (rule_cast F e T h1 w1 k r 32 xr ty 32 S1 HR Ht ltac:(lia)). intros h2 w2 a S2 (F2 & HA). cm F2.
  seqr (rule_cast F e T h2 w2 k key 32 xk ty 32 S2 HK Ht ltac:(lia)). intros h3 w3 b S3 (F3 & HB). cm F3.
  seqr (rule_bin F e T h3 w3 k ADD a b 32 _ _ S3 (or_intror eq_refl) (proj1 HA) (proj1 HB) (or_introl HA)). intros h4 w4 sm S4 (F4 & HS & _). cm F4.
  assert (HS' : holds e w4 k sm 32 (fun i => (xr i + xk i) mod 2 ^ 32)) by (eapply holds_ext; [|exact HS]; intros i _; unfold bin_fun; cbn [bin_math]; rewrite <- Zplus_mod; reflexivity). clear HS. set (sx := fun i => (xr i + xk i) mod 2 ^ 32) in *.
  eapply rule_bind; [apply (rule_slices k sm 32 sx 4 (fun i => 4 * Z.of_nat i + 3) (fun i => 4 * Z.of_nat i) (seq 0 8) h4 w4 S4 HS'); apply Forall_forall; intros j Hj; apply elem_of_seq in Hj; lia|]. cbn beta. intros h5 w5 parts S5 (F5 & HP). cm F5.
  assert (PN : forall w' j, fr T w5 w' -> (j < 8)%nat -> holds e w' k (nth j parts 0%nat) 4 (fun i => nibble (sx i) j)).
  { intros w' j FR Hj. pose proof (many_nth _ _ _ _ _ j (many_gr _ _ _ _ _ _ _ (f_gr _ _ _ FR) HP) ltac:(rewrite map_length, seq_length; exact Hj)) as H. rewrite map_nth_fun in H by exact Hj. exact H. }
  seqr (rule_magma_permut h5 w5 k 7 _ _ S5 MK ltac:(lia) (PN w5 7%nat (fr_refl _ _) ltac:(lia))). intros h6 w6 s7 S6 (F6 & H7). cm F6.
  eapply (rule_bind F _ _ _ _ _ (fun w' s => fr T w6 w' /\ holds e w' k s 32 (fun i => magma_t (sx i)))).
  { eapply wp_conseq; [apply (rule_fold F T _ (fun (q : list nat) w' s => exists (pre : list nat), (pre ++ q)%list = [7; 6; 5; 4; 3; 2; 1; 0]%nat /\ fr T w6 w' /\ holds e w' k s (4 * Z.of_nat (length pre)) (fun i => t_part pre (sx i)))); [|exact S6|]|].
    - intros j q h' w' s' S' (pre & EP & F' & H'). pose proof (mk_frame _ _ _ (f_frame _ _ _ F') MK) as MK'.
      assert (Hj : (j < 8)%nat). { assert (I : j ∈ (pre ++ j :: q)%list) by (apply elem_of_app; right; left). rewrite EP in I. rewrite !elem_of_cons, elem_of_nil in I. lia. }
      assert (LP : (length pre < 8)%nat) by (apply (f_equal length) in EP; rewrite app_length in EP; cbn in EP; lia).
      seqr (rule_magma_permut h' w' k j _ _ S' MK' Hj (PN w' j (fr_trans _ _ _ _ F6 F') Hj)). intros h8 w8 p S8 (F8 & H8). cfr F8.
      eapply wp_conseq; [apply (rule_cat F e T h8 w8 k s' p _ _ 4 _ S8 H' (proj1 H8)); lia|]. cbn beta. intros w9 s9 (F9 & H9). exists (pre ++ [j])%list. rewrite <- app_assoc. split; [exact EP|]. split; [exact (fr_trans _ _ _ _ F' (fr_trans _ _ _ _ F8 F9))|].
      rewrite app_length. cbn [length]. replace (4 * Z.of_nat (length pre + 1)) with (4 * Z.of_nat (length pre) + 4) by lia. eapply holds_ext; [|exact H9]. intros i _. cbn beta. rewrite t_part_snoc. change (2 ^ 4) with 16. lia.
    - exists [7%nat]. split; [reflexivity|]. split; [apply fr_refl|]. eapply holds_ext; [|exact H7]. intros i _. unfold t_part. cbn [fold_left]. lia.
    - cbn beta. intros w' s' (pre & EP & F' & H'). rewrite app_nil_r in EP. subst pre. split; [exact F'|exact H']. }
  cbn beta. intros h7 w7 sb S7 (F7 & HT). cm F7.
  seqr (rule_bits F e T h7 w7 k sb 32 _ 20 0 21 S7 HT ltac:(lia) ltac:(lia) eq_refl). intros h8 w8 lo S8 (F8 & HLo). cm F8.
  seqr (rule_bits F e T h8 w8 k sb 32 _ 31 21 11 S8 HT ltac:(lia) ltac:(lia) eq_refl). intros h9 w9 hi S9 (F9 & HHi). cm F9.
  seqr (rule_cat F e T h9 w9 k lo hi 21 _ 11 _ S9 HLo (proj1 HHi) ltac:(lia)). intros h10 w10 sh S10 (F10 & HSh). cm F10. change (21 + 11) with 32 in HSh.
  seqr (rule_xor F e T h10 w10 k l sh 32 xl _ S10 (proj1 HL) (proj1 HSh) (or_introl HL)). intros h11 w11 xx S11 (F11 & HX & _). cm F11. apply wp_ret; [exact S11|]. cbn [fst snd].
  split; [exact (fr_trans _ _ _ _ F1 (fr_trans _ _ _ _ F2 (fr_trans _ _ _ _ F3 (fr_trans _ _ _ _ F4 (fr_trans _ _ _ _ F5 (fr_trans _ _ _ _ F6 (fr_trans _ _ _ _ F7 (fr_trans _ _ _ _ F8 (fr_trans _ _ _ _ F9 (fr_trans _ _ _ _ F10 F11))))))))))|].
  split; [exact HR|]. eapply holds_ext; [|exact HX]. intros i _. cbn beta. unfold magma_G. cbn [fst snd]. rewrite (Z.lxor_comm (magma_g _ _)). f_equal. rewrite magma_g_eq. fold (sx i). rewrite (rot11_value _ (magma_t_half _)). change (2 ^ 0) with 1. rewrite Z.div_1_r. reflexivity.
Qed.
Lemma rule_magma (from to : string) (order : list nat) h w k key x : st F T h w -> mk w k -> names w k = [] -> carries e "key" 256 key -> carries e from 64 x ->
  from <> EmptyString /\ from <> "left" -> to <> EmptyString -> from <> "key" -> to <> from -> to <> "key" -> Forall (fun j => (j < 8)%nat) order -> order <> [] ->
  wp F T h w (magma_body k from to order) (fun w2 r => exists ports d, child T e w w2 k [from; "key"] [64; 256] ports to r d 64 (fun i => magma_crypt (map (magma_word (key i)) order) (x i))).
Proof.
  intros S MK NW (fk & EK) (fx & EX) Nf Nt Nfk Ntf Ntk OK ON. unfold magma_body.
  seqr (rule_dfUInt F T h w 64 S ltac:(lia)). intros h1 w1 ty S1 (F1 & Ht). cm F1. pose proof (f_names _ _ _ F1 k) as N1. rewrite NW in N1.
  seqr (rule_input F e T h1 w1 k from ty 64 x fx S1 Ht ltac:(lia) (proj2 MK) Nf EX). intros h2 w2 bl S2 (X2 & Fr2 & HB & IB & TB & N2 & N2'). carry (x_gr _ _ _ _ X2) (x_frame _ _ _ _ X2). apply (mk_frame _ _ _ (x_frame _ _ _ _ X2)) in MK. rewrite N1 in N2.
  seqr (rule_dfUInt F T h2 w2 256 S2 ltac:(lia)). intros h3 w3 kty S3 (F3 & Hk). cm F3. pose proof (f_names _ _ _ F3) as N3.
  seqr (rule_input F e T h3 w3 k "key" kty 256 key fk S3 Hk ltac:(lia) (proj2 MK) ltac:(split; discriminate) EK). intros h4 w4 ky S4 (X4 & Fr4 & HK & IK & TKy & N4 & N4'). carry (x_gr _ _ _ _ X4) (x_frame _ _ _ _ X4). apply (mk_frame _ _ _ (x_frame _ _ _ _ X4)) in MK. rewrite N3, N2 in N4.
  seqr (rule_bits F e T h4 w4 k bl 64 x 63 32 32 S4 HB ltac:(lia) ltac:(lia) eq_refl). intros h5 w5 l S5 (F5 & HL). cm F5.
  seqr (rule_bits F e T h5 w5 k bl 64 x 31 0 32 S5 HB ltac:(lia) ltac:(lia) eq_refl). intros h6 w6 r S6 (F6 & HR). cm F6.
  eapply rule_bind; [apply (rule_slices k ky 256 key 32 (fun i => 255 - 32 * Z.of_nat i) (fun i => 224 - 32 * Z.of_nat i) (seq 0 8) h6 w6 S6 HK); apply Forall_forall; intros j Hj; apply elem_of_seq in Hj; lia|]. cbn beta. intros h7 w7 keys S7 (F7 & HKs). cm F7.
  assert (KN : forall w' j, fr T w7 w' -> (j < 8)%nat -> holds e w' k (nth j keys 0%nat) 32 (fun i => magma_word (key i) j)).
  { intros w' j FR Hj. pose proof (many_nth _ _ _ _ _ j (many_gr _ _ _ _ _ _ _ (f_gr _ _ _ FR) HKs) ltac:(rewrite map_length, seq_length; exact Hj)) as H. rewrite map_nth_fun in H by exact Hj. exact H. }
  set (state := fun (pre : list nat) i => fold_left (fun a kk => magma_G kk a) (map (magma_word (key i)) pre) (halves (x i))).
  eapply (rule_bind F _ _ _ _ _ (fun w' s => fr T w7 w' /\ holds e w' k (fst s) 32 (fun i => fst (state order i)) /\ holds e w' k (snd s) 32 (fun i => snd (state order i)))).
  { eapply wp_conseq; [apply (rule_fold F T _ (fun (q : list nat) w' s => exists (pre : list nat), (pre ++ q)%list = order /\ fr T w7 w' /\ holds e w' k (fst s) 32 (fun i => fst (state pre i)) /\ holds e w' k (snd s) 32 (fun i => snd (state pre i)))); [|exact S7|]|].
    - intros j q h' w' [a b] S' (pre & EP & F' & HA & HBb). cbn [fst snd] in *. pose proof (mk_frame _ _ _ (f_frame _ _ _ F') MK) as MK'.
      assert (Hj : (j < 8)%nat) by (rewrite <- EP in OK; apply Forall_app in OK as [_ OK]; inversion OK; assumption).
      eapply wp_conseq; [exact (rule_magma_round h' w' k a b _ _ _ _ S' MK' HA HBb (KN w' j F' Hj))|]. cbn beta. intros w8 s8 (F8 & H8 & H8'). exists (pre ++ [j])%list. rewrite <- app_assoc. split; [exact EP|]. split; [exact (fr_trans _ _ _ _ F' F8)|].
      assert (E : forall i, state (pre ++ [j])%list i = magma_G (magma_word (key i) j) (fst (state pre i), snd (state pre i))) by (intro i; rewrite <- surjective_pairing; unfold state; rewrite map_app, fold_left_app; reflexivity).
      split; [eapply holds_ext; [|exact H8]|eapply holds_ext; [|exact H8']]; intros i _; cbn beta; rewrite E; reflexivity.
    - exists []. split; [reflexivity|]. split; [apply fr_refl|]. cbn [fst snd]. split; [eapply holds_ext; [|exact HL]|eapply holds_ext; [|exact HR]]; intros i Hi; unfold state; cbn [map fold_left]; unfold halves; cbn [fst snd].
      + apply Z.mod_small. pose proof (holds_range _ _ _ _ _ _ i HB Hi). split; [apply Z.div_pos; lia|apply Z.div_lt_upper_bound; lia].
      + change (2 ^ 0) with 1. rewrite Z.div_1_r. reflexivity.
    - cbn beta. intros w' s' (pre & EP & F' & HA & HBb). rewrite app_nil_r in EP. subst pre. auto. }
  cbn beta. intros h8 w8 [lf rg] S8 (F8 & HLf & HRg). cbn [fst snd] in HLf, HRg. cbn [fst snd]. cm F8.
  pose proof (fr_trans _ _ _ _ F5 (fr_trans _ _ _ _ F6 (fr_trans _ _ _ _ F7 F8))) as F58.
  seqr (rule_output F T h8 w8 k to ty 64 S8 Ht ltac:(lia) (proj2 MK) Nt). intros h9 w9 out S9 (X9 & Fr9 & OO & TO & _ & N9 & N9'). carry (x_gr _ _ _ _ X9) (x_frame _ _ _ _ X9).
  seqr (rule_cat F e T h9 w9 k rg lf 32 _ 32 _ S9 HRg (proj1 HLf) ltac:(lia)). intros h10 w10 d S10 (F10 & HD). cfr F10. change (32 + 32) with 64 in HD.
  apply (open_gr _ _ _ _ _ (f_gr _ _ _ F10)) in OO; [|intro I; inversion I].
  assert (HD' : holds e w10 k d 64 (fun i => magma_crypt (map (magma_word (key i)) order) (x i))).
  { eapply holds_ext; [|exact HD]. intros i _. cbn beta. rewrite crypt_join by (intro E; apply ON; exact (map_eq_nil _ _ E)). reflexivity. }
  clear HD. rename HD' into HD.
  seqr (rule_connect F e T h10 w10 k out d 64 _ (TFixed false 64 0) S10 OO HD TO (fun _ => conj eq_refl (Z.le_refl 64))). intros h11 w11 zz S11 (X11 & O11 & D11 & R11 & W11 & N11). carry (x_gr _ _ _ _ X11) (x_frame _ _ _ _ X11).
  apply wp_ret; [exact S11|]. exists [bl; ky], d.
  pose proof (ext_trans _ _ _ _ _ _ (fr_ext _ _ _ F1) X2) as Y2. pose proof (ext_trans _ _ _ _ _ _ Y2 (fr_ext _ _ _ F3)) as Y3. pose proof (ext_trans _ _ _ _ _ _ Y3 X4) as Y4. pose proof (ext_trans _ _ _ _ _ _ Y4 (fr_ext _ _ _ F58)) as Y8. pose proof (ext_trans _ _ _ _ _ _ Y8 X9) as Y9. pose proof (ext_trans _ _ _ _ _ _ Y9 (fr_ext _ _ _ F10)) as Y10. pose proof (ext_trans _ _ _ _ _ _ Y10 X11) as Y11. cbn [app] in Y2, Y3, Y4, Y8, Y9, Y10, Y11.
  pose proof (f_names _ _ _ F58) as N58. pose proof (f_names _ _ _ F10) as N10. constructor; auto.
  - apply (ext_same _ _ _ _ _ Y11). intro n. rewrite ?elem_of_app, !elem_of_cons. tauto.
  - intros n Hn. rewrite !elem_of_cons in Hn. destruct Hn as [->|[->|[->|Hn]]]; [exact (old_free _ _ _ _ (x_gr _ _ _ _ Y8) Fr9)|exact (old_free _ _ _ _ (f_gr _ _ _ F1) Fr2)|exact (old_free _ _ _ _ (x_gr _ _ _ _ Y3) Fr4)|inversion Hn].
  - intros j Nj. rewrite N11, N10, N9', N58, N4', N3, N2', (f_names _ _ _ F1) by exact Nj. reflexivity.
  - assert (NE : forall a b : string, a <> b -> String.eqb a b = false) by (intros a b Hab; apply String.eqb_neq, Hab).
    constructor; [|constructor; [|constructor]]; (split; [unfold port; rewrite N11, N10, N9, N58, N4; unfold name_lookup; cbn [List.find fst snd]|assumption]).
    + rewrite (NE to from Ntf), (NE "key" from (not_eq_sym Nfk)), String.eqb_refl. reflexivity.
    + rewrite (NE to "key" Ntk), String.eqb_refl. reflexivity.
  - unfold port. rewrite N11, N10, N9. unfold name_lookup. cbn [List.find fst snd]. rewrite String.eqb_refl. reflexivity.
Qed.
End Magma.
