(** * Property theorems: the example kernel IDCT (C58). *)
From Coq Require Import ZArith Bool String List Lia.
From stdpp Require Import gmap list.
From Verif Require Import Types Word Value Graph GraphSpec StreamSpec Dfcir DfcirBuild RtlSpec Sched Linear LinearSpec Latency Instance InstanceSpec Verify Prog StdKernels
     ProgFrame ProgLib PropertiesSched StdSpec ProgTop FlatRules FlatCalls FlatSpec FlatTop Idct IdctSpec IdctKernel IdctBody.
Local Open Scope Z_scope.

(** the streams of packed blocks and of packed results *)
Definition transforms (e : env) (ys : list (Z -> Z)) : Prop := exists x, sfed e "x" 768 x /\ ys = [fun i => idct (x i)].
Definition stream_of (x : Z -> Z) : env := {| e_stream := fun _ i => (sint 768, x i); e_scalar := fun _ => (sint 768, 0) |}.
(** The constructor of IDCT runs without fault and leaves a kernel with the input "x" and the
    output "out"; ASAP and linear scheduling do not fail on it; what they emit is accepted by
    the verifier of the dialect, and the circuit shows at "out", a fixed number of cycles after
    the block, the transform of the block, whatever the latencies of the integer operations
    are (at least one cycle for sums, differences and products) *)
Theorem C58_idct :
  forall F, exists h w out, sstands F (kernel IDCT) ["x"%string] 768 ["out"%string] 576 h w [out] /\ scompiles F h w [out] transforms.
Proof.
  intro F. destruct (skernel_computes F IDCT 768 576 ["x"%string] ["out"%string] (Z -> Z) (fun e x => sfed e "x" 768 x) (fun x => [fun i => idct (x i)]) (stream_of (fun _ => 0)) (fun _ => 0)) as (h & w & outs & ST & S & TD & Y).
  { intros i _. split; [reflexivity|]. split; [lia|reflexivity]. }
  { intros e x FD k h w S ST. exact (idct_body F e k h w x S ST FD). }
  pose proof (Forall2_length _ _ _ (ss_outs _ _ _ _ _ _ _ _ _ ST)) as LO. destruct outs as [|out [|]]; try discriminate LO. exists h, w, out. split; [exact ST|].
  apply (stidy_scompiles F (kernel IDCT) ["x"%string] 768 ["out"%string] 576 h w [out] (fun _ => True) transforms ST S TD); [lia|lia|].
  intros e ys (x & FD & ->). split; [intros s Hs; apply elem_of_list_singleton in Hs; subst s; exists x; exact FD|]. split; [exact (Y e x FD)|]. constructor; [|constructor]. intros i _. exact (idct_range (x i)).
Qed.
(** all streams of blocks can be applied *)
Theorem C58_streams : forall x, (forall i, 0 <= i -> 0 <= x i < 2 ^ 768) -> transforms (stream_of x) [fun i => idct (x i)].
Proof. intros x H. exists x. split; [|reflexivity]. intros i Hi. split; [reflexivity|exact (H i Hi)]. Qed.

(** ** What the packed words mean *)
Lemma field_pack (w : Z) (P : (nat -> Z) -> nat -> Z) f n j : 0 < w -> (forall f, P f 0%nat = 0) -> (forall f m, P f (S m) = P f m + f m mod 2 ^ w * 2 ^ (w * Z.of_nat m)) -> (j < n)%nat ->
  P f n / 2 ^ (w * Z.of_nat j) mod 2 ^ w = f j mod 2 ^ w.
Proof.
  intros Hw P0 PS. pose proof (P0 f) as P0f. pose proof (PS f) as PSf. assert (HP : 0 < 2 ^ w) by (apply Z.pow_pos_nonneg; lia).
  assert (R : forall n', 0 <= P f n' < 2 ^ (w * Z.of_nat n')).
  { intro n'. induction n' as [|m IH]; [rewrite P0f; change (Z.of_nat 0) with 0; rewrite Z.mul_0_r, Z.pow_0_r; lia|]. rewrite PSf. replace (w * Z.of_nat (S m)) with (w + w * Z.of_nat m) by lia. rewrite Z.pow_add_r by lia. pose proof (Z.mod_pos_bound (f m) (2 ^ w) HP). nia. }
  induction n as [|m IH]; intro Hj; [lia|]. rewrite PSf. destruct (decide (j = m)) as [->|N].
  - rewrite Z.div_add by (apply Z.pow_nonzero; lia). rewrite Z.div_small by apply R. rewrite Z.add_0_l. apply Z.mod_mod. lia.
  - rewrite <- IH by lia. assert (K : exists q, 0 <= q /\ w * Z.of_nat m = q + w + w * Z.of_nat j) by (exists (w * (Z.of_nat m - Z.of_nat j - 1)); split; [nia|ring]). destruct K as (q & Hq & E).
    assert (0 <= w * Z.of_nat j) by nia. rewrite E, (Z.pow_add_r 2 (q + w)), (Z.pow_add_r 2 q) by lia. rewrite !Z.mul_assoc, Z.div_add by (apply Z.pow_nonzero; lia). apply Z.mod_add. lia.
Qed.
(** field [8 r + c] of the result is element [c] of row [r] *)
Theorem C58_fields : forall X r c, (r < 8)%nat -> (c < 8)%nat -> field 9 (idct X) (8 * r + c) = idct_at X r c /\ -256 <= idct_at X r c <= 255.
Proof.
  intros X r c Hr Hc. assert (D : ((8 * r + c) / 8 = r)%nat) by (symmetry; apply (Nat.div_unique _ 8 r c); lia). assert (M : ((8 * r + c) mod 8 = c)%nat) by (symmetry; apply (Nat.mod_unique _ 8 r c); lia).
  assert (R : -256 <= idct_at X r c <= 255) by apply clip9_range. split; [|exact R]. unfold field. rewrite (wrap_cong 9 _ (idct_at X r c)).
  - apply wrap_small; [lia|]. change (2 ^ (9 - 1)) with 256. lia.
  - unfold idct. rewrite (field_pack 9 pack9) by (try reflexivity; lia). rewrite D, M. reflexivity.
Qed.
(** all blocks of 12-bit coefficients can be packed, and are unpacked unchanged *)
Theorem C58_blocks : forall b, (forall r c, (r < 8)%nat -> (c < 8)%nat -> -2048 <= b r c < 2048) -> 0 <= block_of b < 2 ^ 768 /\ forall r c, (r < 8)%nat -> (c < 8)%nat -> field 12 (block_of b) (8 * r + c) = b r c.
Proof.
  intros b R. split.
  - unfold block_of. generalize (fun n => b (n / 8)%nat (n mod 8)%nat). intro f. change 768 with (12 * Z.of_nat 64). generalize 64%nat. induction n as [|n IH]; [cbn; lia|].
    cbn [pack12]. replace (12 * Z.of_nat (S n)) with (12 + 12 * Z.of_nat n) by lia. rewrite Z.pow_add_r by lia. pose proof (Z.mod_pos_bound (f n) (2 ^ 12) ltac:(reflexivity)). nia.
  - intros r c Hr Hc. assert (D : ((8 * r + c) / 8 = r)%nat) by (symmetry; apply (Nat.div_unique _ 8 r c); lia). assert (M : ((8 * r + c) mod 8 = c)%nat) by (symmetry; apply (Nat.mod_unique _ 8 r c); lia).
    unfold field. rewrite (wrap_cong 12 _ (b r c)); [apply wrap_small; [lia|exact (R r c Hr Hc)]|]. unfold block_of. rewrite (field_pack 12 pack12) by (try reflexivity; lia). rewrite D, M. reflexivity.
Qed.

(** ** Where the widths do not matter *)
Definition abs_sum (b : nat -> Z) : Z := Z.abs (b 0%nat) + Z.abs (b 1%nat) + Z.abs (b 2%nat) + Z.abs (b 3%nat) + Z.abs (b 4%nat) + Z.abs (b 5%nat) + Z.abs (b 6%nat) + Z.abs (b 7%nat).
Lemma rsqrt2_exact z : - 11863283 <= z < 11863283 -> rsqrt2 z = rsqrt2' z.
Proof. intro H. unfold rsqrt2, rsqrt2'. rewrite wrap_small; [reflexivity|lia|]. change (2 ^ (32 - 1)) with 2147483648. lia. Qed.
Lemma row_exact b j : abs_sum b <= 360 -> (j < 8)%nat -> idct_row b j = ideal_row b j.
Proof.
  intros H Hj. unfold abs_sum in H. unfold idct_row, ideal_row, row_odd, row_odd'. rewrite !rsqrt2_exact by lia. apply wrap_small; [lia|]. apply div_range; [reflexivity|].
  set (z1 := rsqrt2' (3406 * _ - _ - _ - _)). set (z2 := rsqrt2' (2276 * _ - _ + _ + _)).
  assert (D : forall z, 256 * rsqrt2' z <= 181 * z + 128 < 256 * rsqrt2' z + 256) by (intro z; unfold rsqrt2'; change (2 ^ 8) with 256; pose proof (Z.div_mod (181 * z + 128) 256 ltac:(discriminate)); pose proof (Z.mod_pos_bound (181 * z + 128) 256 ltac:(reflexivity)); lia).
  pose proof (D (3406 * b 1%nat - 799 * b 3%nat - 4017 * b 5%nat - 2276 * b 7%nat)) as D1. pose proof (D (2276 * b 1%nat - 4017 * b 3%nat + 799 * b 5%nat + 3406 * b 7%nat)) as D2. fold z1 in D1. fold z2 in D2. clearbody z1 z2. clear D.
  change (2 ^ 8) with 256. change (2 ^ (13 - 1)) with 4096. unfold fold8, row_even. byj j Hj ltac:(cbn [nth]; lia).
Qed.
Lemma col_exact b j : (forall j, (j < 8)%nat -> -4096 <= b j < 4096) -> idct_col b j = ideal_col b j.
Proof.
  intro R. pose proof (R 1%nat ltac:(lia)). pose proof (R 3%nat ltac:(lia)). pose proof (R 5%nat ltac:(lia)). pose proof (R 7%nat ltac:(lia)). clear R.
  unfold idct_col, ideal_col, col_odd, col_odd'. cbv zeta.
  pose proof (eighth_bounds (2841 * b 1%nat + 565 * b 7%nat)) as B1. pose proof (eighth_bounds (565 * b 1%nat - 2841 * b 7%nat)) as B2. pose proof (eighth_bounds (2408 * b 3%nat + 1609 * b 5%nat)) as B3. pose proof (eighth_bounds (2408 * b 5%nat - 1609 * b 3%nat)) as B4.
  rewrite !rsqrt2_exact by lia. reflexivity.
Qed.
(** if the absolute values in each row of the block add up to at most 360, the kernel
    computes the transform of unbounded integers *)
Theorem C58_exact : forall b, (forall r, (r < 8)%nat -> abs_sum (b r) <= 360) -> forall r c, (r < 8)%nat -> (c < 8)%nat -> field 9 (idct (block_of b)) (8 * r + c) = ideal_at b r c.
Proof.
  intros b H r c Hr Hc.
  assert (RG : forall r c, (r < 8)%nat -> (c < 8)%nat -> -2048 <= b r c < 2048).
  { intros r' c' Hr' Hc'. pose proof (H r' Hr') as Q. unfold abs_sum in Q. byj c' Hc' ltac:(lia). }
  destruct (C58_blocks b RG) as [_ FB]. destruct (C58_fields (block_of b) r c Hr Hc) as [-> _]. unfold idct_at, ideal_at.
  rewrite col_exact by (intros j _; apply idct_row_range). unfold ideal_col. assert (E : forall r', (r' < 8)%nat -> idct_row (fun c' => field 12 (block_of b) (8 * r' + c')) c = ideal_row (b r') c).
  { intros r' Hr'. rewrite <- (row_exact (b r') c (H r' Hr') Hc). apply idct_row_ext; [|exact Hc]. intros c' Hc'. exact (FB r' c' Hr' Hc'). }
  unfold col_even, col_odd'. rewrite !(E 0%nat), !(E 1%nat), !(E 2%nat), !(E 3%nat), !(E 4%nat), !(E 5%nat), !(E 6%nat), !(E 7%nat) by lia. reflexivity.
Qed.
(** a block with one constant coefficient: in -512..511 it gives a flat block of its eighth *)
Definition flat_block (v : Z) (r c : nat) : Z := match r, c with O, O => v | _, _ => 0 end.
Ltac zeros := repeat match goal with |- context [rsqrt2' ?z] => change (rsqrt2' z) with 0 | |- context [eighth ?z] => change (eighth z) with 0 end.
Lemma flat_row v r c : -2048 <= v < 2048 -> (c < 8)%nat -> fold8 (row_even (flat_block v r)) (row_odd' (flat_block v r)) c / 2 ^ 8 = match r with O => 8 * v | _ => 0 end.
Proof.
  intros Hv Hc. assert (E : fold8 (row_even (flat_block v r)) (row_odd' (flat_block v r)) c = match r with O => 2048 * v + 128 | _ => 128 end).
  { unfold fold8, row_even, row_odd'. destruct r; cbn [flat_block]; byj c Hc ltac:(cbn [nth]; zeros; lia). }
  rewrite E. destruct r; [|reflexivity]. symmetry. change (2 ^ 8) with 256. apply (Z.div_unique _ 256 _ 128); lia.
Qed.
Lemma flat_odd v r : row_odd (flat_block v r) = row_odd' (flat_block v r).
Proof. unfold row_odd, row_odd'. destruct r; cbn [flat_block]; rewrite !rsqrt2_exact by lia; reflexivity. Qed.
Lemma flat_col u r : (r < 8)%nat -> fold8 (col_even (fun r' => match r' with O => u | _ => 0 end)) (col_odd' (fun r' => match r' with O => u | _ => 0 end)) r / 2 ^ 14 = (u + 32) / 64.
Proof.
  intro Hr. assert (E : fold8 (col_even (fun r' => match r' with O => u | _ => 0 end)) (col_odd' (fun r' => match r' with O => u | _ => 0 end)) r = 256 * (u + 32)).
  { unfold fold8, col_even, col_odd'. cbv zeta. byj r Hr ltac:(cbn [nth]; zeros; lia). }
  rewrite E. change (2 ^ 14) with (256 * 64). apply Z.div_mul_cancel_l; lia.
Qed.
Lemma flat_range v : -2048 <= v < 2048 -> forall r c, (r < 8)%nat -> (c < 8)%nat -> -2048 <= flat_block v r c < 2048.
Proof. intros Hv r c _ _. unfold flat_block. destruct r; [destruct c|]; lia. Qed.
Lemma flat_at v r c : -2048 <= v < 2048 -> (r < 8)%nat -> (c < 8)%nat -> field 9 (idct (block_of (flat_block v))) (8 * r + c) = clip9 ((wrap 13 (8 * v) + 32) / 64) /\ ideal_at (flat_block v) r c = clip9 ((8 * v + 32) / 64).
Proof.
  intros Hv Hr Hc. destruct (C58_blocks _ (flat_range v Hv)) as [_ FB]. destruct (C58_fields (block_of (flat_block v)) r c Hr Hc) as [-> _]. split.
  - unfold idct_at. rewrite (idct_col_ext _ (fun r' => match r' with O => wrap 13 (8 * v) | _ => 0 end)); [| |exact Hr].
    + rewrite col_exact; [unfold ideal_col; rewrite (flat_col (wrap 13 (8 * v)) r Hr); reflexivity|]. intros j _. destruct j; [exact (wrap_range 13 (8 * v) eq_refl)|lia].
    + intros r' Hr'. rewrite (idct_row_ext _ (flat_block v r')); [|intros c' Hc'; exact (FB r' c' Hr' Hc')|exact Hc]. unfold idct_row. rewrite flat_odd, (flat_row v r' c Hv Hc). destruct r'; reflexivity.
  - unfold ideal_at, ideal_row. unfold ideal_col, col_even, col_odd'. rewrite !(flat_row v _ c Hv Hc). 
    change (clip9 (fold8 (col_even (fun r' => match r' with O => 8 * v | _ => 0 end)) (col_odd' (fun r' => match r' with O => 8 * v | _ => 0 end)) r / 2 ^ 14) = clip9 ((8 * v + 32) / 64)).
    rewrite (flat_col (8 * v) r Hr). reflexivity.
Qed.
Theorem C58_flat : forall v r c, -512 <= v < 512 -> (r < 8)%nat -> (c < 8)%nat -> field 9 (idct (block_of (flat_block v))) (8 * r + c) = (v + 4) / 8.
Proof.
  intros v r c Hv Hr Hc. destruct (flat_at v r c ltac:(lia) Hr Hc) as [-> _]. rewrite wrap_small by (try change (2 ^ (13 - 1)) with 4096; lia).
  replace (8 * v + 32) with (8 * (v + 4)) by ring. change 64 with (8 * 8). rewrite Z.div_mul_cancel_l by lia. unfold clip9. pose proof (Z.div_mod (v + 4) 8 ltac:(discriminate)). pose proof (Z.mod_pos_bound (v + 4) 8 ltac:(reflexivity)). lia.
Qed.
(** the next coefficient, 512, gives a flat block of -64 instead of 64: the 13 bits between
    the passes do not hold what rows of 12-bit coefficients give *)
Theorem C58_width_refuted : forall r c, (r < 8)%nat -> (c < 8)%nat -> field 9 (idct (block_of (flat_block 512))) (8 * r + c) = -64 /\ ideal_at (flat_block 512) r c = 64.
Proof. intros r c Hr Hc. destruct (flat_at 512 r c ltac:(lia) Hr Hc) as [-> ->]. split; reflexivity. Qed.

(** ** The vectors of the test benches, examples/idct/idct_testbench0.sv to 5.sv *)
Definition bench (l : list Z) (r c : nat) : Z := nth (8 * r + c) l 0.
Definition small (l : list Z) : bool := forallb (fun v => (-2048 <=? v) && (v <? 2048)) l.
Definition two_passes (l : list Z) : list Z :=
  let rows := map (fun r => map (fun c => idct_row (bench l r) c) (seq 0 8)) (seq 0 8) in map (fun n => idct_col (fun r' => nth (n mod 8) (nth r' rows []) 0) (n / 8)) (seq 0 64).
Definition results (l : list Z) : list Z := map (fun n => field 9 (idct (block_of (bench l))) n) (seq 0 64).
Lemma nth_seq {A} (f : nat -> A) d n j : (j < n)%nat -> nth j (map f (seq 0 n)) d = f j.
Proof. intro H. rewrite (nth_indep _ d (f 0%nat)) by (rewrite map_length, seq_length; exact H). rewrite map_nth, seq_nth by exact H. reflexivity. Qed.
Lemma results_by l : small l = true -> results l = two_passes l.
Proof.
  intro H. unfold small in H. rewrite forallb_forall in H. assert (R : forall r c, (r < 8)%nat -> (c < 8)%nat -> -2048 <= bench l r c < 2048).
  { intros r c _ _. unfold bench. destruct (nth_in_or_default (8 * r + c) l 0) as [I|E]; [apply H in I; lia|rewrite E; lia]. }
  destruct (C58_blocks _ R) as [_ FB]. unfold results, two_passes. cbv zeta. apply map_ext_in. intros n Hn. apply in_seq in Hn. pose proof (Nat.mod_upper_bound n 8 ltac:(discriminate)) as M8. assert (D8 : (n / 8 < 8)%nat) by (apply Nat.div_lt_upper_bound; lia).
  rewrite (Nat.div_mod n 8) at 1 by discriminate. destruct (C58_fields (block_of (bench l)) (n / 8) (n mod 8) D8 M8) as [-> _]. unfold idct_at. apply idct_col_ext; [|exact D8]. intros r' Hr'. rewrite (nth_seq _ [] 8 r' Hr'), (nth_seq _ 0 8 _ M8).
  apply idct_row_ext; [|exact M8]. intros c' Hc'. exact (FB r' c' Hr' Hc').
Qed.
Example C58_bench0 : results
  [23; (-1); (-2); 0; 0; 0; 0; 0; 0; 0; 0; 0; 0; 0; 0; 0; 0; 0; 0; 0; 0; 0; 0; 0; 0; 0; 0; 0; 0; 0; 0; 0; 0; 0; 0; 0; 0; 0; 0; 0; 0; 0; 0; 0; 0; 0; 0; 0; 0; 0; 0; 0; 0; 0; 0; 0; 0; 0; 0; 0; 0; 0; 0; 0] =
  [2; 3; 3; 3; 3; 3; 3; 3; 2; 3; 3; 3; 3; 3; 3; 3; 2; 3; 3; 3; 3; 3; 3; 3; 2; 3; 3; 3; 3; 3; 3; 3; 2; 3; 3; 3; 3; 3; 3; 3; 2; 3; 3; 3; 3; 3; 3; 3; 2; 3; 3; 3; 3; 3; 3; 3; 2; 3; 3; 3; 3; 3; 3; 3].
Proof. rewrite results_by by (vm_compute; reflexivity). vm_compute. reflexivity. Qed.
Example C58_bench1 : results
  [13; (-7); 0; 0; 0; 0; 0; 0; 0; 2; 0; 0; 0; 0; 0; 0; 0; 0; 0; 0; 0; 0; 0; 0; 0; 0; 0; 0; 0; 0; 0; 0; 0; 0; 0; 0; 0; 0; 0; 0; 0; 0; 0; 0; 0; 0; 0; 0; 0; 0; 0; 0; 0; 0; 0; 0; 0; 0; 0; 0; 0; 0; 0; 0] =
  [1; 1; 1; 1; 2; 2; 2; 2; 1; 1; 1; 1; 2; 2; 2; 2; 1; 1; 1; 1; 2; 2; 2; 3; 1; 1; 1; 1; 2; 2; 3; 3; 0; 1; 1; 1; 2; 2; 3; 3; 0; 0; 1; 1; 2; 2; 3; 3; 0; 0; 1; 1; 2; 3; 3; 3; 0; 0; 1; 1; 2; 3; 3; 3].
Proof. rewrite results_by by (vm_compute; reflexivity). vm_compute. reflexivity. Qed.
Example C58_bench2 : results
  [(-166); (-7); (-4); (-4); 0; 0; 0; 0; (-2); 0; 0; 0; 0; 0; 0; 0; (-2); 0; 0; 0; 0; 0; 0; 0; 0; 0; 0; 0; 0; 0; 0; 0; 0; 0; 0; 0; 0; 0; 0; 0; 0; 0; 0; 0; 0; 0; 0; 0; 0; 0; 0; 0; 0; 0; 0; 0; 0; 0; 0; 0; 0; 0; 0; 0] =
  [(-24); (-23); (-21); (-21); (-21); (-21); (-21); (-20); (-24); (-22); (-21); (-20); (-21); (-21); (-21); (-20); (-23); (-22); (-21); (-20); (-20); (-21); (-20); (-20); (-23); (-22); (-20); (-20); (-20); (-20); (-20); (-19); (-23); (-22); (-20); (-20); (-20); (-20); (-20); (-19); (-23); (-22); (-20); (-20); (-20); (-20); (-20); (-19); (-23); (-22); (-20); (-20); (-20); (-20); (-20); (-19); (-23); (-22); (-20); (-20); (-20); (-20); (-20); (-20)].
Proof. rewrite results_by by (vm_compute; reflexivity). vm_compute. reflexivity. Qed.
Example C58_bench3 : results
  [(-240); 8; (-11); 47; 26; (-6); 0; 5; 28; (-6); 85; 44; (-4); (-25); 5; 16; 21; 8; 32; (-16); (-24); 0; 30; 12; (-2); 18; 0; (-2); 0; 7; 0; (-15); 7; 4; 15; (-24); 0; 9; 8; (-6); 4; 9; 0; (-5); (-6); 0; 0; 0; (-4); 0; (-6); 0; 0; 10; (-10); (-8); 6; 0; 0; 0; 0; 0; 0; (-8)] =
  [21; (-10); (-26); (-61); (-43); (-17); (-22); (-8); 5; (-28); (-47); (-73); (-11); (-14); (-24); (-17); (-14); (-31); (-61); (-45); (-5); (-18); (-22); (-34); (-23); (-36); (-49); (-32); (-12); (-33); (-33); (-35); (-30); (-39); (-53); (-8); (-19); (-31); (-43); (-42); (-41); (-43); (-50); (-4); (-15); (-33); (-44); (-66); (-40); (-38); (-21); (-14); (-17); (-26); (-46); (-52); (-44); (-47); (-9); (-12); (-30); (-33); (-38); (-37)].
Proof. rewrite results_by by (vm_compute; reflexivity). vm_compute. reflexivity. Qed.
Example C58_bench4 : results
  [0; 1; 2; 3; 4; 5; 6; 7; 8; 9; 10; 11; 12; 13; 14; 15; 16; 17; 18; 19; 20; 21; 22; 23; 24; 25; 26; 27; 28; 29; 30; 31; 32; 33; 34; 35; 36; 37; 38; 39; 40; 41; 42; 43; 44; 45; 46; 47; 48; 49; 50; 51; 52; 53; 54; 55; 56; 57; 58; 59; 60; 61; 62; 63] =
  [173; (-63); 42; (-19); 22; (-5); 12; 4; (-176); 52; (-39); 15; (-21); 3; (-12); (-5); 71; (-23); 16; (-7); 9; (-1); 5; 2; (-60); 17; (-13); 5; (-7); 1; (-4); (-2); 33; (-11); 8; (-3); 4; (-1); 2; 1; (-26); 7; (-6); 2; (-3); 0; (-2); (-1); 11; (-4); 3; (-1); 1; 0; 1; 0; (-6); 1; (-1); 0; (-1); 0; 0; 0].
Proof. rewrite results_by by (vm_compute; reflexivity). vm_compute. reflexivity. Qed.
Example C58_bench5 : results
  [0; (-1); (-2); (-3); (-4); (-5); (-6); (-7); (-8); (-9); (-10); (-11); (-12); (-13); (-14); (-15); (-16); (-17); (-18); (-19); (-20); (-21); (-22); (-23); (-24); (-25); (-26); (-27); (-28); (-29); (-30); (-31); (-32); (-33); (-34); (-35); (-36); (-37); (-38); (-39); (-40); (-41); (-42); (-43); (-44); (-45); (-46); (-47); (-48); (-49); (-50); (-51); (-52); (-53); (-54); (-55); (-56); (-57); (-58); (-59); (-60); (-61); (-62); (-63)] =
  [(-173); 63; (-42); 19; (-22); 5; (-12); (-4); 176; (-52); 39; (-15); 21; (-3); 12; 5; (-71); 23; (-16); 7; (-9); 1; (-5); (-2); 60; (-17); 13; (-5); 7; (-1); 4; 2; (-33); 11; (-8); 3; (-4); 1; (-2); (-1); 26; (-7); 6; (-2); 3; 0; 2; 1; (-11); 4; (-3); 1; (-1); 0; (-1); 0; 6; (-1); 1; 0; 1; 0; 0; 0].
Proof. rewrite results_by by (vm_compute; reflexivity). vm_compute. reflexivity. Qed.

Definition PropertiesIdct_theorems := (C58_idct, C58_streams, C58_fields, C58_blocks, C58_exact, C58_flat, C58_width_refuted,
  C58_bench0, C58_bench1, C58_bench2, C58_bench3, C58_bench4, C58_bench5).
Print Assumptions PropertiesIdct_theorems.
