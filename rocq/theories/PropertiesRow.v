(** * Property theorems: the example kernel RowIDCT (C59). *)
From Coq Require Import ZArith Bool String List Lia.
From stdpp Require Import gmap list.
From Verif Require Import Types Word Value Graph GraphSpec StreamSpec Dfcir DfcirBuild RtlSpec Sched Linear LinearSpec Latency Instance InstanceSpec Verify Prog StdKernels
     ProgFrame ProgLib PropertiesSched StdSpec ProgTop FlatRules FlatCalls FlatSpec FlatTop Idct IdctSpec IdctKernel IdctBody PropertiesIdct RowSpec RowIdct RowKernel RowBody.
Local Open Scope Z_scope.

(** a stream of 16-bit patterns for each input, and the 64 streams of results *)
Definition inputs : list string := map xname (seq 0 64).
Definition outputs : list string := map oname (seq 0 64).
Definition transforms_rows (e : env) (ys : list (Z -> Z)) : Prop := exists X : nat -> Z -> Z, (forall n, (n < 64)%nat -> sfed e (xname n) 16 (X n)) /\ ys = map (fun n i => row_word (fun j => X j i) n) (seq 0 64).
Definition streams_of (Y : string -> Z -> Z) : env := {| e_stream := fun s i => (sint 16, Y s i); e_scalar := fun _ => (sint 16, 0) |}.
(** The constructor of RowIDCT runs without fault and leaves a kernel with the inputs "x0",
    ..., "x63" and the outputs "out0", ..., "out63"; ASAP and linear scheduling do not fail on
    it; what they emit is accepted by the verifier of the dialect, and the circuit shows at
    each output, a fixed number of cycles after the inputs, element [n] of the transformed
    rows, whatever the latencies of the integer operations are (at least one cycle for sums,
    differences and products) *)
Theorem C59_row_idct :
  forall F, exists h w outs, sstands F (kernel RowIDCT) inputs 16 outputs 16 h w outs /\ scompiles F h w outs transforms_rows.
Proof.
  intro F. destruct (skernel_computes F RowIDCT 16 16 inputs outputs (nat -> Z -> Z) (fun e X => forall n, (n < 64)%nat -> sfed e (xname n) 16 (X n)) (fun X => map (fun n i => row_word (fun j => X j i) n) (seq 0 64)) (streams_of (fun _ _ => 0)) (fun _ _ => 0)) as (h & w & outs & ST & S & TD & Y).
  { intros n Hn i _. split; [reflexivity|]. split; [lia|reflexivity]. }
  { intros e X FD k h w S ST. exact (row_body F e k h w X S ST FD). }
  exists h, w, outs. split; [exact ST|].
  apply (stidy_scompiles F (kernel RowIDCT) inputs 16 outputs 16 h w outs (fun _ => True) transforms_rows ST S TD); [lia|lia|].
  intros e ys (X & FD & ->). split; [|split; [exact (Y e X FD)|]].
  - intros s Hs. apply elem_of_list_In, in_map_iff in Hs as (n & <- & Hn). apply in_seq in Hn. exists (X n). apply FD. lia.
  - apply Forall_forall. intros y Hy. apply elem_of_list_In, in_map_iff in Hy as (n & <- & _). intros i _. apply Z.mod_pos_bound. reflexivity.
Qed.
(** all streams can be applied *)
Theorem C59_streams : forall Y, (forall n i, (n < 64)%nat -> 0 <= i -> 0 <= Y (xname n) i < 2 ^ 16) -> transforms_rows (streams_of Y) (map (fun n i => row_word (fun j => Y (xname j) i) n) (seq 0 64)).
Proof. intros Y H. exists (fun j => Y (xname j)). split; [|reflexivity]. intros n Hn i Hi. split; [reflexivity|exact (H n i Hn Hi)]. Qed.
Example C59_names : xname 0 = "x0"%string /\ xname 63 = "x63"%string /\ oname 7 = "out7"%string /\ NoDup (inputs ++ outputs).
Proof. split; [reflexivity|]. split; [reflexivity|]. split; [reflexivity|]. apply distinct_NoDup. vm_compute. reflexivity. Qed.

(** ** What the words mean *)
(** output [8 r + c] is element [c] of the transformed row [r] *)
Theorem C59_elements : forall b r c, (c < 8)%nat -> (forall n, -32768 <= b n < 32768) -> wrap 16 (row_word (fun n => b n mod 2 ^ 16) (8 * r + c)) = row_out (fun c' => b (8 * r + c')%nat) c.
Proof.
  intros b r c Hc R. unfold row_word. rewrite (wrap_cong 16 _ (row_out (fun c0 => wrap 16 (b (8 * ((8 * r + c) / 8) + c0)%nat mod 2 ^ 16)) ((8 * r + c) mod 8))) by (apply Z.mod_mod; discriminate).
  assert (D : ((8 * r + c) / 8 = r)%nat) by (symmetry; apply (Nat.div_unique _ 8 r c); lia). assert (M : ((8 * r + c) mod 8 = c)%nat) by (symmetry; apply (Nat.mod_unique _ 8 r c); lia). rewrite D, M.
  assert (E : forall n, wrap 16 (b n mod 2 ^ 16) = b n).
  { intro n. rewrite (wrap_cong 16 _ (b n)) by (apply Z.mod_mod; discriminate). apply wrap_small; [lia|exact (R n)]. }
  unfold row_out, row_even, row_odd. rewrite !E. apply wrap_small; [lia|exact (wrap_range 16 _ eq_refl)].
Qed.
(** if the absolute values of the row add up to at most 2950, no width matters *)
Theorem C59_exact : forall b j, abs_sum b <= 2950 -> (j < 8)%nat -> row_out b j = ideal_row b j.
Proof.
  intros b j H Hj. unfold abs_sum in H. unfold row_out, ideal_row, row_odd, row_odd'. rewrite !rsqrt2_exact by lia. apply wrap_small; [lia|]. apply div_range; [reflexivity|].
  set (z1 := rsqrt2' (3406 * _ - _ - _ - _)). set (z2 := rsqrt2' (2276 * _ - _ + _ + _)).
  assert (D : forall z, 256 * rsqrt2' z <= 181 * z + 128 < 256 * rsqrt2' z + 256) by (intro z; unfold rsqrt2'; change (2 ^ 8) with 256; pose proof (Z.div_mod (181 * z + 128) 256 ltac:(discriminate)); pose proof (Z.mod_pos_bound (181 * z + 128) 256 ltac:(reflexivity)); lia).
  pose proof (D (3406 * b 1%nat - 799 * b 3%nat - 4017 * b 5%nat - 2276 * b 7%nat)) as D1. pose proof (D (2276 * b 1%nat - 4017 * b 3%nat + 799 * b 5%nat + 3406 * b 7%nat)) as D2. fold z1 in D1. fold z2 in D2. clearbody z1 z2. clear D.
  change (2 ^ 8) with 256. change (2 ^ (16 - 1)) with 32768. unfold fold8, row_even. byj j Hj ltac:(cbn [nth]; lia).
Qed.
(** a row with one constant coefficient: in -4096..4095 all results are eight times it *)
Definition flat_line (v : Z) (c : nat) : Z := match c with O => v | _ => 0 end.
Lemma flat_line_value v j : (j < 8)%nat -> row_out (flat_line v) j = wrap 16 (8 * v).
Proof.
  intro Hj. unfold row_out. f_equal. assert (E : fold8 (row_even (flat_line v)) (row_odd (flat_line v)) j = (8 * v) * 2 ^ 8 + 128).
  { unfold row_odd. rewrite !rsqrt2_exact by (cbn [flat_line]; lia). unfold fold8, row_even. cbn [flat_line]. change (2 ^ 8) with 256. byj j Hj ltac:(cbn [nth]; repeat match goal with |- context [rsqrt2' ?z] => change (rsqrt2' z) with 0 end; lia). }
  rewrite E, Z.add_comm, Z.div_add by discriminate. reflexivity.
Qed.
Theorem C59_flat : forall v j, -4096 <= v < 4096 -> (j < 8)%nat -> row_out (flat_line v) j = 8 * v.
Proof. intros v j Hv Hj. rewrite (flat_line_value v j Hj). apply wrap_small; [lia|]. change (2 ^ (16 - 1)) with 32768. lia. Qed.
(** the next coefficient gives -32768: 16 bits hold the results of rows of 13-bit
    coefficients of this form, not of 16-bit ones *)
Theorem C59_limit : forall j, (j < 8)%nat -> row_out (flat_line 4096) j = -32768.
Proof. intros j Hj. rewrite (flat_line_value 4096 j Hj). reflexivity. Qed.
(** the first pass of the example IDCT is this pass, cut to 13 bits *)
Theorem C59_idct : forall b j, wrap 13 (row_out b j) = idct_row b j.
Proof.
  intros b j. unfold row_out, idct_row. set (z := fold8 _ _ _ / 2 ^ 8). apply wrap_cong. pose proof (wrap_mod 16 z eq_refl) as E.
  assert (K : forall a, a mod 2 ^ 13 = (a mod 2 ^ 16) mod 2 ^ 13) by (intro a; change (2 ^ 16) with (2 ^ 13 * 2 ^ 3); rewrite Z.rem_mul_r by lia; rewrite Z.add_mod, (Z.mul_comm (2 ^ 13)), Z.mod_mul, Z.add_0_r, !Z.mod_mod by discriminate; reflexivity).
  rewrite (K (wrap 16 z)), E, <- K. reflexivity.
Qed.
Example C59_row : map (row_out (fun c => nth c [100; -20; 30; 4; -5; 60; -7; 8] 0)) (seq 0 8) = [1254; 130; 675; 883; 70; 599; 1956; 833].
Proof. vm_compute. reflexivity. Qed.

Definition PropertiesRow_theorems := (C59_row_idct, C59_streams, C59_names, C59_elements, C59_exact, C59_flat, C59_limit, C59_idct, C59_row).
Print Assumptions PropertiesRow_theorems.
