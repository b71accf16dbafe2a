(** * The kernel IDCT computes the transform of IdctSpec (proofs). *)
From Coq Require Import ZArith Bool String Lia.
From stdpp Require Import gmap list.
From Verif Require Import Types Word Value OpSpec Graph GraphSpec TypesProofs BuilderProofs BuilderProofs2 BuilderTopo GraphFacts StreamSpec Dfcir DfcirBuild
     Verilog Stubs Naming StubsSpec Firrtl Lower RtlSpec KernelSpec KernelValues Instance InstanceSpec InstanceLoop InstanceMain InstanceStep InstanceFlow LifeProofs ProgTyping SliceFacts
     Prog ProgFrame ProgRules ProgCalls ProgPorts StdKernels ProgLib FlatRules FlatCalls Idct IdctSpec.
Local Open Scope Z_scope.

(** ** Numbers *)
Lemma wrap_num n z : 0 < n -> num true n (z mod 2 ^ n) = wrap n z.
Proof.
  intro Hn. unfold num, wrap. cbn [andb]. assert (E : 2 ^ n = 2 * 2 ^ (n - 1)) by (rewrite <- Z.pow_succ_r by lia; f_equal; lia). assert (0 < 2 ^ (n - 1)) by (apply Z.pow_pos_nonneg; lia).
  rewrite E. set (M := 2 ^ (n - 1)) in *. rewrite <- (Z.add_mod_idemp_l z) by lia. pose proof (Z.mod_pos_bound z (2 * M) ltac:(lia)). set (r := z mod (2 * M)) in *. clearbody r.
  destruct (Z.leb_spec M r).
  - replace (r + M) with (r - M + 1 * (2 * M)) by ring. rewrite Z.mod_add, Z.mod_small by lia. lia.
  - rewrite Z.mod_small by lia. lia.
Qed.
Lemma wrap_small n z : 0 < n -> - 2 ^ (n - 1) <= z < 2 ^ (n - 1) -> wrap n z = z.
Proof.
  intros Hn H. unfold wrap. assert (E : 2 ^ n = 2 * 2 ^ (n - 1)) by (rewrite <- Z.pow_succ_r by lia; f_equal; lia). rewrite Z.mod_small by lia. lia.
Qed.
Lemma wrap_range n z : 0 < n -> - 2 ^ (n - 1) <= wrap n z < 2 ^ (n - 1).
Proof.
  intro Hn. unfold wrap. assert (E : 2 ^ n = 2 * 2 ^ (n - 1)) by (rewrite <- Z.pow_succ_r by lia; f_equal; lia). pose proof (Z.mod_pos_bound (z + 2 ^ (n - 1)) (2 ^ n) ltac:(apply Z.pow_pos_nonneg; lia)). lia.
Qed.
Lemma wrap_mod n z : 0 < n -> wrap n z mod 2 ^ n = z mod 2 ^ n.
Proof. intro Hn. unfold wrap. rewrite Zminus_mod_idemp_l. f_equal. ring. Qed.
Lemma wrap_cong n a b : a mod 2 ^ n = b mod 2 ^ n -> wrap n a = wrap n b.
Proof. intro E. unfold wrap. rewrite (Zplus_mod a), (Zplus_mod b), E. reflexivity. Qed.

(** ** What the two passes compute, in the order of the program *)
Definition butter (x8 y0 x2 x3 x4 x5 x6 x7 : Z) : list Z :=
  let y1 := x4 + x6 in let y4 := x4 - x6 in let y6 := x5 + x7 in let y5 := x5 - x7 in
  [x8 + x3; y1; y0 + x2; wrap 32 ((y4 + y5) * 181 + 128) / 2 ^ 8; y0 - x2; wrap 32 ((y4 - y5) * 181 + 128) / 2 ^ 8; x8 - x3; y6].
Definition outs (n : Z) (l : list Z) (j : nat) : Z :=
  let h j := nth j l 0 in
  let r z := wrap 32 z / 2 ^ n in
  nth j [r (h 0%nat + h 1%nat); r (h 2%nat + h 3%nat); r (h 4%nat + h 5%nat); r (h 6%nat + h 7%nat); r (h 6%nat - h 7%nat); r (h 4%nat - h 5%nat); r (h 2%nat - h 3%nat); r (h 0%nat - h 1%nat)] 0.
Definition row_hw (b : nat -> Z) : list Z :=
  let x0 := b 0%nat * 2 ^ 11 + 128 in let x1 := b 4%nat * 2 ^ 11 in let x2 := b 6%nat in let x3 := b 2%nat in let x4 := b 1%nat in let x5 := b 7%nat in let x6 := b 5%nat in let x7 := b 3%nat in
  let p := (x4 + x5) * 565 in let y4 := p + x4 * 2276 in let y5 := p - x5 * 3406 in
  let q := (x6 + x7) * 2408 in let y6 := q - x6 * 799 in let y7 := q - x7 * 4017 in
  let r := (x3 + x2) * 1108 in butter (x0 + x1) (x0 - x1) (r - x2 * 3784) (r + x3 * 1568) y4 y5 y6 y7.
Definition col_hw (b : nat -> Z) : list Z :=
  let x0 := b 0%nat * 2 ^ 8 + 8192 in let x1 := b 4%nat * 2 ^ 8 in let x2 := b 6%nat in let x3 := b 2%nat in let x4 := b 1%nat in let x5 := b 7%nat in let x6 := b 5%nat in let x7 := b 3%nat in
  let e z := wrap 32 z / 2 ^ 3 in
  let p := (x4 + x5) * 565 + 4 in let y4 := e (p + x4 * 2276) in let y5 := e (p - x5 * 3406) in
  let q := (x6 + x7) * 2408 + 4 in let y6 := e (q - x6 * 799) in let y7 := e (q - x7 * 4017) in
  let r := (x3 + x2) * 1108 + 4 in butter (x0 + x1) (x0 - x1) (e (r - x2 * 3784)) (e (r + x3 * 1568)) y4 y5 y6 y7.
Lemma div_range a n lo hi : 0 < n -> n * lo <= a < n * hi -> lo <= a / n < hi.
Proof. intros Hn H. split; [apply Z.div_le_lower_bound; lia|apply Z.div_lt_upper_bound; lia]. Qed.
Lemma rsqrt2_range z : - 8388608 <= rsqrt2 z < 8388608.
Proof. unfold rsqrt2. apply div_range; [reflexivity|]. pose proof (wrap_range 32 (181 * z + 128) ltac:(lia)). cbn in *. lia. Qed.
Ltac byj j Hj tac := destruct j as [|[|[|[|[|[|[|[|j]]]]]]]]; [tac|tac|tac|tac|tac|tac|tac|tac|lia].
Lemma row_hw_spec b j : (forall j, (j < 8)%nat -> - 2048 <= b j < 2048) -> (j < 8)%nat -> wrap 13 (outs 8 (row_hw b) j) = idct_row b j.
Proof.
  intros R Hj. unfold idct_row. f_equal.
  pose proof (R 0%nat ltac:(lia)). pose proof (R 1%nat ltac:(lia)). pose proof (R 2%nat ltac:(lia)). pose proof (R 3%nat ltac:(lia)). pose proof (R 4%nat ltac:(lia)). pose proof (R 5%nat ltac:(lia)). pose proof (R 6%nat ltac:(lia)). pose proof (R 7%nat ltac:(lia)).
  unfold outs, row_hw, butter, fold8, row_even, row_odd. cbn [nth].
  set (z1 := 3406 * b 1%nat - 799 * b 3%nat - 4017 * b 5%nat - 2276 * b 7%nat). set (z2 := 2276 * b 1%nat - 4017 * b 3%nat + 799 * b 5%nat + 3406 * b 7%nat).
  pose proof (rsqrt2_range z1) as R1. pose proof (rsqrt2_range z2) as R2.
  match goal with |- context [wrap 32 (?a * 181 + 128)] => replace (a * 181 + 128) with (181 * z1 + 128) by (unfold z1; ring) end.
  match goal with |- context [wrap 32 (?a * 181 + 128)] => replace (a * 181 + 128) with (181 * z2 + 128) by (unfold z2; ring) end.
  fold (rsqrt2 z1). fold (rsqrt2 z2). set (q1 := rsqrt2 z1) in *. set (q2 := rsqrt2 z2) in *. clearbody q1 q2. clear z1 z2.
  change (2 ^ 11) with 2048.
  byj j Hj ltac:(cbn [nth]; rewrite wrap_small; [f_equal; lia|lia|change (2 ^ (32 - 1)) with 2147483648; lia]).
Qed.
Lemma eighth_wrap z : - 2147483648 <= z < 2147483648 -> wrap 32 z / 2 ^ 3 = z / 2 ^ 3.
Proof. intro H. rewrite wrap_small; [reflexivity|lia|exact H]. Qed.
Lemma rsqrt2_small z : - 11863283 <= z <= 11863283 -> 2 ^ 8 * rsqrt2 z <= 181 * z + 128 < 2 ^ 8 * rsqrt2 z + 2 ^ 8.
Proof.
  intro H. unfold rsqrt2. rewrite wrap_small by (try change (2 ^ (32 - 1)) with 2147483648; lia). pose proof (Z.div_mod (181 * z + 128) (2 ^ 8) ltac:(discriminate)). pose proof (Z.mod_pos_bound (181 * z + 128) (2 ^ 8) ltac:(reflexivity)). lia.
Qed.
Lemma eighth_bounds z : 8 * eighth z <= z + 4 < 8 * eighth z + 8.
Proof. unfold eighth. change (2 ^ 3) with 8. pose proof (Z.div_mod (z + 4) 8 ltac:(discriminate)). pose proof (Z.mod_pos_bound (z + 4) 8 ltac:(reflexivity)). lia. Qed.
Lemma clip9_range z : - 256 <= clip9 z <= 255.
Proof. unfold clip9. lia. Qed.
Lemma col_hw_spec b j : (forall j, (j < 8)%nat -> - 4096 <= b j < 4096) -> (j < 8)%nat -> wrap 13 (outs 14 (col_hw b) j) = fold8 (col_even b) (col_odd b) j / 2 ^ 14.
Proof.
  intros R Hj.
  pose proof (R 0%nat ltac:(lia)). pose proof (R 1%nat ltac:(lia)). pose proof (R 2%nat ltac:(lia)). pose proof (R 3%nat ltac:(lia)). pose proof (R 4%nat ltac:(lia)). pose proof (R 5%nat ltac:(lia)). pose proof (R 6%nat ltac:(lia)). pose proof (R 7%nat ltac:(lia)).
  unfold outs, col_hw, butter, fold8, col_even, col_odd. cbn [nth].
  rewrite !eighth_wrap by lia.
  replace ((b 1%nat + b 7%nat) * 565 + 4 + b 1%nat * 2276) with (2841 * b 1%nat + 565 * b 7%nat + 4) by ring.
  replace ((b 1%nat + b 7%nat) * 565 + 4 - b 7%nat * 3406) with (565 * b 1%nat - 2841 * b 7%nat + 4) by ring.
  replace ((b 5%nat + b 3%nat) * 2408 + 4 - b 5%nat * 799) with (2408 * b 3%nat + 1609 * b 5%nat + 4) by ring.
  replace ((b 5%nat + b 3%nat) * 2408 + 4 - b 3%nat * 4017) with (2408 * b 5%nat - 1609 * b 3%nat + 4) by ring.
  replace ((b 2%nat + b 6%nat) * 1108 + 4 - b 6%nat * 3784) with (1108 * b 2%nat - 2676 * b 6%nat + 4) by ring.
  replace ((b 2%nat + b 6%nat) * 1108 + 4 + b 2%nat * 1568) with (2676 * b 2%nat + 1108 * b 6%nat + 4) by ring.
  repeat match goal with |- context [(?z + 4) / 2 ^ 3] => change ((z + 4) / 2 ^ 3) with (eighth z) end.
  pose proof (eighth_bounds (2841 * b 1%nat + 565 * b 7%nat)) as B1. pose proof (eighth_bounds (565 * b 1%nat - 2841 * b 7%nat)) as B2. pose proof (eighth_bounds (2408 * b 3%nat + 1609 * b 5%nat)) as B3.
  pose proof (eighth_bounds (2408 * b 5%nat - 1609 * b 3%nat)) as B4. pose proof (eighth_bounds (1108 * b 2%nat - 2676 * b 6%nat)) as B5. pose proof (eighth_bounds (2676 * b 2%nat + 1108 * b 6%nat)) as B6.
  set (e1 := eighth (2841 * b 1%nat + 565 * b 7%nat)) in *. set (e2 := eighth (565 * b 1%nat - 2841 * b 7%nat)) in *. set (e3 := eighth (2408 * b 3%nat + 1609 * b 5%nat)) in *.
  set (e4 := eighth (2408 * b 5%nat - 1609 * b 3%nat)) in *. set (e5 := eighth (1108 * b 2%nat - 2676 * b 6%nat)) in *. set (e6 := eighth (2676 * b 2%nat + 1108 * b 6%nat)) in *. clearbody e1 e2 e3 e4 e5 e6.
  rewrite (Z.mul_comm (e1 - e3 + (e2 - e4)) 181), (Z.mul_comm (e1 - e3 - (e2 - e4)) 181). fold (rsqrt2 (e1 - e3 + (e2 - e4))). fold (rsqrt2 (e1 - e3 - (e2 - e4))).
  pose proof (rsqrt2_small (e1 - e3 + (e2 - e4)) ltac:(lia)) as R1. pose proof (rsqrt2_small (e1 - e3 - (e2 - e4)) ltac:(lia)) as R2.
  set (q1 := rsqrt2 (e1 - e3 + (e2 - e4))) in *. set (q2 := rsqrt2 (e1 - e3 - (e2 - e4))) in *. clearbody q1 q2. change (2 ^ 8) with 256 in *.
  assert (A1 : - 4000000 <= e1 + e3 <= 4000000) by lia. assert (A4 : - 4000000 <= e2 + e4 <= 4000000) by lia. assert (A2 : - 6000000 <= q1 <= 6000000) by lia. assert (A3 : - 6000000 <= q2 <= 6000000) by lia.
  assert (A5 : - 3000000 <= e5 <= 3000000) by lia. assert (A6 : - 3000000 <= e6 <= 3000000) by lia. clear B1 B2 B3 B4 B5 B6 R1 R2.
  assert (G : forall z, - 67108864 <= z < 67108864 -> wrap 13 (wrap 32 z / 2 ^ 14) = z / 2 ^ 14).
  { intros z Hz. rewrite (wrap_small 32) by (try change (2 ^ (32 - 1)) with 2147483648; lia). apply wrap_small; [lia|]. apply div_range; [reflexivity|]. cbn. lia. }
  byj j Hj ltac:(cbn [nth]; rewrite G; [f_equal; lia|lia]).
Qed.
Lemma idct_row_range b j : - 4096 <= idct_row b j < 4096.
Proof. exact (wrap_range 13 _ ltac:(lia)). Qed.

(** ** The calls *)
Notation T32 := (TFixed true 31 0).
Notation T13 := (TFixed true 12 0).
Definition I32 : itype T32 true 32 := itype_int 32 ltac:(lia).
Definition I13 : itype T13 true 13 := itype_int 13 ltac:(lia).
Record ctx (w : world) (k : nat) (C : tables) (bt it : nat) : Prop := {
  cx_bt : w_types w !! bt = Some T32; cx_it : w_types w !! it = Some T13; cx_top : is_Some (w_top w); cx_kern : is_Some (w_kern w !! k);
  cx_128 : const_of w (c128 C) T32 128; cx_181 : const_of w (c181 C) T32 181; cx_8192 : const_of w (c8192 C) T32 8192; cx_4 : const_of w (c4 C) T32 4;
  cx_m256 : const_of w (cM256 C) T13 (- 256 mod 2 ^ 64); cx_255 : const_of w (c255 C) T13 255;
  cx_w1 : const_of w (cW1 C) T32 2841; cx_w2 : const_of w (cW2 C) T32 2676; cx_w3 : const_of w (cW3 C) T32 2408;
  cx_w5 : const_of w (cW5 C) T32 1609; cx_w6 : const_of w (cW6 C) T32 1108; cx_w7 : const_of w (cW7 C) T32 565
}.
Lemma ctx_sfr w w' k C bt it : sfr w w' -> ctx w k C bt it -> ctx w' k C bt it.
Proof.
  intros [G FM _ _] []. constructor; try (eapply (gr_const _ _ _ _ _ _ G); assumption); try (apply (g_types _ _ _ G); assumption).
  - eapply top_frame; eassumption.
  - eapply kern_frame; eassumption.
Qed.
Lemma svar_sfr e w w' k n t x : sfr w w' -> svar e w k n t x -> svar e w' k n t x.
Proof. intros FR. exact (svar_gr e [] w w' k n t x (sf_gr _ _ FR)). Qed.
Ltac scarry FR :=
  match type of FR with sfr ?w ?w' =>
    repeat match goal with
    | H : ctx w _ _ _ _ |- _ => apply (ctx_sfr _ _ _ _ _ _ FR) in H
    | H : svar _ w _ _ _ _ |- _ => apply (svar_sfr _ _ _ _ _ _ _ FR) in H
    | H : const_of w _ _ _ |- _ => apply (gr_const _ _ _ _ _ _ (sf_gr _ _ FR)) in H
    | H : w_types w !! _ = Some _ |- _ => apply (g_types _ _ _ (sf_gr _ _ FR)) in H
    | H : forall j, (j < _)%nat -> svar _ w _ _ _ _ |- _ => let H' := fresh in pose proof (fun j Hj => svar_sfr _ _ _ _ _ _ _ FR (H j Hj)) as H'; clear H; rename H' into H; cbv beta in H
    end
  end.
(** the next call; the value of its variable is [V] *)
Ltac chain FR := match goal with H0 : sfr ?a ?b |- _ => match type of FR with sfr b ?c => let n := fresh in pose proof (sfr_trans a b c H0 FR) as n; clear H0; clear FR; rename n into H0 end end.
Ltac nxt V := cbv beta; let h := fresh "h" in let w := fresh "w" in let r := fresh "r" in let S := fresh "S" in let FR := fresh "FR" in intros h w r S (FR & V); scarry FR; chain FR.

Section Idct.
Variable F : fltops.
Notation st := (st F true).
Notation wp := (wp F true).
Variables (e : env) (k : nat).
Notation v32 w n x := (svar e w k n T32 x).

Lemma num_small s c : 0 <= c < 2 ^ 63 -> num s 64 c = c.
Proof. intro H. unfold num. destruct s; [|reflexivity]. cbn [andb]. destruct (Z.leb_spec (2 ^ (64 - 1)) c); [change (2 ^ (64 - 1)) with (2 ^ 63) in *; lia|reflexivity]. Qed.
Lemma carg w b t s W c : const_of w b t c -> itype t s W -> 0 <= c < 2 ^ 63 -> sarg e w k b t (fun _ => c).
Proof. intros H IT Hc. pose proof (const_sarg e w k b t c s W H IT) as A. rewrite (num_small s c Hc) in A. exact A. Qed.
Lemma r_add h w a b x y : st h w -> v32 w a x -> v32 w b y -> wp h w (add a b) (fun w' r => sfr w w' /\ v32 w' r (fun i => x i + y i)).
Proof. intros S A B. exact (srule_arith F e h w k ADD a b T32 true 32 x y S eq_refl A (proj1 B) I32). Qed.
Lemma r_sub h w a b x y : st h w -> v32 w a x -> v32 w b y -> wp h w (sub a b) (fun w' r => sfr w w' /\ v32 w' r (fun i => x i - y i)).
Proof. intros S A B. exact (srule_arith F e h w k SUB a b T32 true 32 x y S eq_refl A (proj1 B) I32). Qed.
Lemma r_addc h w a b x c : st h w -> v32 w a x -> const_of w b T32 c -> 0 <= c < 2 ^ 63 -> wp h w (add a b) (fun w' r => sfr w w' /\ v32 w' r (fun i => x i + c)).
Proof. intros S A B Hc. exact (srule_arith F e h w k ADD a b T32 true 32 x (fun _ => c) S eq_refl A (carg w b _ _ _ c B I32 Hc) I32). Qed.
Lemma r_mulc h w a b x c : st h w -> v32 w a x -> const_of w b T32 c -> 0 <= c < 2 ^ 63 -> wp h w (mul a b) (fun w' r => sfr w w' /\ v32 w' r (fun i => x i * c)).
Proof. intros S A B Hc. exact (srule_arith F e h w k MUL a b T32 true 32 x (fun _ => c) S eq_refl A (carg w b _ _ _ c B I32 Hc) I32). Qed.
Lemma r_cadd h w a b va vb v : st h w -> is_Some (w_top w) -> const_of w a T32 va -> const_of w b T32 vb -> c_int ADD va vb = CV v -> wp h w (add a b) (fun w' r => sfr w w' /\ const_of w' r T32 v).
Proof. intros S Top A B E. exact (srule_fold F h w ADD a b 31 va vb v 32 S Top ltac:(auto) I32 A B E). Qed.
Lemma r_csub h w a b va vb v : st h w -> is_Some (w_top w) -> const_of w a T32 va -> const_of w b T32 vb -> c_int SUB va vb = CV v -> wp h w (sub a b) (fun w' r => sfr w w' /\ const_of w' r T32 v).
Proof. intros S Top A B E. exact (srule_fold F h w SUB a b 31 va vb v 32 S Top ltac:(auto) I32 A B E). Qed.
Lemma r_shl h w a x n : st h w -> v32 w a x -> 0 <= n < 256 -> (forall i, 0 <= i -> - 2147483648 <= x i * 2 ^ n < 2147483648) -> wp h w (shl a n) (fun w' r => sfr w w' /\ v32 w' r (fun i => x i * 2 ^ n)).
Proof. intros S A Hn R. exact (srule_shl F e h w k a T32 32 x n S A I32 Hn ltac:(lia) R). Qed.
Lemma r_shr h w a x n : st h w -> v32 w a x -> 0 <= n < 256 -> wp h w (shr a n) (fun w' r => sfr w w' /\ v32 w' r (fun i => wrap 32 (x i) / 2 ^ n)).
Proof.
  intros S A Hn. eapply wp_conseq; [exact (srule_shr F e h w k a T32 32 x n S A I32 Hn)|]. cbn beta. intros w' r (B & C). split; [exact B|]. eapply svar_ext; [|exact C]. intros i _. cbn beta. rewrite wrap_num by lia. reflexivity.
Qed.
Lemma r_cast32 h w a ty t s W x : st h w -> svar e w k a t x -> itype t s W -> w_types w !! ty = Some T32 -> t <> T32 -> wp h w (cast a ty) (fun w' r => sfr w w' /\ v32 w' r (fun i => wrap W (x i))).
Proof.
  intros S A IT HT NE. eapply wp_conseq; [exact (srule_cast F e h w k a t s W x ty T32 true 32 S A IT HT I32 NE)|]. cbn beta. intros w' r (B & C). split; [exact B|]. eapply svar_ext; [|exact C]. intros i _. cbn beta. pose proof (it_b _ _ _ IT). rewrite wrap_num by lia. reflexivity.
Qed.
Lemma r_scale h w o a b x y n C bt it z : st h w -> ctx w k C bt it -> 0 <= n < 256 -> (forall h w, st h w -> v32 w a x -> v32 w b y -> wp h w (o a b) (fun w' r => sfr w w' /\ v32 w' r z)) -> v32 w a x -> v32 w b y ->
  wp h w (scale o a b n it) (fun w' r => sfr w w' /\ svar e w' k r T13 (fun i => wrap 32 (z i) / 2 ^ n)).
Proof.
  intros S CX Hn Ho A B. unfold scale. pose proof (sfr_refl w) as FR0.
  eapply rule_bind; [exact (Ho h w S A B)|]. nxt V1.
  eapply rule_bind; [apply (r_shr _ _ _ _ n S0 V1 Hn)|]. nxt V2.
  eapply wp_conseq; [apply (srule_cast F e h1 w1 k r0 T32 true 32 _ it T13 true 13 S1 V2 I32 (cx_it _ _ _ _ _ CX) I13); discriminate|]. cbn beta. intros w' q (FR & V). split; [exact (sfr_trans _ _ _ FR0 FR)|].
  eapply svar_cong; [|exact V]. intros i _. cbn beta. rewrite wrap_num by lia. change (total_bits T13) with 13.
  assert (R : - 2 ^ (32 - 1) <= wrap 32 (z i) / 2 ^ n < 2 ^ (32 - 1)).
  { pose proof (wrap_range 32 (z i) ltac:(lia)) as R. assert (1 <= 2 ^ n) by (pose proof (Z.pow_pos_nonneg 2 n); lia). assert (1 <= 2 ^ (32 - 1)) by discriminate. set (M := 2 ^ (32 - 1)) in *. clearbody M. apply div_range; [lia|]. nia. }
  rewrite (wrap_small 32) by (exact R || lia). reflexivity.
Qed.
Lemma r_rot h w o a b x y z C bt it : st h w -> ctx w k C bt it -> (forall h w, st h w -> v32 w a x -> v32 w b y -> wp h w (o a b) (fun w' r => sfr w w' /\ v32 w' r z)) -> v32 w a x -> v32 w b y ->
  wp h w (rot181 C o a b) (fun w' r => sfr w w' /\ v32 w' r (fun i => wrap 32 (z i * 181 + 128) / 2 ^ 8)).
Proof.
  intros S CX Ho A B. unfold rot181. pose proof (sfr_refl w) as FR0.
  eapply rule_bind; [exact (Ho h w S A B)|]. nxt V1.
  eapply rule_bind; [apply (r_mulc _ _ _ _ _ 181 S0 V1 (cx_181 _ _ _ _ _ CX)); lia|]. nxt V2.
  eapply rule_bind; [apply (r_addc _ _ _ _ _ 128 S1 V2 (cx_128 _ _ _ _ _ CX)); lia|]. nxt V3.
  eapply wp_conseq; [apply (r_shr _ _ _ _ 8 S2 V3); lia|]. cbn beta. intros w' q (FR & V). split; [exact (sfr_trans _ _ _ FR0 FR)|exact V].
Qed.
Lemma r_butterfly h w C bt it x8 y0 x2 x3 x4 x5 x6 x7 a8 a0 a2 a3 a4 a5 a6 a7 : st h w -> ctx w k C bt it -> v32 w x8 a8 -> v32 w y0 a0 -> v32 w x2 a2 -> v32 w x3 a3 -> v32 w x4 a4 -> v32 w x5 a5 -> v32 w x6 a6 -> v32 w x7 a7 ->
  wp h w (butterfly C x8 y0 x2 x3 x4 x5 x6 x7) (fun w' l => sfr w w' /\ forall j, (j < 8)%nat -> v32 w' (nth j l 0%nat) (fun i => nth j (butter (a8 i) (a0 i) (a2 i) (a3 i) (a4 i) (a5 i) (a6 i) (a7 i)) 0)).
Proof.
  intros S CX V8 V0 V2 V3 V4 V5 V6 V7. unfold butterfly. pose proof (sfr_refl w) as FR0.
  eapply rule_bind; [exact (r_add _ _ _ _ _ _ S V4 V6)|]. nxt Y1.
  eapply rule_bind; [exact (r_sub _ _ _ _ _ _ S0 V4 V6)|]. nxt Y4.
  eapply rule_bind; [exact (r_add _ _ _ _ _ _ S1 V5 V7)|]. nxt Y6.
  eapply rule_bind; [exact (r_sub _ _ _ _ _ _ S2 V5 V7)|]. nxt Y5.
  eapply rule_bind; [exact (r_add _ _ _ _ _ _ S3 V8 V3)|]. nxt Y7.
  eapply rule_bind; [exact (r_sub _ _ _ _ _ _ S4 V8 V3)|]. nxt Y8.
  eapply rule_bind; [exact (r_add _ _ _ _ _ _ S5 V0 V2)|]. nxt Y3.
  eapply rule_bind; [exact (r_sub _ _ _ _ _ _ S6 V0 V2)|]. nxt D0.
  eapply rule_bind; [exact (r_rot _ _ add _ _ _ _ _ _ _ _ S7 CX (fun h w S A B => r_add h w _ _ _ _ S A B) Y4 Y5)|]. nxt Y2.
  eapply rule_bind; [exact (r_rot _ _ sub _ _ _ _ _ _ _ _ S8 CX (fun h w S A B => r_sub h w _ _ _ _ S A B) Y4 Y5)|]. nxt D4.
  apply wp_ret; [exact S9|]. split; [assumption|].
  intros j Hj. unfold butter. byj j Hj ltac:(cbn [nth]; assumption).
Qed.
Lemma pow11 x : - 4096 <= x < 4096 -> - 2147483648 <= x * 2 ^ 11 < 2147483648.
Proof. change (2 ^ 11) with 2048. lia. Qed.
Lemma pow8 x : - 4096 <= x < 4096 -> - 2147483648 <= x * 2 ^ 8 < 2147483648.
Proof. change (2 ^ 8) with 256. lia. Qed.
Lemma wrap_13 n x : 0 < n <= 13 -> - 4096 <= wrap n x < 4096.
Proof. intro H. pose proof (wrap_range n x ltac:(lia)). pose proof (Z.pow_le_mono_r 2 (n - 1) 12 ltac:(lia) ltac:(lia)). change (2 ^ 12) with 4096 in *. lia. Qed.
(** the eight results *)
Lemma r_outs h w C bt it l b n (scl : (nat -> nat -> prog nat) -> nat -> nat -> prog nat) t g : st h w -> ctx w k C bt it -> (forall j, (j < 8)%nat -> v32 w (nth j l 0%nat) (fun i => nth j (b i) 0)) ->
  (forall o f h w a c x y, (forall a b x y h w, st h w -> v32 w a x -> v32 w b y -> wp h w (o a b) (fun w' r => sfr w w' /\ v32 w' r (fun i => f (x i) (y i)))) -> st h w -> ctx w k C bt it -> v32 w a x -> v32 w c y ->
     wp h w (scl o a c) (fun w' r => sfr w w' /\ svar e w' k r t (fun i => g (wrap 32 (f (x i) (y i)) / 2 ^ n)))) ->
  wp h w (do r0 <- scl add (nth 0 l 0%nat) (nth 1 l 0%nat); do r1 <- scl add (nth 2 l 0%nat) (nth 3 l 0%nat); do r2 <- scl add (nth 4 l 0%nat) (nth 5 l 0%nat); do r3 <- scl add (nth 6 l 0%nat) (nth 7 l 0%nat);
          do r4 <- scl sub (nth 6 l 0%nat) (nth 7 l 0%nat); do r5 <- scl sub (nth 4 l 0%nat) (nth 5 l 0%nat); do r6 <- scl sub (nth 2 l 0%nat) (nth 3 l 0%nat); do r7 <- scl sub (nth 0 l 0%nat) (nth 1 l 0%nat); Ret [r0; r1; r2; r3; r4; r5; r6; r7])
    (fun w' rs => sfr w w' /\ length rs = 8%nat /\ forall j, (j < 8)%nat -> svar e w' k (nth j rs 0%nat) t (fun i => g (outs n (b i) j))).
Proof.
  intros S CX V RA. pose proof (sfr_refl w) as FR0.
  pose proof (fun h w a c x y => RA add Z.add h w a c x y (fun a b x y h w => r_add h w a b x y)) as RS. pose proof (fun h w a c x y => RA sub Z.sub h w a c x y (fun a b x y h w => r_sub h w a b x y)) as RD. clear RA.
  assert (B : forall i1 i2, (i1 < 8)%nat -> (i2 < 8)%nat -> (i1 < 8)%nat /\ (i2 < 8)%nat) by auto. clear B.
  eapply rule_bind; [exact (RS _ _ _ _ _ _ S CX (V 0%nat ltac:(lia)) (V 1%nat ltac:(lia)))|]. nxt Y0.
  eapply rule_bind; [exact (RS _ _ _ _ _ _ S0 CX (V 2%nat ltac:(lia)) (V 3%nat ltac:(lia)))|]. nxt Y1.
  eapply rule_bind; [exact (RS _ _ _ _ _ _ S1 CX (V 4%nat ltac:(lia)) (V 5%nat ltac:(lia)))|]. nxt Y2.
  eapply rule_bind; [exact (RS _ _ _ _ _ _ S2 CX (V 6%nat ltac:(lia)) (V 7%nat ltac:(lia)))|]. nxt Y3.
  eapply rule_bind; [exact (RD _ _ _ _ _ _ S3 CX (V 6%nat ltac:(lia)) (V 7%nat ltac:(lia)))|]. nxt Y4.
  eapply rule_bind; [exact (RD _ _ _ _ _ _ S4 CX (V 4%nat ltac:(lia)) (V 5%nat ltac:(lia)))|]. nxt Y5.
  eapply rule_bind; [exact (RD _ _ _ _ _ _ S5 CX (V 2%nat ltac:(lia)) (V 3%nat ltac:(lia)))|]. nxt Y6.
  eapply rule_bind; [exact (RD _ _ _ _ _ _ S6 CX (V 0%nat ltac:(lia)) (V 1%nat ltac:(lia)))|]. nxt Y7.
  apply wp_ret; [exact S7|]. split; [assumption|]. split; [reflexivity|].
  intros j Hj. unfold outs. byj j Hj ltac:(cbn [nth]; assumption).
Qed.
Lemma r_row h w C bt it v X t s W : st h w -> ctx w k C bt it -> itype t s W -> t <> T32 -> W <= 12 -> (forall j, (j < 8)%nat -> svar e w k (nth j v 0%nat) t (X j)) ->
  wp h w (row_pass C bt it v) (fun w' rs => sfr w w' /\ length rs = 8%nat /\ forall j, (j < 8)%nat -> svar e w' k (nth j rs 0%nat) T13 (fun i => idct_row (fun c => wrap W (X c i)) j)).
Proof.
  intros S CX IT NE HW V. pose proof (it_b _ _ _ IT) as WB. unfold row_pass. cbv zeta. pose proof (sfr_refl w) as FR0.
  pose proof (V 0%nat ltac:(lia)) as V0. pose proof (V 1%nat ltac:(lia)) as V1. pose proof (V 2%nat ltac:(lia)) as V2. pose proof (V 3%nat ltac:(lia)) as V3. pose proof (V 4%nat ltac:(lia)) as V4. pose proof (V 5%nat ltac:(lia)) as V5. pose proof (V 6%nat ltac:(lia)) as V6. pose proof (V 7%nat ltac:(lia)) as V7. clear V.
  Ltac rcast S CX V IT NE := eapply rule_bind; [exact (r_cast32 _ _ _ _ _ _ _ _ S V IT (cx_bt _ _ _ _ _ CX) NE)|].
  rcast S CX V0 IT NE. nxt A0.
  eapply rule_bind; [apply (r_shl _ _ _ _ 11 S0 A0); [lia|intros i _; apply pow11, wrap_13; lia]|]. nxt B0.
  eapply rule_bind; [apply (r_addc _ _ _ _ _ 128 S1 B0 (cx_128 _ _ _ _ _ CX)); lia|]. nxt X0.
  rcast S2 CX V4 IT NE. nxt A1.
  eapply rule_bind; [apply (r_shl _ _ _ _ 11 S3 A1); [lia|intros i _; apply pow11, wrap_13; lia]|]. nxt X1.
  rcast S4 CX V6 IT NE. nxt X2. rcast S5 CX V2 IT NE. nxt X3. rcast S6 CX V1 IT NE. nxt X4. rcast S7 CX V7 IT NE. nxt X5. rcast S8 CX V5 IT NE. nxt X6. rcast S9 CX V3 IT NE. nxt X7.
  clear V0 V1 V2 V3 V4 V5 V6 V7 A0 B0 A1.
  eapply rule_bind; [exact (r_add _ _ _ _ _ _ S10 X4 X5)|]. nxt s1.
  eapply rule_bind; [apply (r_mulc _ _ _ _ _ 565 S11 s1 (cx_w7 _ _ _ _ _ CX)); lia|]. nxt P.
  eapply rule_bind; [exact (r_csub _ _ _ _ 2841 565 2276 S12 (cx_top _ _ _ _ _ CX) (cx_w1 _ _ _ _ _ CX) (cx_w7 _ _ _ _ _ CX) eq_refl)|]. nxt d1.
  eapply rule_bind; [apply (r_mulc _ _ _ _ _ 2276 S13 X4 d1); lia|]. nxt m1.
  eapply rule_bind; [exact (r_add _ _ _ _ _ _ S14 P m1)|]. nxt Y4.
  eapply rule_bind; [exact (r_cadd _ _ _ _ 2841 565 3406 S15 (cx_top _ _ _ _ _ CX) (cx_w1 _ _ _ _ _ CX) (cx_w7 _ _ _ _ _ CX) eq_refl)|]. nxt d2.
  eapply rule_bind; [apply (r_mulc _ _ _ _ _ 3406 S16 X5 d2); lia|]. nxt m2.
  eapply rule_bind; [exact (r_sub _ _ _ _ _ _ S17 P m2)|]. nxt Y5.
  eapply rule_bind; [exact (r_add _ _ _ _ _ _ S18 X6 X7)|]. nxt s2.
  eapply rule_bind; [apply (r_mulc _ _ _ _ _ 2408 S19 s2 (cx_w3 _ _ _ _ _ CX)); lia|]. nxt Q.
  eapply rule_bind; [exact (r_csub _ _ _ _ 2408 1609 799 S20 (cx_top _ _ _ _ _ CX) (cx_w3 _ _ _ _ _ CX) (cx_w5 _ _ _ _ _ CX) eq_refl)|]. nxt d3.
  eapply rule_bind; [apply (r_mulc _ _ _ _ _ 799 S21 X6 d3); lia|]. nxt m3.
  eapply rule_bind; [exact (r_sub _ _ _ _ _ _ S22 Q m3)|]. nxt Y6.
  eapply rule_bind; [exact (r_cadd _ _ _ _ 2408 1609 4017 S23 (cx_top _ _ _ _ _ CX) (cx_w3 _ _ _ _ _ CX) (cx_w5 _ _ _ _ _ CX) eq_refl)|]. nxt d4.
  eapply rule_bind; [apply (r_mulc _ _ _ _ _ 4017 S24 X7 d4); lia|]. nxt m4.
  eapply rule_bind; [exact (r_sub _ _ _ _ _ _ S25 Q m4)|]. nxt Y7.
  eapply rule_bind; [exact (r_add _ _ _ _ _ _ S26 X0 X1)|]. nxt Y8.
  eapply rule_bind; [exact (r_sub _ _ _ _ _ _ S27 X0 X1)|]. nxt Y0.
  eapply rule_bind; [exact (r_add _ _ _ _ _ _ S28 X3 X2)|]. nxt s3.
  eapply rule_bind; [apply (r_mulc _ _ _ _ _ 1108 S29 s3 (cx_w6 _ _ _ _ _ CX)); lia|]. nxt R.
  eapply rule_bind; [exact (r_cadd _ _ _ _ 2676 1108 3784 S30 (cx_top _ _ _ _ _ CX) (cx_w2 _ _ _ _ _ CX) (cx_w6 _ _ _ _ _ CX) eq_refl)|]. nxt d5.
  eapply rule_bind; [apply (r_mulc _ _ _ _ _ 3784 S31 X2 d5); lia|]. nxt m5.
  eapply rule_bind; [exact (r_sub _ _ _ _ _ _ S32 R m5)|]. nxt Y2.
  eapply rule_bind; [exact (r_csub _ _ _ _ 2676 1108 1568 S33 (cx_top _ _ _ _ _ CX) (cx_w2 _ _ _ _ _ CX) (cx_w6 _ _ _ _ _ CX) eq_refl)|]. nxt d6.
  eapply rule_bind; [apply (r_mulc _ _ _ _ _ 1568 S34 X3 d6); lia|]. nxt m6.
  eapply rule_bind; [exact (r_add _ _ _ _ _ _ S35 R m6)|]. nxt Y3.
  clear s1 d1 m1 d2 m2 s2 d3 m3 d4 m4 s3 d5 m5 d6 m6 P Q R X0 X1 X2 X3 X4 X5 X6 X7.
  eapply rule_bind; [exact (r_butterfly _ _ _ _ _ _ _ _ _ _ _ _ _ _ _ _ _ _ _ _ _ S36 CX Y8 Y0 Y2 Y3 Y4 Y5 Y6 Y7)|]. nxt V.
  eapply wp_conseq; [apply (r_outs _ _ C bt it r36 (fun i => row_hw (fun c => wrap W (X c i))) 8 (fun o x y => scale o x y 8 it) T13 (fun z => z) S37 CX V)|].
  { intros o f h' w' a c x y Ho S' CX' A B. exact (r_scale h' w' o a c x y 8 C bt it _ S' CX' ltac:(lia) (fun h w => Ho _ _ _ _ h w) A B). }
  cbn beta. intros w' rs (FR & LR & VR). split; [exact (sfr_trans _ _ _ FR0 FR)|]. split; [exact LR|]. intros j Hj. eapply svar_cong; [|exact (VR j Hj)].
  intros i _. cbn beta. change (total_bits T13) with 13. rewrite <- (row_hw_spec (fun c => wrap W (X c i)) j); [|intros c _; pose proof (wrap_range W (X c i) ltac:(lia)); pose proof (Z.pow_le_mono_r 2 (W - 1) 11 ltac:(lia) ltac:(lia)); change (2 ^ 11) with 2048 in *; lia|exact Hj].
  rewrite wrap_mod by lia. reflexivity.
Qed.
(** *** the clip *)
Notation U2 := (TFixed false 2 0).
Definition IU2 : itype U2 false 2 := itype_uint 2 ltac:(lia).
Lemma r_dfUInt2 h w : st h w -> wp h w (dfUInt 2) (fun w' ty => sfr w w' /\ w_types w' !! ty = Some U2).
Proof. intro S. apply (srule_type F h w U2 S). cbn. lia. Qed.
Lemma r_iclp h w C bt it v x : st h w -> ctx w k C bt it -> svar e w k v T13 x -> wp h w (iclp k v (cM256 C) (c255 C)) (fun w' r => sfr w w' /\ svar e w' k r T13 (fun i => clip9 (wrap 13 (x i)))).
Proof.
  intros S CX V. unfold iclp. pose proof (sfr_refl w) as FR0.
  eapply rule_bind; [exact (r_dfUInt2 h w S)|]. nxt TY.
  assert (KA : forall w, ctx w k C bt it -> sarg e w k (cM256 C) T13 (fun _ => -256) /\ sarg e w k (c255 C) T13 (fun _ => 255)).
  { intros w' CX'. pose proof (const_sarg e _ k _ _ _ _ _ (cx_m256 _ _ _ _ _ CX') I13) as AL. pose proof (const_sarg e _ k _ _ _ _ _ (cx_255 _ _ _ _ _ CX') I13) as AR.
    change (num true 64 (-256 mod 2 ^ 64)) with (-256) in AL. change (num true 64 255) with 255 in AR. auto. }
  eapply rule_bind; [exact (srule_compare F e _ _ k GREATEREQ _ _ T13 13 x (fun _ => -256) S0 eq_refl V (proj1 (KA _ CX)) I13)|]. nxt G1.
  eapply rule_bind; [apply (srule_cast F e _ _ k _ (TFixed false 1 0) false 1 _ _ U2 false 2 S1 G1 (itype_uint 1 ltac:(lia)) TY IU2); discriminate|]. nxt C1.
  eapply rule_bind; [exact (srule_compare F e _ _ k GREATER _ _ T13 13 x (fun _ => 255) S2 eq_refl V (proj2 (KA _ CX)) I13)|]. nxt G2.
  eapply rule_bind; [apply (srule_cast F e _ _ k _ (TFixed false 1 0) false 1 _ _ U2 false 2 S3 G2 (itype_uint 1 ltac:(lia)) TY IU2); discriminate|]. nxt C2.
  apply (svar_ext _ _ _ _ _ _ (fun i => if -256 <=? wrap 13 (x i) then 1 else 0)) in C1.
  2:{ intros i _. cbn [bin_math]. rewrite !wrap_num by lia. change (wrap 13 (-256)) with (-256). destruct (_ <=? _); reflexivity. }
  apply (svar_ext _ _ _ _ _ _ (fun i => if 255 <? wrap 13 (x i) then 1 else 0)) in C2.
  2:{ intros i _. cbn [bin_math]. rewrite !wrap_num by lia. change (wrap 13 255) with 255. destruct (_ <? _); reflexivity. }
  clear G1 G2.
  eapply rule_bind; [exact (srule_arith F e _ _ k ADD _ _ U2 false 2 _ _ S4 eq_refl C1 (proj1 C2) IU2)|]. nxt M.
  destruct (KA _ CX) as [AL AR].
  assert (LT : forall i, 0 <= i -> 0 <= (if -256 <=? wrap 13 (x i) then 1 else 0) + (if 255 <? wrap 13 (x i) then 1 else 0) < 3) by (intros i _; destruct (_ <=? _), (_ <? _); lia).
  eapply wp_conseq; [apply (srule_mux F e _ _ k _ U2 2 _ [cM256 C; v; c255 C] T13 true 13 [(fun _ => -256); x; (fun _ => 255)] S5 M IU2)|].
  - constructor; [exact AL|]. constructor; [exact (proj1 V)|]. constructor; [exact AR|constructor].
  - exact I13.
  - discriminate.
  - cbn. lia.
  - intros i Hi. specialize (LT i Hi). cbn [bin_math length]. change (2 ^ 2) with 4. lia.
  - cbn beta. intros w' q (FR & Z). split; [exact (sfr_trans _ _ _ FR0 FR)|]. eapply svar_cong; [|exact Z]. intros i _. cbn [bin_math]. change (total_bits T13) with 13.
    unfold clip9. pose proof (wrap_mod 13 (x i) ltac:(lia)) as WM.
    destruct (Z.leb_spec (-256) (wrap 13 (x i))), (Z.ltb_spec 255 (wrap 13 (x i))); cbn -[wrap Z.modulo Z.pow Z.max Z.min].
    + rewrite Z.min_r by lia. reflexivity.
    + rewrite Z.min_l, Z.max_r by lia. symmetry. exact WM.
    + lia.
    + rewrite Z.min_l, Z.max_l by lia. reflexivity.
Qed.
Lemma r_col h w C bt it v X t s W : st h w -> ctx w k C bt it -> itype t s W -> t <> T32 -> W <= 13 -> (forall j, (j < 8)%nat -> svar e w k (nth j v 0%nat) t (X j)) ->
  wp h w (col_pass C k bt it v) (fun w' rs => sfr w w' /\ length rs = 8%nat /\ forall j, (j < 8)%nat -> svar e w' k (nth j rs 0%nat) T13 (fun i => idct_col (fun c => wrap W (X c i)) j)).
Proof.
  intros S CX IT NE HW V. pose proof (it_b _ _ _ IT) as WB. unfold col_pass. cbv zeta. pose proof (sfr_refl w) as FR0.
  pose proof (V 0%nat ltac:(lia)) as V0. pose proof (V 1%nat ltac:(lia)) as V1. pose proof (V 2%nat ltac:(lia)) as V2. pose proof (V 3%nat ltac:(lia)) as V3. pose proof (V 4%nat ltac:(lia)) as V4. pose proof (V 5%nat ltac:(lia)) as V5. pose proof (V 6%nat ltac:(lia)) as V6. pose proof (V 7%nat ltac:(lia)) as V7. clear V.
  rcast S CX V0 IT NE. nxt A0.
  eapply rule_bind; [apply (r_shl _ _ _ _ 8 S0 A0); [lia|intros i _; apply pow8, wrap_13; lia]|]. nxt B0.
  eapply rule_bind; [apply (r_addc _ _ _ _ _ 8192 S1 B0 (cx_8192 _ _ _ _ _ CX)); lia|]. nxt X0.
  rcast S2 CX V4 IT NE. nxt A1.
  eapply rule_bind; [apply (r_shl _ _ _ _ 8 S3 A1); [lia|intros i _; apply pow8, wrap_13; lia]|]. nxt X1.
  rcast S4 CX V6 IT NE. nxt X2. rcast S5 CX V2 IT NE. nxt X3. rcast S6 CX V1 IT NE. nxt X4. rcast S7 CX V7 IT NE. nxt X5. rcast S8 CX V5 IT NE. nxt X6. rcast S9 CX V3 IT NE. nxt X7.
  clear V0 V1 V2 V3 V4 V5 V6 V7 A0 B0 A1.
  eapply rule_bind; [exact (r_add _ _ _ _ _ _ S10 X4 X5)|]. nxt s1.
  eapply rule_bind; [apply (r_mulc _ _ _ _ _ 565 S11 s1 (cx_w7 _ _ _ _ _ CX)); lia|]. nxt P0.
  eapply rule_bind; [apply (r_addc _ _ _ _ _ 4 S12 P0 (cx_4 _ _ _ _ _ CX)); lia|]. nxt P.
  eapply rule_bind; [exact (r_csub _ _ _ _ 2841 565 2276 S13 (cx_top _ _ _ _ _ CX) (cx_w1 _ _ _ _ _ CX) (cx_w7 _ _ _ _ _ CX) eq_refl)|]. nxt d1.
  eapply rule_bind; [apply (r_mulc _ _ _ _ _ 2276 S14 X4 d1); lia|]. nxt m1.
  eapply rule_bind; [exact (r_add _ _ _ _ _ _ S15 P m1)|]. nxt q1.
  eapply rule_bind; [apply (r_shr _ _ _ _ 3 S16 q1); lia|]. nxt Y4.
  eapply rule_bind; [exact (r_cadd _ _ _ _ 2841 565 3406 S17 (cx_top _ _ _ _ _ CX) (cx_w1 _ _ _ _ _ CX) (cx_w7 _ _ _ _ _ CX) eq_refl)|]. nxt d2.
  eapply rule_bind; [apply (r_mulc _ _ _ _ _ 3406 S18 X5 d2); lia|]. nxt m2.
  eapply rule_bind; [exact (r_sub _ _ _ _ _ _ S19 P m2)|]. nxt q2.
  eapply rule_bind; [apply (r_shr _ _ _ _ 3 S20 q2); lia|]. nxt Y5.
  eapply rule_bind; [exact (r_add _ _ _ _ _ _ S21 X6 X7)|]. nxt s2.
  eapply rule_bind; [apply (r_mulc _ _ _ _ _ 2408 S22 s2 (cx_w3 _ _ _ _ _ CX)); lia|]. nxt Q0.
  eapply rule_bind; [apply (r_addc _ _ _ _ _ 4 S23 Q0 (cx_4 _ _ _ _ _ CX)); lia|]. nxt Q.
  eapply rule_bind; [exact (r_csub _ _ _ _ 2408 1609 799 S24 (cx_top _ _ _ _ _ CX) (cx_w3 _ _ _ _ _ CX) (cx_w5 _ _ _ _ _ CX) eq_refl)|]. nxt d3.
  eapply rule_bind; [apply (r_mulc _ _ _ _ _ 799 S25 X6 d3); lia|]. nxt m3.
  eapply rule_bind; [exact (r_sub _ _ _ _ _ _ S26 Q m3)|]. nxt q3.
  eapply rule_bind; [apply (r_shr _ _ _ _ 3 S27 q3); lia|]. nxt Y6.
  eapply rule_bind; [exact (r_cadd _ _ _ _ 2408 1609 4017 S28 (cx_top _ _ _ _ _ CX) (cx_w3 _ _ _ _ _ CX) (cx_w5 _ _ _ _ _ CX) eq_refl)|]. nxt d4.
  eapply rule_bind; [apply (r_mulc _ _ _ _ _ 4017 S29 X7 d4); lia|]. nxt m4.
  eapply rule_bind; [exact (r_sub _ _ _ _ _ _ S30 Q m4)|]. nxt q4.
  eapply rule_bind; [apply (r_shr _ _ _ _ 3 S31 q4); lia|]. nxt Y7.
  eapply rule_bind; [exact (r_add _ _ _ _ _ _ S32 X0 X1)|]. nxt Y8.
  eapply rule_bind; [exact (r_sub _ _ _ _ _ _ S33 X0 X1)|]. nxt Y0.
  eapply rule_bind; [exact (r_add _ _ _ _ _ _ S34 X3 X2)|]. nxt s3.
  eapply rule_bind; [apply (r_mulc _ _ _ _ _ 1108 S35 s3 (cx_w6 _ _ _ _ _ CX)); lia|]. nxt R0.
  eapply rule_bind; [apply (r_addc _ _ _ _ _ 4 S36 R0 (cx_4 _ _ _ _ _ CX)); lia|]. nxt R.
  eapply rule_bind; [exact (r_cadd _ _ _ _ 2676 1108 3784 S37 (cx_top _ _ _ _ _ CX) (cx_w2 _ _ _ _ _ CX) (cx_w6 _ _ _ _ _ CX) eq_refl)|]. nxt d5.
  eapply rule_bind; [apply (r_mulc _ _ _ _ _ 3784 S38 X2 d5); lia|]. nxt m5.
  eapply rule_bind; [exact (r_sub _ _ _ _ _ _ S39 R m5)|]. nxt q5.
  eapply rule_bind; [apply (r_shr _ _ _ _ 3 S40 q5); lia|]. nxt Y2.
  eapply rule_bind; [exact (r_csub _ _ _ _ 2676 1108 1568 S41 (cx_top _ _ _ _ _ CX) (cx_w2 _ _ _ _ _ CX) (cx_w6 _ _ _ _ _ CX) eq_refl)|]. nxt d6.
  eapply rule_bind; [apply (r_mulc _ _ _ _ _ 1568 S42 X3 d6); lia|]. nxt m6.
  eapply rule_bind; [exact (r_add _ _ _ _ _ _ S43 R m6)|]. nxt q6.
  eapply rule_bind; [apply (r_shr _ _ _ _ 3 S44 q6); lia|]. nxt Y3.
  clear s1 d1 m1 d2 m2 s2 d3 m3 d4 m4 s3 d5 m5 d6 m6 P0 P Q0 Q R0 R q1 q2 q3 q4 q5 q6 X0 X1 X2 X3 X4 X5 X6 X7.
  eapply rule_bind; [exact (r_butterfly _ _ _ _ _ _ _ _ _ _ _ _ _ _ _ _ _ _ _ _ _ S45 CX Y8 Y0 Y2 Y3 Y4 Y5 Y6 Y7)|]. nxt V.
  eapply wp_conseq; [apply (r_outs _ _ C bt it r45 (fun i => col_hw (fun c => wrap W (X c i))) 14 (fun o x y => do s <- scale o x y 14 it; iclp k s (cM256 C) (c255 C)) T13 (fun z => clip9 (wrap 13 z)) S46 CX V)|].
  { clear. intros o f h' w' a c x y Ho S' CX' A B. pose proof (sfr_refl w') as FR0. eapply rule_bind; [exact (r_scale h' w' o a c x y 14 C bt it _ S' CX' ltac:(lia) (fun h w => Ho _ _ _ _ h w) A B)|]. nxt Q.
    eapply wp_conseq; [exact (r_iclp _ _ C bt it _ _ S CX' Q)|]. cbn beta. intros w1 q (FR & Z'). split; [exact (sfr_trans _ _ _ FR0 FR)|exact Z']. }
  cbn beta. intros w' rs (FR & LR & VR). split; [exact (sfr_trans _ _ _ FR0 FR)|]. split; [exact LR|]. intros j Hj. eapply svar_ext; [|exact (VR j Hj)].
  intros i _. cbn beta. unfold idct_col. rewrite (col_hw_spec (fun c => wrap W (X c i)) j); [reflexivity|intros c _; apply wrap_13; lia|exact Hj].
Qed.

(** *** the loops over the block *)
Lemma nth_insert (l : list nat) i x n : (i < length l)%nat -> nth n (<[i:=x]> l) 0%nat = if decide (n = i) then x else nth n l 0%nat.
Proof.
  intro H. rewrite !nth_lookup. destruct (decide (n = i)) as [->|N]; [rewrite list_lookup_insert by exact H; reflexivity|rewrite list_lookup_insert_ne by congruence; reflexivity].
Qed.
Lemma writes_length (at_ : nat -> nat) (l rs : list nat) : length (writes at_ l rs) = length l.
Proof.
  unfold writes. generalize (zip (seq 0 8) rs). intro z. revert l. induction z as [|p z IH]; intro l; [reflexivity|]. cbn [fold_left]. rewrite IH, insert_length. reflexivity.
Qed.
Lemma writes_at (at_ : nat -> nat) (l rs : list nat) n : (forall j, (j < 8)%nat -> (at_ j < length l)%nat) -> (forall i j, (i < 8)%nat -> (j < 8)%nat -> at_ i = at_ j -> i = j) -> length rs = 8%nat ->
  (forall j, (j < 8)%nat -> n = at_ j -> nth n (writes at_ l rs) 0%nat = nth j rs 0%nat) /\ ((forall j, (j < 8)%nat -> n <> at_ j) -> nth n (writes at_ l rs) 0%nat = nth n l 0%nat).
Proof.
  intros HB HI LR. do 8 (destruct rs as [|? rs]; [discriminate LR|]). destruct rs; [|discriminate LR]. unfold writes. cbn [seq zip zip_with fold_left fst snd].
  split.
  - intros j Hj ->. rewrite !nth_insert by (rewrite ?insert_length; apply HB; lia).
    assert (Q : forall i, (i < 8)%nat -> at_ j = at_ i -> j = i) by (intros i Hi E; apply HI; auto).
    byj j Hj ltac:(repeat match goal with |- context [decide (?a = ?b)] => let E := fresh in destruct (decide (a = b)) as [E|E]; [try (apply Q in E; [discriminate E|lia])|try (exfalso; apply E; reflexivity)] end; reflexivity).
  - intro N. rewrite !nth_insert by (rewrite ?insert_length; apply HB; lia).
    repeat match goal with |- context [decide (?a = ?b)] => rewrite (decide_False (P := a = b)) by (apply N; lia) end. reflexivity.
Qed.
Lemma reads_nth (at_ : nat -> nat) (values : list nat) j : (j < 8)%nat -> nth j (reads at_ values) 0%nat = nth (at_ j) values 0%nat.
Proof. intro Hj. unfold reads. rewrite (nth_indep _ 0%nat (nth (at_ 0%nat) values 0%nat)) by (cbn; exact Hj). rewrite (map_nth (fun j => nth (at_ j) values 0%nat) (seq 0 8) 0%nat j), seq_nth by exact Hj. reflexivity. Qed.
Definition cells (w : world) (values : list nat) (T : nat -> dftype) (V : nat -> Z -> Z) : Prop := length values = 64%nat /\ forall n, (n < 64)%nat -> svar e w k (nth n values 0%nat) (T n) (V n).
Lemma cells_sfr w w' values T V : sfr w w' -> cells w values T V -> cells w' values T V.
Proof. intros FR [L H]. split; [exact L|]. intros n Hn. exact (svar_sfr _ _ _ _ _ _ _ FR (H n Hn)). Qed.
Record indexing (at_ : nat -> nat -> nat) (grp pos : nat -> nat) : Prop := {
  ix_at : forall n, (n < 64)%nat -> at_ (grp n) (pos n) = n; ix_grp : forall i j, (i < 8)%nat -> (j < 8)%nat -> grp (at_ i j) = i; ix_pos : forall i j, (i < 8)%nat -> (j < 8)%nat -> pos (at_ i j) = j;
  ix_lt : forall i j, (i < 8)%nat -> (j < 8)%nat -> (at_ i j < 64)%nat; ix_pos8 : forall n, (n < 64)%nat -> (pos n < 8)%nat; ix_grp8 : forall n, (n < 64)%nat -> (grp n < 8)%nat
}.
Lemma rows_indexing : indexing row_at (fun n => n / 8)%nat (fun n => n mod 8)%nat.
Proof.
  unfold row_at, DIM. constructor; intros.
  - symmetry. apply Nat.div_mod. discriminate.
  - symmetry. apply (Nat.div_unique _ 8 i j); lia.
  - symmetry. apply (Nat.mod_unique _ 8 i j); lia.
  - lia.
  - apply Nat.mod_upper_bound. discriminate.
  - apply Nat.div_lt_upper_bound; lia.
Qed.
Lemma cols_indexing : indexing col_at (fun n => n mod 8)%nat (fun n => n / 8)%nat.
Proof.
  unfold col_at, DIM. constructor; intros.
  - symmetry. apply Nat.div_mod. discriminate.
  - symmetry. apply (Nat.mod_unique _ 8 j i); lia.
  - symmetry. apply (Nat.div_unique _ 8 j i); lia.
  - lia.
  - apply Nat.div_lt_upper_bound; lia.
  - apply Nat.mod_upper_bound. discriminate.
Qed.
Lemma r_loop h w C bt it values at_ grp pos (p : list nat -> prog (list nat)) t t' (G : (nat -> Z -> Z) -> nat -> Z -> Z) V : st h w -> ctx w k C bt it -> indexing at_ grp pos -> cells w values (fun _ => t) V ->
  (forall h w v X, st h w -> ctx w k C bt it -> (forall j, (j < 8)%nat -> svar e w k (nth j v 0%nat) t (X j)) ->
     wp h w (p v) (fun w' rs => sfr w w' /\ length rs = 8%nat /\ forall j, (j < 8)%nat -> svar e w' k (nth j rs 0%nat) t' (G X j))) ->
  wp h w (pfold (fun values i => do r <- p (reads (at_ i) values); Ret (writes (at_ i) values r)) values (seq 0 DIM))
    (fun w' values' => sfr w w' /\ cells w' values' (fun _ => t') (fun n => G (fun j => V (at_ (grp n) j)) (pos n))).
Proof.
  intros S CX IX CE HP.
  set (Inv := fun (l : list nat) (w' : world) (vs : list nat) => exists m, (m <= 8)%nat /\ l = seq m (8 - m) /\ sfr w w' /\ ctx w' k C bt it /\
    cells w' vs (fun n => if (grp n <? m)%nat then t' else t) (fun n => if (grp n <? m)%nat then G (fun j => V (at_ (grp n) j)) (pos n) else V n)).
  eapply wp_conseq; [apply (rule_fold F true _ Inv); [|exact S|]|].
  - intros a l h' w' vs S' (m & Hm & EL & FR & CX' & LV & CV). destruct (8 - m)%nat as [|r] eqn:E8; [discriminate EL|]. cbn [seq] in EL. injection EL as -> ->.
    eapply rule_bind; [apply (HP _ _ _ (fun j => V (at_ m j)) S' CX')|].
    { intros j Hj. rewrite reads_nth by exact Hj. pose proof (CV (at_ m j) ltac:(apply (ix_lt _ _ _ IX); lia)) as Q. rewrite (ix_grp _ _ _ IX) in Q by lia. replace (m <? m)%nat with false in Q by (symmetry; apply Nat.ltb_ge; lia). exact Q. }
    cbn beta. intros h1 w1 rs S1 (FR1 & LR & VR). apply wp_ret; [exact S1|]. exists (Datatypes.S m). split; [lia|]. split; [f_equal; lia|]. split; [exact (sfr_trans _ _ _ FR FR1)|]. split; [exact (ctx_sfr _ _ _ _ _ _ FR1 CX')|].
    split; [rewrite writes_length; exact LV|]. intros n Hn.
    destruct (writes_at (at_ m) vs rs n) as [W1 W2]; [intros j Hj; rewrite LV; apply (ix_lt _ _ _ IX); lia|intros i j Hi Hj E; rewrite <- (ix_pos _ _ _ IX m i), <- (ix_pos _ _ _ IX m j) by lia; congruence|exact LR|].
    destruct (decide (grp n = m)) as [EG|NG].
    + assert (EN : n = at_ m (pos n)) by (rewrite <- EG; symmetry; exact (ix_at _ _ _ IX n Hn)). rewrite (W1 (pos n) (ix_pos8 _ _ _ IX n Hn) EN). replace (grp n <? Datatypes.S m)%nat with true by (symmetry; apply Nat.ltb_lt; lia). rewrite EG.
      exact (VR (pos n) (ix_pos8 _ _ _ IX n Hn)).
    + rewrite W2 by (intros j Hj ->; apply NG, (ix_grp _ _ _ IX); lia). pose proof (CV n Hn) as Q. apply (svar_sfr _ _ _ _ _ _ _ FR1) in Q.
      replace (grp n <? Datatypes.S m)%nat with (grp n <? m)%nat; [exact Q|]. destruct (Nat.ltb_spec (grp n) m), (Nat.ltb_spec (grp n) (Datatypes.S m)); lia.
  - exists 0%nat. split; [lia|]. split; [reflexivity|]. split; [apply sfr_refl|]. split; [exact CX|]. destruct CE as [L CE]. split; [exact L|]. intros n Hn. exact (CE n Hn).
  - cbn beta. intros w' vs (m & Hm & EL & FR & _ & LV & CV). assert (m = 8%nat) as -> by (destruct (8 - m)%nat eqn:E8; [lia|discriminate EL]). split; [exact FR|]. split; [exact LV|]. intros n Hn. pose proof (CV n Hn) as Q.
    replace (grp n <? 8)%nat with true in Q by (symmetry; apply Nat.ltb_lt, (ix_grp8 _ _ _ IX n Hn)). exact Q.
Qed.

(** *** the other parts of the constructor *)
Lemma df_int_rule h w n : st h w -> 0 < n < 65536 -> wp h w (df_int n) (fun w' ty => sfr w w' /\ w_types w' !! ty = Some (TFixed true (n - 1) 0)).
Proof.
  intros S Hn. unfold df_int. assert (E : mkFixed true (u16 n - 1) 0 = TFixed true (n - 1) 0) by (unfold mkFixed, u16; rewrite (Z.mod_small n), (Z.mod_small (n - 1)), (Z.mod_small 0) by lia; reflexivity).
  rewrite E. apply (srule_type F h w _ S). cbn. lia.
Qed.
Lemma df_raw_rule h w n : st h w -> 0 < n < 65536 -> wp h w (df_raw n) (fun w' ty => sfr w w' /\ w_types w' !! ty = Some (TRaw n)).
Proof.
  intros S Hn. unfold df_raw. assert (E : mkRaw n = TRaw n) by (unfold mkRaw, u16; rewrite (Z.mod_small n) by lia; reflexivity).
  rewrite E. apply (srule_type F h w _ S). cbn. lia.
Qed.
Lemma r_const h w ty i W c : st h w -> w_types w !! ty = Some (TFixed true i 0) -> is_Some (w_top w) -> itype (TFixed true i 0) true W -> 0 <= c < 2 ^ 64 -> wp h w (const_var ty c) (fun w' r => sfr w w' /\ const_of w' r (TFixed true i 0) c).
Proof. intros S HT TP IT Hc. pose proof (srule_const F h w ty i c true W S HT IT TP) as R. rewrite (Z.mod_small c) in R by exact Hc. exact R. Qed.
Lemma r_const13m h w ty : st h w -> w_types w !! ty = Some T13 -> is_Some (w_top w) -> wp h w (const_var ty (-256)) (fun w' r => sfr w w' /\ const_of w' r T13 (- 256 mod 2 ^ 64)).
Proof. intros S HT TP. exact (srule_const F h w ty 12 (-256) true 13 S HT I13 TP). Qed.
Lemma top_sfr w w' : sfr w w' -> is_Some (w_top w) -> is_Some (w_top w').
Proof. intros FR. exact (top_frame w w' (sf_frame _ _ FR)). Qed.
Lemma r_slices h w x t s X l : st h w -> svar e w k x t X -> itype t s (WIN * Z.of_nat SIZE) -> (forall n, n ∈ l -> (n < 64)%nat) ->
  wp h w (pmap (fun i => let rightInd := Z.of_nat i * WIN in bits x ((WIN - 1) + rightInd) rightInd) l)
    (fun w' rs => sfr w w' /\ Forall2 (fun n r => svar e w' k r (TRaw 12) (fun i => X i mod 2 ^ 768 / 2 ^ (12 * Z.of_nat n))) l rs).
Proof.
  intros S V IT. revert h w S V. induction l as [|n l IH]; intros h w S V Hl; cbn [pmap].
  - apply wp_ret; [exact S|]. split; [apply sfr_refl|constructor].
  - pose proof (sfr_refl w) as FR0. assert (Hn : (n < 64)%nat) by (apply Hl; left). cbv zeta. unfold WIN, SIZE in *. change (12 * Z.of_nat 64) with 768 in *.
    eapply rule_bind; [apply (srule_slice F e h w k x t s 768 X _ _ S V IT); lia|]. nxt Q. replace (12 - 1 + Z.of_nat n * 12 - Z.of_nat n * 12 + 1) with 12 in Q by lia.
    eapply rule_bind; [exact (IH _ _ S0 V (fun m Hm => Hl m ltac:(right; exact Hm)))|]. cbv beta. intros h1 w1 rs S1 (FR & V2). scarry FR. apply wp_ret; [exact S1|]. split; [exact (sfr_trans _ _ _ FR0 FR)|]. constructor; [|exact V2].
    eapply svar_ext; [|exact Q]. intros i _. cbn beta. rewrite (Z.mul_comm 12). reflexivity.
Qed.
Lemma pack9_range f n : 0 <= pack9 f n < 2 ^ (9 * Z.of_nat n).
Proof.
  induction n as [|n IH]; [cbn; lia|]. cbn [pack9]. replace (9 * Z.of_nat (S n)) with (9 + 9 * Z.of_nat n) by lia. rewrite Z.pow_add_r by lia. pose proof (Z.mod_pos_bound (f n) (2 ^ 9) ltac:(reflexivity)). nia.
Qed.
Lemma r_concat h w bits_ values V first m len : st h w -> w_types w !! bits_ = Some (TRaw 9) -> cells w values (fun _ => T13) V -> (0 < m)%nat -> (m + len = 64)%nat -> svar e w k first (TRaw (9 * Z.of_nat m)) (fun i => pack9 (fun n => V n i) m) ->
  wp h w (pfold (fun curr i => do casted <- cast (nth i values 0%nat) bits_; cat casted curr) first (seq m len))
    (fun w' r => sfr w w' /\ svar e w' k r (TRaw 576) (fun i => pack9 (fun n => V n i) 64)).
Proof.
  revert h w first m. induction len as [|len IH]; intros h w first m S BT CE Hm EM FS; cbn [seq pfold].
  - assert (m = 64%nat) as -> by lia. apply wp_ret; [exact S|]. split; [apply sfr_refl|exact FS].
  - pose proof (sfr_refl w) as FR0. destruct CE as [LV CE].
    eapply rule_bind.
    { eapply rule_bind; [apply (srule_cast F e h w k _ T13 true 13 _ bits_ (TRaw 9) false 9 S (CE m ltac:(lia)) I13 BT (itype_raw 9 ltac:(lia))); discriminate|]. nxt C1.
      eapply wp_conseq; [apply (srule_cat F e _ _ k _ _ 9 _ (9 * Z.of_nat m) _ S0 C1 FS); lia|]. cbv beta. intros w1 r1 (FR & Q). exact (conj (sfr_trans _ _ _ FR0 FR) Q). }
    cbv beta. intros h1 w1 r1 S1 (FR & Q). scarry FR. eapply wp_conseq; [apply (IH h1 w1 r1 (Datatypes.S m) S1 BT)|].
    + split; [exact LV|exact CE].
    + lia.
    + lia.
    + replace (9 * Z.of_nat (Datatypes.S m)) with (9 + 9 * Z.of_nat m) by lia. eapply svar_ext; [|exact Q]. intros i _. cbn beta. cbn [pack9]. rewrite (Z.mod_small (pack9 _ m)) by apply pack9_range.
      unfold num. cbn [andb]. rewrite Z.add_comm. do 2 f_equal. change (2 ^ 13) with (2 ^ 9 * 2 ^ 4). rewrite Z.rem_mul_r by lia. rewrite Z.add_mod, (Z.mul_comm (2 ^ 9)), Z.mod_mul, Z.add_0_r, !Z.mod_mod by lia. reflexivity.
    + cbv beta. intros w2 r2 (FR2 & Q2). split; [exact (sfr_trans _ _ _ FR FR2)|exact Q2].
Qed.
End Idct.
