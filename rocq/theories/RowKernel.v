(** * The kernel RowIDCT computes the first pass of IdctSpec (proofs).

    As IdctKernel.v, for numbers of 16 bits before and after the pass. *)
From Coq Require Import ZArith Bool String Lia.
From stdpp Require Import gmap list.
From Verif Require Import Types Word Value OpSpec Graph GraphSpec TypesProofs BuilderProofs BuilderProofs2 BuilderTopo GraphFacts StreamSpec Dfcir DfcirBuild
     Verilog Stubs Naming StubsSpec Firrtl Lower RtlSpec KernelSpec KernelValues Instance InstanceSpec InstanceLoop InstanceMain InstanceStep InstanceFlow LifeProofs ProgTyping SliceFacts
     Prog ProgFrame ProgRules ProgCalls ProgPorts StdKernels ProgLib FlatRules FlatCalls Idct IdctSpec IdctKernel RowSpec.
Local Open Scope Z_scope.

Lemma row16_hw_spec b j : (forall j, (j < 8)%nat -> - 32768 <= b j < 32768) -> (j < 8)%nat -> wrap 16 (outs 8 (row_hw b) j) = row_out b j.
Proof.
  intros R Hj. unfold row_out. f_equal.
  pose proof (R 0%nat ltac:(lia)). pose proof (R 1%nat ltac:(lia)). pose proof (R 2%nat ltac:(lia)). pose proof (R 3%nat ltac:(lia)). pose proof (R 4%nat ltac:(lia)). pose proof (R 5%nat ltac:(lia)). pose proof (R 6%nat ltac:(lia)). pose proof (R 7%nat ltac:(lia)).
  unfold outs, row_hw, butter, fold8, row_even, row_odd. cbn [nth].
  set (z1 := 3406 * b 1%nat - 799 * b 3%nat - 4017 * b 5%nat - 2276 * b 7%nat). set (z2 := 2276 * b 1%nat - 4017 * b 3%nat + 799 * b 5%nat + 3406 * b 7%nat).
  pose proof (rsqrt2_range z1) as R1. pose proof (rsqrt2_range z2) as R2.
  match goal with |- context [wrap 32 (?a * 181 + 128)] => replace (a * 181 + 128) with (181 * z1 + 128) by (unfold z1; ring) end.
  match goal with |- context [wrap 32 (?a * 181 + 128)] => replace (a * 181 + 128) with (181 * z2 + 128) by (unfold z2; ring) end.
  fold (rsqrt2 z1). fold (rsqrt2 z2). set (q1 := rsqrt2 z1) in *. set (q2 := rsqrt2 z2) in *. clearbody q1 q2. clear z1 z2.
  change (2 ^ 11) with 2048.
  byj j Hj ltac:(cbn [nth]; rewrite wrap_small; [f_equal; lia|lia|change (2 ^ (32 - 1)) with 2147483648; lia]).
Qed.
Notation T16 := (TFixed true 15 0).
Definition I32 : itype T32 true 32 := itype_int 32 ltac:(lia).
Definition I16 : itype T16 true 16 := itype_int 16 ltac:(lia).
Record ctx (w : world) (k : nat) (C : tables) (bt it : nat) : Prop := {
  cx_bt : w_types w !! bt = Some T32; cx_it : w_types w !! it = Some T16; cx_top : is_Some (w_top w); cx_kern : is_Some (w_kern w !! k);
  cx_128 : const_of w (c128 C) T32 128; cx_181 : const_of w (c181 C) T32 181; cx_8192 : const_of w (c8192 C) T32 8192; cx_4 : const_of w (c4 C) T32 4;
  cx_m256 : const_of w (cM256 C) T16 (- 256 mod 2 ^ 64); cx_255 : const_of w (c255 C) T16 255;
  cx_w1 : const_of w (cW1 C) T32 2841; cx_w2 : const_of w (cW2 C) T32 2676; cx_w3 : const_of w (cW3 C) T32 2408;
  cx_w5 : const_of w (cW5 C) T32 1609; cx_w6 : const_of w (cW6 C) T32 1108; cx_w7 : const_of w (cW7 C) T32 565
}.
Lemma ctx_sfr w w' k C bt it : sfr w w' -> ctx w k C bt it -> ctx w' k C bt it.
Proof.
  intros [G FM _ _] []. constructor; try (eapply (gr_const _ _ _ _ _ _ G); assumption); try (apply (g_types _ _ _ G); assumption).
  - eapply top_frame; eassumption.
  - eapply kern_frame; eassumption.
Qed.
Ltac scarry FR :=
  match type of FR with sfr ?w ?w' =>
    repeat match goal with
    | H : ctx w _ _ _ _ |- _ => apply (ctx_sfr _ _ _ _ _ _ FR) in H
    | H : svar _ w _ _ _ _ |- _ => apply (svar_sfr _ _ _ _ _ _ _ FR) in H
    | H : const_of w _ _ _ |- _ => apply (gr_const _ _ _ _ _ _ (sf_gr _ _ FR)) in H
    | H : w_types w !! _ = Some _ |- _ => apply (g_types _ _ _ (sf_gr _ _ FR)) in H
    | H : forall j, (j < _)%nat -> svar _ w _ _ _ _ |- _ => let H' := fresh in pose proof (fun j Hj => svar_sfr _ _ _ _ _ _ _ FR (H j Hj)) as H'; clear H; rename H' into H; cbv beta in H
    end
  end.
(** the next call; the value of its variable is [V] *)
Ltac chain FR := match goal with H0 : sfr ?a ?b |- _ => match type of FR with sfr b ?c => let n := fresh in pose proof (sfr_trans a b c H0 FR) as n; clear H0; clear FR; rename n into H0 end end.
Ltac nxt V := cbv beta; let h := fresh "h" in let w := fresh "w" in let r := fresh "r" in let S := fresh "S" in let FR := fresh "FR" in intros h w r S (FR & V); scarry FR; chain FR.

Section Row.
Variable F : fltops.
Notation st := (st F true).
Notation wp := (wp F true).
Variables (e : env) (k : nat).
Notation v32 w n x := (svar e w k n T32 x).
Notation r_add := (IdctKernel.r_add F e k).
Notation r_sub := (IdctKernel.r_sub F e k).
Notation r_addc := (IdctKernel.r_addc F e k).
Notation r_mulc := (IdctKernel.r_mulc F e k).
Notation r_cadd := (IdctKernel.r_cadd F).
Notation r_csub := (IdctKernel.r_csub F).
Notation r_shl := (IdctKernel.r_shl F e k).
Notation r_shr := (IdctKernel.r_shr F e k).
Notation r_cast32 := (IdctKernel.r_cast32 F e k).
Notation cells := (IdctKernel.cells e k).
Lemma r_scale h w o a b x y n C bt it z : st h w -> ctx w k C bt it -> 0 <= n < 256 -> (forall h w, st h w -> v32 w a x -> v32 w b y -> wp h w (o a b) (fun w' r => sfr w w' /\ v32 w' r z)) -> v32 w a x -> v32 w b y ->
  wp h w (scale o a b n it) (fun w' r => sfr w w' /\ svar e w' k r T16 (fun i => wrap 32 (z i) / 2 ^ n)).
Proof.
  intros S CX Hn Ho A B. unfold scale. pose proof (sfr_refl w) as FR0.
  eapply rule_bind; [exact (Ho h w S A B)|]. nxt V1.
  eapply rule_bind; [apply (r_shr _ _ _ _ n S0 V1 Hn)|]. nxt V2.
  eapply wp_conseq; [apply (srule_cast F e h1 w1 k r0 T32 true 32 _ it T16 true 16 S1 V2 I32 (cx_it _ _ _ _ _ CX) I16); discriminate|]. cbn beta. intros w' q (FR & V). split; [exact (sfr_trans _ _ _ FR0 FR)|].
  eapply svar_cong; [|exact V]. intros i _. cbn beta. rewrite wrap_num by lia. change (total_bits T16) with 16.
  assert (R : - 2 ^ (32 - 1) <= wrap 32 (z i) / 2 ^ n < 2 ^ (32 - 1)).
  { pose proof (wrap_range 32 (z i) ltac:(lia)) as R. assert (1 <= 2 ^ n) by (pose proof (Z.pow_pos_nonneg 2 n); lia). assert (1 <= 2 ^ (32 - 1)) by discriminate. set (M := 2 ^ (32 - 1)) in *. clearbody M. apply div_range; [lia|]. nia. }
  rewrite (wrap_small 32) by (exact R || lia). reflexivity.
Qed.
Lemma r_rot h w o a b x y z C bt it : st h w -> ctx w k C bt it -> (forall h w, st h w -> v32 w a x -> v32 w b y -> wp h w (o a b) (fun w' r => sfr w w' /\ v32 w' r z)) -> v32 w a x -> v32 w b y ->
  wp h w (rot181 C o a b) (fun w' r => sfr w w' /\ v32 w' r (fun i => wrap 32 (z i * 181 + 128) / 2 ^ 8)).
Proof.
  intros S CX Ho A B. unfold rot181. pose proof (sfr_refl w) as FR0.
  eapply rule_bind; [exact (Ho h w S A B)|]. nxt V1.
  eapply rule_bind; [apply (r_mulc _ _ _ _ _ 181 S0 V1 (cx_181 _ _ _ _ _ CX)); lia|]. nxt V2.
  eapply rule_bind; [apply (r_addc _ _ _ _ _ 128 S1 V2 (cx_128 _ _ _ _ _ CX)); lia|]. nxt V3.
  eapply wp_conseq; [apply (r_shr _ _ _ _ 8 S2 V3); lia|]. cbn beta. intros w' q (FR & V). split; [exact (sfr_trans _ _ _ FR0 FR)|exact V].
Qed.
Lemma r_butterfly h w C bt it x8 y0 x2 x3 x4 x5 x6 x7 a8 a0 a2 a3 a4 a5 a6 a7 : st h w -> ctx w k C bt it -> v32 w x8 a8 -> v32 w y0 a0 -> v32 w x2 a2 -> v32 w x3 a3 -> v32 w x4 a4 -> v32 w x5 a5 -> v32 w x6 a6 -> v32 w x7 a7 ->
  wp h w (butterfly C x8 y0 x2 x3 x4 x5 x6 x7) (fun w' l => sfr w w' /\ forall j, (j < 8)%nat -> v32 w' (nth j l 0%nat) (fun i => nth j (butter (a8 i) (a0 i) (a2 i) (a3 i) (a4 i) (a5 i) (a6 i) (a7 i)) 0)).
Proof.
  intros S CX V8 V0 V2 V3 V4 V5 V6 V7. unfold butterfly. pose proof (sfr_refl w) as FR0.
  eapply rule_bind; [exact (r_add _ _ _ _ _ _ S V4 V6)|]. nxt Y1.
  eapply rule_bind; [exact (r_sub _ _ _ _ _ _ S0 V4 V6)|]. nxt Y4.
  eapply rule_bind; [exact (r_add _ _ _ _ _ _ S1 V5 V7)|]. nxt Y6.
  eapply rule_bind; [exact (r_sub _ _ _ _ _ _ S2 V5 V7)|]. nxt Y5.
  eapply rule_bind; [exact (r_add _ _ _ _ _ _ S3 V8 V3)|]. nxt Y7.
  eapply rule_bind; [exact (r_sub _ _ _ _ _ _ S4 V8 V3)|]. nxt Y8.
  eapply rule_bind; [exact (r_add _ _ _ _ _ _ S5 V0 V2)|]. nxt Y3.
  eapply rule_bind; [exact (r_sub _ _ _ _ _ _ S6 V0 V2)|]. nxt D0.
  eapply rule_bind; [exact (r_rot _ _ add _ _ _ _ _ _ _ _ S7 CX (fun h w S A B => r_add h w _ _ _ _ S A B) Y4 Y5)|]. nxt Y2.
  eapply rule_bind; [exact (r_rot _ _ sub _ _ _ _ _ _ _ _ S8 CX (fun h w S A B => r_sub h w _ _ _ _ S A B) Y4 Y5)|]. nxt D4.
  apply wp_ret; [exact S9|]. split; [assumption|].
  intros j Hj. unfold butter. byj j Hj ltac:(cbn [nth]; assumption).
Qed.
Lemma pow11 x : - 32768 <= x < 32768 -> - 2147483648 <= x * 2 ^ 11 < 2147483648.
Proof. change (2 ^ 11) with 2048. lia. Qed.
Lemma wrap_16 n x : 0 < n <= 16 -> - 32768 <= wrap n x < 32768.
Proof. intro H. pose proof (wrap_range n x ltac:(lia)). pose proof (Z.pow_le_mono_r 2 (n - 1) 15 ltac:(lia) ltac:(lia)). change (2 ^ 15) with 32768 in *. lia. Qed.
(** the eight results *)
Lemma r_outs h w C bt it l b n (scl : (nat -> nat -> prog nat) -> nat -> nat -> prog nat) t g : st h w -> ctx w k C bt it -> (forall j, (j < 8)%nat -> v32 w (nth j l 0%nat) (fun i => nth j (b i) 0)) ->
  (forall o f h w a c x y, (forall a b x y h w, st h w -> v32 w a x -> v32 w b y -> wp h w (o a b) (fun w' r => sfr w w' /\ v32 w' r (fun i => f (x i) (y i)))) -> st h w -> ctx w k C bt it -> v32 w a x -> v32 w c y ->
     wp h w (scl o a c) (fun w' r => sfr w w' /\ svar e w' k r t (fun i => g (wrap 32 (f (x i) (y i)) / 2 ^ n)))) ->
  wp h w (do r0 <- scl add (nth 0 l 0%nat) (nth 1 l 0%nat); do r1 <- scl add (nth 2 l 0%nat) (nth 3 l 0%nat); do r2 <- scl add (nth 4 l 0%nat) (nth 5 l 0%nat); do r3 <- scl add (nth 6 l 0%nat) (nth 7 l 0%nat);
          do r4 <- scl sub (nth 6 l 0%nat) (nth 7 l 0%nat); do r5 <- scl sub (nth 4 l 0%nat) (nth 5 l 0%nat); do r6 <- scl sub (nth 2 l 0%nat) (nth 3 l 0%nat); do r7 <- scl sub (nth 0 l 0%nat) (nth 1 l 0%nat); Ret [r0; r1; r2; r3; r4; r5; r6; r7])
    (fun w' rs => sfr w w' /\ length rs = 8%nat /\ forall j, (j < 8)%nat -> svar e w' k (nth j rs 0%nat) t (fun i => g (outs n (b i) j))).
Proof.
  intros S CX V RA. pose proof (sfr_refl w) as FR0.
  pose proof (fun h w a c x y => RA add Z.add h w a c x y (fun a b x y h w => r_add h w a b x y)) as RS. pose proof (fun h w a c x y => RA sub Z.sub h w a c x y (fun a b x y h w => r_sub h w a b x y)) as RD. clear RA.
  assert (B : forall i1 i2, (i1 < 8)%nat -> (i2 < 8)%nat -> (i1 < 8)%nat /\ (i2 < 8)%nat) by auto. clear B.
  eapply rule_bind; [exact (RS _ _ _ _ _ _ S CX (V 0%nat ltac:(lia)) (V 1%nat ltac:(lia)))|]. nxt Y0.
  eapply rule_bind; [exact (RS _ _ _ _ _ _ S0 CX (V 2%nat ltac:(lia)) (V 3%nat ltac:(lia)))|]. nxt Y1.
  eapply rule_bind; [exact (RS _ _ _ _ _ _ S1 CX (V 4%nat ltac:(lia)) (V 5%nat ltac:(lia)))|]. nxt Y2.
  eapply rule_bind; [exact (RS _ _ _ _ _ _ S2 CX (V 6%nat ltac:(lia)) (V 7%nat ltac:(lia)))|]. nxt Y3.
  eapply rule_bind; [exact (RD _ _ _ _ _ _ S3 CX (V 6%nat ltac:(lia)) (V 7%nat ltac:(lia)))|]. nxt Y4.
  eapply rule_bind; [exact (RD _ _ _ _ _ _ S4 CX (V 4%nat ltac:(lia)) (V 5%nat ltac:(lia)))|]. nxt Y5.
  eapply rule_bind; [exact (RD _ _ _ _ _ _ S5 CX (V 2%nat ltac:(lia)) (V 3%nat ltac:(lia)))|]. nxt Y6.
  eapply rule_bind; [exact (RD _ _ _ _ _ _ S6 CX (V 0%nat ltac:(lia)) (V 1%nat ltac:(lia)))|]. nxt Y7.
  apply wp_ret; [exact S7|]. split; [assumption|]. split; [reflexivity|].
  intros j Hj. unfold outs. byj j Hj ltac:(cbn [nth]; assumption).
Qed.
Lemma r_row h w C bt it v X t s W : st h w -> ctx w k C bt it -> itype t s W -> t <> T32 -> W <= 16 -> (forall j, (j < 8)%nat -> svar e w k (nth j v 0%nat) t (X j)) ->
  wp h w (row_pass C bt it v) (fun w' rs => sfr w w' /\ length rs = 8%nat /\ forall j, (j < 8)%nat -> svar e w' k (nth j rs 0%nat) T16 (fun i => row_out (fun c => wrap W (X c i)) j)).
Proof.
  intros S CX IT NE HW V. pose proof (it_b _ _ _ IT) as WB. unfold row_pass. cbv zeta. pose proof (sfr_refl w) as FR0.
  pose proof (V 0%nat ltac:(lia)) as V0. pose proof (V 1%nat ltac:(lia)) as V1. pose proof (V 2%nat ltac:(lia)) as V2. pose proof (V 3%nat ltac:(lia)) as V3. pose proof (V 4%nat ltac:(lia)) as V4. pose proof (V 5%nat ltac:(lia)) as V5. pose proof (V 6%nat ltac:(lia)) as V6. pose proof (V 7%nat ltac:(lia)) as V7. clear V.
  Ltac rcast S CX V IT NE := eapply rule_bind; [exact (r_cast32 _ _ _ _ _ _ _ _ S V IT (cx_bt _ _ _ _ _ CX) NE)|].
  rcast S CX V0 IT NE. nxt A0.
  eapply rule_bind; [apply (r_shl _ _ _ _ 11 S0 A0); [lia|intros i _; apply pow11, wrap_16; lia]|]. nxt B0.
  eapply rule_bind; [apply (r_addc _ _ _ _ _ 128 S1 B0 (cx_128 _ _ _ _ _ CX)); lia|]. nxt X0.
  rcast S2 CX V4 IT NE. nxt A1.
  eapply rule_bind; [apply (r_shl _ _ _ _ 11 S3 A1); [lia|intros i _; apply pow11, wrap_16; lia]|]. nxt X1.
  rcast S4 CX V6 IT NE. nxt X2. rcast S5 CX V2 IT NE. nxt X3. rcast S6 CX V1 IT NE. nxt X4. rcast S7 CX V7 IT NE. nxt X5. rcast S8 CX V5 IT NE. nxt X6. rcast S9 CX V3 IT NE. nxt X7.
  clear V0 V1 V2 V3 V4 V5 V6 V7 A0 B0 A1.
  eapply rule_bind; [exact (r_add _ _ _ _ _ _ S10 X4 X5)|]. nxt s1.
  eapply rule_bind; [apply (r_mulc _ _ _ _ _ 565 S11 s1 (cx_w7 _ _ _ _ _ CX)); lia|]. nxt P.
  eapply rule_bind; [exact (r_csub _ _ _ _ 2841 565 2276 S12 (cx_top _ _ _ _ _ CX) (cx_w1 _ _ _ _ _ CX) (cx_w7 _ _ _ _ _ CX) eq_refl)|]. nxt d1.
  eapply rule_bind; [apply (r_mulc _ _ _ _ _ 2276 S13 X4 d1); lia|]. nxt m1.
  eapply rule_bind; [exact (r_add _ _ _ _ _ _ S14 P m1)|]. nxt Y4.
  eapply rule_bind; [exact (r_cadd _ _ _ _ 2841 565 3406 S15 (cx_top _ _ _ _ _ CX) (cx_w1 _ _ _ _ _ CX) (cx_w7 _ _ _ _ _ CX) eq_refl)|]. nxt d2.
  eapply rule_bind; [apply (r_mulc _ _ _ _ _ 3406 S16 X5 d2); lia|]. nxt m2.
  eapply rule_bind; [exact (r_sub _ _ _ _ _ _ S17 P m2)|]. nxt Y5.
  eapply rule_bind; [exact (r_add _ _ _ _ _ _ S18 X6 X7)|]. nxt s2.
  eapply rule_bind; [apply (r_mulc _ _ _ _ _ 2408 S19 s2 (cx_w3 _ _ _ _ _ CX)); lia|]. nxt Q.
  eapply rule_bind; [exact (r_csub _ _ _ _ 2408 1609 799 S20 (cx_top _ _ _ _ _ CX) (cx_w3 _ _ _ _ _ CX) (cx_w5 _ _ _ _ _ CX) eq_refl)|]. nxt d3.
  eapply rule_bind; [apply (r_mulc _ _ _ _ _ 799 S21 X6 d3); lia|]. nxt m3.
  eapply rule_bind; [exact (r_sub _ _ _ _ _ _ S22 Q m3)|]. nxt Y6.
  eapply rule_bind; [exact (r_cadd _ _ _ _ 2408 1609 4017 S23 (cx_top _ _ _ _ _ CX) (cx_w3 _ _ _ _ _ CX) (cx_w5 _ _ _ _ _ CX) eq_refl)|]. nxt d4.
  eapply rule_bind; [apply (r_mulc _ _ _ _ _ 4017 S24 X7 d4); lia|]. nxt m4.
  eapply rule_bind; [exact (r_sub _ _ _ _ _ _ S25 Q m4)|]. nxt Y7.
  eapply rule_bind; [exact (r_add _ _ _ _ _ _ S26 X0 X1)|]. nxt Y8.
  eapply rule_bind; [exact (r_sub _ _ _ _ _ _ S27 X0 X1)|]. nxt Y0.
  eapply rule_bind; [exact (r_add _ _ _ _ _ _ S28 X3 X2)|]. nxt s3.
  eapply rule_bind; [apply (r_mulc _ _ _ _ _ 1108 S29 s3 (cx_w6 _ _ _ _ _ CX)); lia|]. nxt R.
  eapply rule_bind; [exact (r_cadd _ _ _ _ 2676 1108 3784 S30 (cx_top _ _ _ _ _ CX) (cx_w2 _ _ _ _ _ CX) (cx_w6 _ _ _ _ _ CX) eq_refl)|]. nxt d5.
  eapply rule_bind; [apply (r_mulc _ _ _ _ _ 3784 S31 X2 d5); lia|]. nxt m5.
  eapply rule_bind; [exact (r_sub _ _ _ _ _ _ S32 R m5)|]. nxt Y2.
  eapply rule_bind; [exact (r_csub _ _ _ _ 2676 1108 1568 S33 (cx_top _ _ _ _ _ CX) (cx_w2 _ _ _ _ _ CX) (cx_w6 _ _ _ _ _ CX) eq_refl)|]. nxt d6.
  eapply rule_bind; [apply (r_mulc _ _ _ _ _ 1568 S34 X3 d6); lia|]. nxt m6.
  eapply rule_bind; [exact (r_add _ _ _ _ _ _ S35 R m6)|]. nxt Y3.
  clear s1 d1 m1 d2 m2 s2 d3 m3 d4 m4 s3 d5 m5 d6 m6 P Q R X0 X1 X2 X3 X4 X5 X6 X7.
  eapply rule_bind; [exact (r_butterfly _ _ _ _ _ _ _ _ _ _ _ _ _ _ _ _ _ _ _ _ _ S36 CX Y8 Y0 Y2 Y3 Y4 Y5 Y6 Y7)|]. nxt V.
  eapply wp_conseq; [apply (r_outs _ _ C bt it r36 (fun i => row_hw (fun c => wrap W (X c i))) 8 (fun o x y => scale o x y 8 it) T16 (fun z => z) S37 CX V)|].
  { intros o f h' w' a c x y Ho S' CX' A B. exact (r_scale h' w' o a c x y 8 C bt it _ S' CX' ltac:(lia) (fun h w => Ho _ _ _ _ h w) A B). }
  cbn beta. intros w' rs (FR & LR & VR). split; [exact (sfr_trans _ _ _ FR0 FR)|]. split; [exact LR|]. intros j Hj. eapply svar_cong; [|exact (VR j Hj)].
  intros i _. cbn beta. change (total_bits T16) with 16. rewrite <- (row16_hw_spec (fun c => wrap W (X c i)) j); [|intros c _; pose proof (wrap_range W (X c i) ltac:(lia)); pose proof (Z.pow_le_mono_r 2 (W - 1) 15 ltac:(lia) ltac:(lia)); change (2 ^ 15) with 32768 in *; lia|exact Hj].
  rewrite wrap_mod by lia. reflexivity.
Qed.
(** *** the clip *)
Lemma r_loop h w C bt it values at_ grp pos (p : list nat -> prog (list nat)) t t' (G : (nat -> Z -> Z) -> nat -> Z -> Z) V : st h w -> ctx w k C bt it -> indexing at_ grp pos -> cells w values (fun _ => t) V ->
  (forall h w v X, st h w -> ctx w k C bt it -> (forall j, (j < 8)%nat -> svar e w k (nth j v 0%nat) t (X j)) ->
     wp h w (p v) (fun w' rs => sfr w w' /\ length rs = 8%nat /\ forall j, (j < 8)%nat -> svar e w' k (nth j rs 0%nat) t' (G X j))) ->
  wp h w (pfold (fun values i => do r <- p (reads (at_ i) values); Ret (writes (at_ i) values r)) values (seq 0 DIM))
    (fun w' values' => sfr w w' /\ cells w' values' (fun _ => t') (fun n => G (fun j => V (at_ (grp n) j)) (pos n))).
Proof.
  intros S CX IX CE HP.
  set (Inv := fun (l : list nat) (w' : world) (vs : list nat) => exists m, (m <= 8)%nat /\ l = seq m (8 - m) /\ sfr w w' /\ ctx w' k C bt it /\
    cells w' vs (fun n => if (grp n <? m)%nat then t' else t) (fun n => if (grp n <? m)%nat then G (fun j => V (at_ (grp n) j)) (pos n) else V n)).
  eapply wp_conseq; [apply (rule_fold F true _ Inv); [|exact S|]|].
  - intros a l h' w' vs S' (m & Hm & EL & FR & CX' & LV & CV). destruct (8 - m)%nat as [|r] eqn:E8; [discriminate EL|]. cbn [seq] in EL. injection EL as -> ->.
    eapply rule_bind; [apply (HP _ _ _ (fun j => V (at_ m j)) S' CX')|].
    { intros j Hj. rewrite reads_nth by exact Hj. pose proof (CV (at_ m j) ltac:(apply (ix_lt _ _ _ IX); lia)) as Q. rewrite (ix_grp _ _ _ IX) in Q by lia. replace (m <? m)%nat with false in Q by (symmetry; apply Nat.ltb_ge; lia). exact Q. }
    cbn beta. intros h1 w1 rs S1 (FR1 & LR & VR). apply wp_ret; [exact S1|]. exists (Datatypes.S m). split; [lia|]. split; [f_equal; lia|]. split; [exact (sfr_trans _ _ _ FR FR1)|]. split; [exact (ctx_sfr _ _ _ _ _ _ FR1 CX')|].
    split; [rewrite writes_length; exact LV|]. intros n Hn.
    destruct (writes_at (at_ m) vs rs n) as [W1 W2]; [intros j Hj; rewrite LV; apply (ix_lt _ _ _ IX); lia|intros i j Hi Hj E; rewrite <- (ix_pos _ _ _ IX m i), <- (ix_pos _ _ _ IX m j) by lia; congruence|exact LR|].
    destruct (decide (grp n = m)) as [EG|NG].
    + assert (EN : n = at_ m (pos n)) by (rewrite <- EG; symmetry; exact (ix_at _ _ _ IX n Hn)). rewrite (W1 (pos n) (ix_pos8 _ _ _ IX n Hn) EN). replace (grp n <? Datatypes.S m)%nat with true by (symmetry; apply Nat.ltb_lt; lia). rewrite EG.
      exact (VR (pos n) (ix_pos8 _ _ _ IX n Hn)).
    + rewrite W2 by (intros j Hj ->; apply NG, (ix_grp _ _ _ IX); lia). pose proof (CV n Hn) as Q. apply (svar_sfr _ _ _ _ _ _ _ FR1) in Q.
      replace (grp n <? Datatypes.S m)%nat with (grp n <? m)%nat; [exact Q|]. destruct (Nat.ltb_spec (grp n) m), (Nat.ltb_spec (grp n) (Datatypes.S m)); lia.
  - exists 0%nat. split; [lia|]. split; [reflexivity|]. split; [apply sfr_refl|]. split; [exact CX|]. destruct CE as [L CE]. split; [exact L|]. intros n Hn. exact (CE n Hn).
  - cbn beta. intros w' vs (m & Hm & EL & FR & _ & LV & CV). assert (m = 8%nat) as -> by (destruct (8 - m)%nat eqn:E8; [lia|discriminate EL]). split; [exact FR|]. split; [exact LV|]. intros n Hn. pose proof (CV n Hn) as Q.
    replace (grp n <? 8)%nat with true in Q by (symmetry; apply Nat.ltb_lt, (ix_grp8 _ _ _ IX n Hn)). exact Q.
Qed.

End Row.
