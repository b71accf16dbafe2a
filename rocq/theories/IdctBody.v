(** * The whole kernel IDCT (proofs). *)
From Coq Require Import ZArith Bool String Lia.
From stdpp Require Import gmap list.
From Verif Require Import Types Word Value OpSpec Graph GraphSpec TypingSpec TypesProofs BuilderProofs BuilderProofs2 BuilderTopo GraphFacts StreamSpec Dfcir DfcirBuild
     Verilog Stubs Naming StubsSpec Firrtl Lower RtlSpec KernelFlow KernelSpec KernelValues Instance InstanceSpec InstanceLoop InstanceMain InstanceStep InstanceFlow LifeProofs ProgTyping SliceFacts
     Prog ProgFrame ProgRules ProgCalls ProgPorts StdKernels ProgLib ProgTop FlatRules FlatCalls FlatSpec FlatTop Idct IdctSpec IdctKernel.
Local Open Scope Z_scope.

Lemma pack9_ext f g n : (forall m, (m < n)%nat -> f m = g m) -> pack9 f n = pack9 g n.
Proof. induction n as [|n IH]; intro E; [reflexivity|]. cbn [pack9]. rewrite IH by (intros m Hm; apply E; lia). rewrite (E n) by lia. reflexivity. Qed.
Lemma idct_row_ext f g j : (forall c, (c < 8)%nat -> f c = g c) -> (j < 8)%nat -> idct_row f j = idct_row g j.
Proof.
  intros E Hj. unfold idct_row, row_even, row_odd. rewrite !(E 0%nat), !(E 1%nat), !(E 2%nat), !(E 3%nat), !(E 4%nat), !(E 5%nat), !(E 6%nat), !(E 7%nat) by lia. reflexivity.
Qed.
Lemma idct_col_ext f g j : (forall c, (c < 8)%nat -> f c = g c) -> (j < 8)%nat -> idct_col f j = idct_col g j.
Proof.
  intros E Hj. unfold idct_col, col_even, col_odd. rewrite !(E 0%nat), !(E 1%nat), !(E 2%nat), !(E 3%nat), !(E 4%nat), !(E 5%nat), !(E 6%nat), !(E 7%nat) by lia. reflexivity.
Qed.
Lemma idct_range X : 0 <= idct X < 2 ^ 576.
Proof. exact (pack9_range _ 64). Qed.
Lemma sext_sub X Y w w' : w_nodes w = ∅ -> sext X w w' -> (forall n, n ∈ X -> n ∈ Y) -> sext Y w w'.
Proof. intros EM [G FM TD] S. constructor; [|exact FM|exact TD]. apply (gr_weaken X); [exact G|exact S|]. intros n _ [y H]. rewrite EM, lookup_empty in H. discriminate. Qed.

Lemma ctx_sext X w w' k C bt it : sext X w w' -> ctx w k C bt it -> ctx w' k C bt it.
Proof.
  intros [G FM _] []. constructor; try (eapply (gr_const _ _ _ _ _ _ G); assumption); try (apply (g_types _ _ _ G); assumption).
  - eapply top_frame; eassumption.
  - eapply kern_frame; eassumption.
Qed.

Lemma packed X : pack9 (fun n => idct_at X (n / 8) (n mod 8)) 64 = idct X.
Proof. unfold idct. reflexivity. Qed.
Lemma total_576 : total_bits (sint 576) = 576.
Proof. reflexivity. Qed.

Lemma pack9_one f : pack9 f 1 = f 0%nat mod 2 ^ 9.
Proof. cbn [pack9]. change (9 * Z.of_nat 0) with 0. rewrite Z.pow_0_r, Z.mul_1_r, Z.add_0_l. reflexivity. Qed.
Lemma low_bits v : num false 13 (v mod 2 ^ 13) mod 2 ^ 9 = v mod 2 ^ 9 mod 2 ^ 9.
Proof.
  unfold num. cbn [andb]. change (2 ^ 13) with (2 ^ 9 * 2 ^ 4). rewrite Z.rem_mul_r by lia. rewrite Z.add_mod, (Z.mul_comm (2 ^ 9)), Z.mod_mul, Z.add_0_r, !Z.mod_mod by lia. reflexivity.
Qed.
Lemma total_9 : total_bits (TRaw (9 * Z.of_nat 1)) = 9.
Proof. reflexivity. Qed.
Lemma first_byte e k w first (V : nat -> Z -> Z) : svar e w k first (TRaw 9) (fun i => num false 13 (V 0%nat i mod 2 ^ 13)) -> svar e w k first (TRaw (9 * Z.of_nat 1)) (fun i => pack9 (fun n => V n i) 1).
Proof. intro H. change (TRaw 9) with (TRaw (9 * Z.of_nat 1)) in H. eapply svar_cong; [|exact H]. intros i _. cbn beta. rewrite pack9_one, total_9. apply low_bits. Qed.
Lemma last_word e k w d (x : Z -> Z) : sarg e w k d (TFixed true 575 0) (fun i => num true 576 (pack9 (fun n => idct_at (x i) (n / 8) (n mod 8)) 64 mod 2 ^ 576)) -> sarg e w k d (sint 576) (fun i => idct (x i)).
Proof.
  intro H. change (TFixed true 575 0) with (sint 576) in H. eapply sarg_cong; [|exact H]. intros i _. cbn beta. rewrite (packed (x i)). generalize (idct (x i)). intro y. rewrite total_576. exact (num_cong true 576 y eq_refl).
Qed.
Lemma block_cells e k w vs (x : Z -> Z) : sfed e "x" 768 x ->
  cells e k w vs (fun _ => TFixed true 12 0) (fun n i => idct_col (fun c => wrap 13 (idct_row (fun c0 => wrap 12 (x i mod 2 ^ 768 / 2 ^ (12 * Z.of_nat (row_at (col_at (n mod 8) c / 8) c0)))) (col_at (n mod 8) c mod 8))) (n / 8)) ->
  cells e k w vs (fun _ => TFixed true 12 0) (fun n i => idct_at (x i) (n / 8) (n mod 8)).
Proof.
  intros FD [L CC]. split; [exact L|]. intros n Hn. eapply svar_ext; [|exact (CC n Hn)]. intros i Hi. unfold idct_at. pose proof (Nat.mod_upper_bound n 8 ltac:(discriminate)) as M8. assert (D8 : (n / 8 < 8)%nat) by (apply Nat.div_lt_upper_bound; lia).
  apply idct_col_ext; [|exact D8]. intros c Hc. 
  change (col_at (n mod 8) c) with (row_at c (n mod 8)). cbn beta. rewrite (ix_grp _ _ _ rows_indexing c (n mod 8)), (ix_pos _ _ _ rows_indexing c (n mod 8)) by assumption.
  rewrite wrap_small; [|lia|exact (idct_row_range _ _)]. apply idct_row_ext; [|exact M8]. intros c' Hc'. unfold field, row_at, DIM. destruct (FD i Hi) as [_ R]. rewrite (Z.mod_small (x i)) by exact R. reflexivity.
Qed.

Section Body.
Variable F : fltops.
Variables (e : env) (k : nat).
Notation st := (st F true).
Notation wp := (wp F true).
Ltac cur := match goal with |- ProgFrame.st _ _ _ _ => eassumption end.
Ltac ctop := match goal with FR : sfr ?a ?b, TP : is_Some (w_top ?a) |- is_Some (w_top ?b) => exact (top_sfr a b FR TP) end.
Lemma idct_body h w x : st h w -> starts w k -> sfed e "x" 768 x ->
  wp h w (IDCT k) (fun w2 _ => exists ports outs, flat e w w2 k (sint 768) (sint 576) ["x"%string] ports ["out"%string] outs [fun i => idct (x i)]).
Proof.
  intros S (SK & STop & _ & SN & SE & SO) FD. unfold IDCT. pose proof (sfr_refl w) as FR0.
  assert (TP : is_Some (w_top w)) by (rewrite STop; eauto).
  eapply rule_bind; [apply (df_int_rule F _ _ (WIN * Z.of_nat SIZE) S); change (WIN * Z.of_nat SIZE) with 768; lia|]. nxt TIN. change (WIN * Z.of_nat SIZE - 1) with 767 in TIN.
  eapply rule_bind; [apply (df_int_rule F _ _ WBUF S0); unfold WBUF; lia|]. nxt BT. change (WBUF - 1) with 31 in BT.
  eapply rule_bind; [apply (df_int_rule F _ _ WIM S1); unfold WIM; lia|]. nxt IT. change (WIM - 1) with 12 in IT.
  eapply rule_bind; [apply (df_int_rule F _ _ WOUT S2); unfold WOUT; lia|]. nxt TO1.
  eapply rule_bind; [apply (df_int_rule F _ _ (WOUT * Z.of_nat SIZE) S3); change (WOUT * Z.of_nat SIZE) with 576; lia|]. nxt TOUT. change (WOUT * Z.of_nat SIZE - 1) with 575 in TOUT.
  clear TO1.
  eapply rule_bind; [apply (r_const F _ _ _ 31 32 128 ltac:(cur) BT ltac:(ctop) I32); lia|]. nxt Kk128.
  eapply rule_bind; [apply (r_const F _ _ _ 31 32 181 ltac:(cur) BT ltac:(ctop) I32); lia|]. nxt Kk181.
  eapply rule_bind; [apply (r_const F _ _ _ 31 32 8192 ltac:(cur) BT ltac:(ctop) I32); lia|]. nxt Kk8192.
  eapply rule_bind; [apply (r_const F _ _ _ 31 32 4 ltac:(cur) BT ltac:(ctop) I32); lia|]. nxt Kk4.
  eapply rule_bind; [exact (r_const13m F _ _ _ ltac:(cur) IT ltac:(ctop))|]. nxt KkM256.
  eapply rule_bind; [apply (r_const F _ _ _ 12 13 255 ltac:(cur) IT ltac:(ctop) I13); lia|]. nxt Kk255.
  eapply rule_bind; [apply (r_const F _ _ _ 31 32 2841 ltac:(cur) BT ltac:(ctop) I32); lia|]. nxt Kw1.
  eapply rule_bind; [apply (r_const F _ _ _ 31 32 2676 ltac:(cur) BT ltac:(ctop) I32); lia|]. nxt Kw2.
  eapply rule_bind; [apply (r_const F _ _ _ 31 32 2408 ltac:(cur) BT ltac:(ctop) I32); lia|]. nxt Kw3.
  eapply rule_bind; [apply (r_const F _ _ _ 31 32 1609 ltac:(cur) BT ltac:(ctop) I32); lia|]. nxt Kw5.
  eapply rule_bind; [apply (r_const F _ _ _ 31 32 1108 ltac:(cur) BT ltac:(ctop) I32); lia|]. nxt Kw6.
  eapply rule_bind; [apply (r_const F _ _ _ 31 32 565 ltac:(cur) BT ltac:(ctop) I32); lia|]. nxt Kw7.
  cbv zeta. match goal with |- context [row_pass ?c _ _ _] => set (C := c) end.
  match goal with FR : sfr w ?v |- _ => assert (CX : ctx v k C r0 r1) end.
  { constructor; try assumption; [ctop|match goal with FR : sfr w ?v |- is_Some (w_kern ?v !! k) => exact (kern_frame _ _ _ (sf_frame _ _ FR) SK) end]. }
  clear Kk128 Kk181 Kk8192 Kk4 KkM256 Kk255 Kw1 Kw2 Kw3 Kw5 Kw6 Kw7.
  match type of CX with ctx ?v _ _ _ _ => rename v into wA end. match goal with X : ProgFrame.st F true ?h wA |- _ => rename X into SA; rename h into hA end. rename FR0 into FRA.
  assert (X0 : forall i, 0 <= i -> e_stream e "x" i = (kind (TFixed true 767 0), x i mod 2 ^ 768)).
  { intros i Hi. destruct (FD i Hi) as [E R]. rewrite E. rewrite Z.mod_small by exact R. reflexivity. }
  eapply rule_bind; [exact (srule_input F e hA wA k "x" r _ true 768 x SA TIN (itype_int 768 ltac:(lia)) (cx_kern _ _ _ _ _ CX) ltac:(discriminate) ltac:(discriminate) X0)|].
  cbv beta. intros hI wI p SI (XI & FrI & VI & PI & NI). pose proof (sa_type _ _ _ _ _ _ (proj1 VI)) as TPI.
  apply (ctx_sext _ _ _ _ _ _ _ XI) in CX. apply (g_types _ _ _ (sx_gr _ _ _ XI)) in TOUT.
  pose proof (sfr_refl wI) as FR0.
  eapply rule_bind; [apply (r_slices F e k hI wI p _ true x (seq 0 SIZE) SI VI (itype_int 768 ltac:(lia))); intros n Hn; apply elem_of_seq in Hn; unfold SIZE in Hn; lia|].
  cbv beta. intros hs ws vs Ss (FRs & VS). scarry FRs. chain FRs.
  assert (CE : cells e k ws vs (fun _ => TRaw 12) (fun n i => x i mod 2 ^ 768 / 2 ^ (12 * Z.of_nat n))).
  { split; [pose proof (Forall2_length _ _ _ VS) as L; rewrite seq_length in L; symmetry; exact L|]. intros n Hn.
    destruct (Forall2_lookup_l _ _ _ n n VS) as (q & Hq & V); [apply lookup_seq; unfold SIZE; lia|]. rewrite (nth_lookup_Some _ _ _ _ Hq). exact V. }
  clear VS.
  eapply rule_bind; [apply (r_loop F e k hs ws C r0 r1 vs row_at _ _ (row_pass C r0 r1) (TRaw 12) (TFixed true 12 0) (fun X j i => idct_row (fun c => wrap 12 (X c i)) j) _ Ss CX rows_indexing CE)|].
  { intros h' w' v X S' CX' HX. exact (r_row F e k h' w' C r0 r1 v X (TRaw 12) false 12 S' CX' (itype_raw 12 ltac:(lia)) ltac:(discriminate) ltac:(lia) HX). }
  cbv beta. intros hr wr vr Sr (FRr & CR). scarry FRr. chain FRr. clear CE.
  eapply rule_bind; [apply (r_loop F e k hr wr C r0 r1 vr col_at _ _ (col_pass C k r0 r1) (TFixed true 12 0) (TFixed true 12 0) (fun X j i => idct_col (fun c => wrap 13 (X c i)) j) _ Sr CX cols_indexing CR)|].
  { intros h' w' v X S' CX' HX. exact (r_col F e k h' w' C r0 r1 v X (TFixed true 12 0) true 13 S' CX' I13 ltac:(discriminate) ltac:(lia) HX). }
  cbv beta. intros hc wc vc Sc (FRc & CC). scarry FRc. chain FRc. clear CR.
  pose proof (block_cells e k wc vc x FD CC) as CV. clear CC.
  eapply rule_bind; [apply (df_raw_rule F _ _ 9 Sc); lia|]. cbv beta. intros hb wb bt9 Sb (FRb & BT9). apply (cells_sfr e k _ _ _ _ _ FRb) in CV. scarry FRb. chain FRb.
  eapply rule_bind; [apply (srule_cast F e hb wb k _ (TFixed true 12 0) true 13 _ bt9 (TRaw 9) false 9 Sb (proj2 CV 0%nat ltac:(lia)) I13 BT9 (itype_raw 9 ltac:(lia))); discriminate|].
  cbv beta. intros hf wf first Sf (FRf & V1). apply (cells_sfr e k _ _ _ _ _ FRf) in CV. scarry FRf. chain FRf.
  eapply rule_bind.
  { apply (r_concat F e k hf wf bt9 vc _ first 1 (SIZE - 1) Sf BT9 CV); [lia|reflexivity|]. exact (first_byte e k _ _ _ V1). }
  cbv beta. intros h2' w2' cc S2' (FR2 & V2). scarry FR2. chain FR2. rename FR0 into FRB. clear CV CX.
  assert (K2 : is_Some (w_kern w2' !! k)) by (apply (kern_frame wA); [exact (frame_trans _ _ _ (sx_frame _ _ _ XI) (sf_frame _ _ FRB))|exact (kern_frame _ _ _ (sf_frame _ _ FRA) SK)]).
  eapply rule_bind; [exact (srule_output F h2' w2' k "out" r3 _ true 576 S2' TOUT (itype_int 576 ltac:(lia)) K2 ltac:(discriminate))|].
  cbv beta. intros ho wo o So (XO & FrO & OO & TO & NO). apply (g_types _ _ _ (sx_gr _ _ _ XO)) in TOUT. apply (svar_gr e _ _ _ _ _ _ _ (sx_gr _ _ _ XO)) in V2.
  eapply rule_bind; [apply (srule_cast F e ho wo k _ (TRaw 576) false 576 _ r3 (TFixed true 575 0) true 576 So V2 (itype_raw 576 ltac:(lia)) TOUT (itype_int 576 ltac:(lia))); discriminate|].
  cbv beta. intros hd wd d Sd (FRd & VD).
  assert (OD : open_out wd k o) by (apply (open_gr [] wo wd k o (sf_gr _ _ FRd)); [intro Z; inversion Z|exact OO]).
  pose proof (gr_type _ _ _ _ _ (sf_gr _ _ FRd) TO) as TD.
  eapply rule_bind; [exact (srule_connect F e hd wd k o d _ true 576 _ Sd OD VD TD (itype_int 576 ltac:(lia)))|].
  cbv beta. intros he we ret Se (XE & HO & OPE & _ & _ & NE). apply wp_ret; [exact Se|]. exists [p], [o].
  assert (XALL : sext ([o] ++ [p]) w we).
  { refine (sext_sub _ _ _ _ SE (sext_trans _ _ _ _ _ (sext_trans _ _ _ _ _ (sext_trans _ _ _ _ _ (sext_trans _ _ _ _ _ (sext_trans _ _ _ _ _ (sfr_sext _ _ FRA) XI) (sfr_sext _ _ FRB)) XO) (sfr_sext _ _ FRd)) XE) _).
    intros n Hn. cbn [app] in Hn. repeat (apply elem_of_cons in Hn as [->|Hn]; [first [left|right; left]|]); inversion Hn. }
  assert (NM : names we k = [("out"%string, o); ("x"%string, p)]).
  { rewrite NE, (sf_names _ _ FRd), NO, (sf_names _ _ FRB), NI, (sf_names _ _ FRA), SN. reflexivity. }
  assert (GI : gr ([] ++ [o] ++ [] ++ [o]) wI we) by (exact (gr_trans _ _ _ _ _ (sf_gr _ _ FRB) (gr_trans _ _ _ _ _ (sx_gr _ _ _ XO) (gr_trans _ _ _ _ _ (sf_gr _ _ FRd) (sx_gr _ _ _ XE))))).
  constructor.
  - exact XALL.
  - constructor; [|constructor]. split; [unfold port; rewrite NM; reflexivity|]. split; [exact (in_port_gr _ _ _ _ GI PI)|exact (gr_type _ _ _ _ _ GI TPI)].
  - constructor; [|constructor]. split; [unfold port; rewrite NM; reflexivity|]. split; [exact HO|exact (gr_type _ _ _ _ _ (sx_gr _ _ _ XE) TD)].
  - constructor; [|constructor]. exists d. split; [exact OPE|]. exact (last_word e k _ _ x (sarg_gr e _ _ _ _ _ _ _ (sx_gr _ _ _ XE) (proj1 VD))).
Qed.
End Body.
