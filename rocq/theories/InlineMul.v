(** * The inlined product of the example Kuznechik (proofs). *)
From Coq Require Import ZArith Bool String Lia.
From stdpp Require Import gmap list.
From Verif Require Import Types Word Value OpSpec Graph GraphSpec TypingSpec TypesProofs BuilderProofs BuilderProofs2 BuilderTopo GraphFacts StreamSpec Dfcir DfcirBuild
     Verilog Stubs Naming Firrtl Lower RtlSpec KernelSpec KernelValues Instance InstanceSpec InstanceLoop InstanceMain InstanceStep InstanceFlow LifeProofs ProgTyping SliceFacts
     CryptoSpec GaloisFacts KuzFacts Prog ProgFrame ProgRules ProgCalls ProgMux ProgPorts ProgInstance StdKernels ProgLib GaloisKernel KuzKernel KuzCipher ExampleKuz KuzExample InlineKuz.
Local Open Scope string_scope.
Local Open Scope Z_scope.

Lemma held_a e w k n W x : arg e w k n W x -> owner w n = k -> exists nd t, w_nodes w !! n = Some nd /\ w_types w !! n_ty nd = Some t /\ type_of w n = Some t /\ utype t W /\ n_meta nd = k /\ 0 < W < 65536.
Proof.
  intros A O. destruct (a_node _ _ _ _ _ _ A) as (nd & H & _). destruct (a_type _ _ _ _ _ _ A) as (t & Ht & UT). exists nd, t.
  split; [exact H|]. split; [unfold type_of in Ht; rewrite H in Ht; exact Ht|]. split; [exact Ht|]. split; [exact UT|]. split; [unfold owner in O; rewrite H in O; exact O|apply A].
Qed.

Lemma const_progress w ty t v : WF w -> w_types w !! ty = Some t -> is_Some (w_top w) -> exists w' r, create_or_use_const w ty v = Ok (w', r).
Proof.
  intros WFw Ht (k & Hk). destruct (cs_top _ (proj1 WFw) k Hk) as (g & Hg).
  unfold create_or_use_const, get_type. rewrite Ht. cbn [of_opt rbind]. rewrite Hk. cbn [of_opt rbind]. rewrite Hg. cbn [of_opt rbind].
  destruct (List.find _ _); [eauto|]. unfold add_node. rewrite Hg. cbn [of_opt rbind]. eauto.
Qed.

Section Inline.
Variable F : fltops.
Variable T : bool.
Variable e : env.

Lemma rule_slice_a h w k a W x l r : st F T h w -> arg e w k a W x -> owner w a = k -> 0 <= r <= l -> l < W ->
  wp F T h w (call (CSlice a l r)) (fun w' s => fr T w w' /\ holds e w' k s (l - r + 1) (fun i => (x i / 2 ^ r) mod 2 ^ (l - r + 1))).
Proof.
  intros S H OK LR LW. pose proof (st_WF F T h w S) as WFw. destruct (held_a _ _ _ _ _ _ H OK) as (nd & t & Hn & Hty & Ht & UT & Em & HW). destruct (utype_facts t W UT HW) as (_ & _ & TB & _).
  destruct (mk_op_progress (fst (add_type w (mkRaw (l - r + 1)))) k (BITS l r) (length (w_types w)) [a]) as (w' & s & E).
  { apply (add_type_WF w _ WFw). } { cbn. rewrite lookup_app_r, Nat.sub_diag by lia. eauto. } { discriminate. } { cbn. rewrite <- Em. exact (kern_of F _ _ _ _ _ S Hn). }
  { intros b Hb. apply elem_of_list_singleton in Hb as ->. apply usable_types. exact (arg_usable _ _ _ _ _ _ H). }
  assert (ES : step F w (CSlice a l r) = Ok (w', s)).
  { cbn [step]. unfold do_slice, get_node, get_type. rewrite Hn. cbn [of_opt rbind]. rewrite Hty. cbn [of_opt rbind]. unfold u16. rewrite !Z.mod_small by lia.
    destruct (Z.ltb_spec r l).
    - replace (total_bits t <=? l) with false by (symmetry; apply Z.leb_gt; lia). cbn. rewrite Em. exact E.
    - assert (l = r) by lia. subst l. replace (total_bits t <=? r) with false by (symmetry; apply Z.leb_gt; lia). cbn. rewrite Em. exact E. }
  destruct (step_ext F _ _ _ _ ES WFw) as [_ (ta & Hta & _ & NN)]. rewrite !Z.mod_small in NN by lia. rewrite OK in NN.
  rewrite Z.max_l, Z.min_r, Z.abs_eq, slice_raw in NN by lia.
  assert (U2 : utype (TRaw (l - r + 1)) (l - r + 1)) by (right; reflexivity).
  eapply wp_call; [exact S|exact ES|exact I|discriminate|]. split.
  - eapply node_fr; [exact S|exact ES|discriminate|exact I|exact NN| |exact I| |exact I].
    + intros b Hb. apply elem_of_list_singleton in Hb as ->. exact (arg_nohole _ _ _ _ _ _ H).
    + intros _. split; [apply (utype_facts _ _ U2); lia|]. split; [|left; cbn; lia]. intros ts lat F2. exact I.
  - eapply (node_holds F e T h w _ w' s k _ _ _ (l - r + 1) _ (fun _ => kind (TRaw (l - r + 1)))); [exact S|exact ES|discriminate|exact NN|discriminate|exact U2|lia|].
    eapply (un_value F e w _ w' s k _ _ a W x (l - r + 1) (fun v => (v / 2 ^ r) mod 2 ^ (l - r + 1))); [exact ES|exact WFw|discriminate|exact NN|exact I|exact U2|exact HW|lia| |exact H].
    intros ta0 v _ _. cbn. split; [reflexivity|]. apply Z.mod_pos_bound, Z.pow_pos_nonneg; lia.
Qed.

(** a shift of a constant is a constant, folded in 64 bits *)
Lemma rule_shift_const h w a W c n : st F T h w -> const_of w a (TFixed false W 0) c -> 0 < W < 65536 -> 0 <= c -> 0 <= n < 64 -> c * 2 ^ n < 2 ^ 64 -> is_Some (w_top w) ->
  wp F T h w (call (CShift true a n)) (fun w' r => fr T w w' /\ const_of w' r (TFixed false W 0) (c * 2 ^ n)).
Proof.
  intros S CA HW Hc Hn Hs Top. pose proof (st_WF F T h w S) as WFw. destruct CA as (nd & Hnd & Ev & Eo & Et).
  assert (P : 0 <= c * 2 ^ n) by (apply Z.mul_nonneg_nonneg; [lia|apply Z.pow_nonneg; lia]).
  destruct (const_progress w (n_ty nd) _ (c * 2 ^ n) WFw Et Top) as (w' & r & E0).
  assert (E : step F w (CShift true a n) = Ok (w', r)).
  { cbn [step]. unfold do_shift, get_node, u8. rewrite Hnd. cbn [of_opt rbind]. unfold const_value. rewrite Ev, Eo, (Z.mod_small n) by lia. unfold c_shl. replace (n <? 64) with true by (symmetry; apply Z.ltb_lt; lia). unfold w64. rewrite (Z.mod_small (c * 2 ^ n)) by (split; [exact P|exact Hs]). cbn [of_cval rbind]. exact E0. }
  destruct (step_ext F _ _ _ _ E WFw) as [[W' PR] [(t & va & v & CA & CR & EV)|(t & _ & N & _)]]; [|exfalso; apply N; exists nd; auto].
  destruct CA as (nd' & Hnd' & _ & Eo' & Et'). assert (nd' = nd) by congruence. subst nd'. assert (va = c) by congruence. subst va. assert (t = TFixed false W 0) by congruence. subst t.
  assert (v = c * 2 ^ n). { rewrite (Z.mod_small n) in EV by lia. unfold c_shl in EV. replace (n <? 64) with true in EV by (symmetry; apply Z.ltb_lt; lia). unfold w64 in EV. rewrite (Z.mod_small (c * 2 ^ n)) in EV by (split; [exact P|exact Hs]). congruence. } subst v.
  eapply wp_call; [exact S|exact E|exact I|discriminate|]. split; [|exact (proj1 CR)].
  pose proof (gr_constr w w' r _ _ WFw W' PR CR) as G. constructor; [exact G|exact (step_frame F _ _ _ _ E ltac:(discriminate))|exact (step_names F _ _ _ _ E WFw I)|].
  intros _ Ty. destruct CR as (CO & [->|(Fr & Hin & _)]); [exact Ty|]. destruct CO as (nr & Hr & Er & Eor & Etr).
  eapply (tidy_node [] w w' r (n_meta nr) (CONST (c * 2 ^ n)) (TFixed false W 0) VConst (n_name nr) []); [exact WFw|exact W'|exact G|exact PR| |intros b Hb; inversion Hb| | |left; cbn; lia|discriminate|exact I|exact Ty].
  - split; [exact Fr|]. split; [exists nr; auto 10|]. split; [exact Hin|]. intros b Hb. inversion Hb.
  - apply (utype_facts (TFixed false W 0) W); [left; reflexivity|exact HW].
  - intros ts lat F2. inversion F2. cbn. auto.
Qed.
(** a constant that does not fit has the value of its low bits *)
Lemma const_arg_mod w k n W c : const_of w n (TFixed false W 0) c -> 0 < W <= 64 -> 0 <= c < 2 ^ 64 -> arg e w k n W (fun _ => c mod 2 ^ W).
Proof.
  intros (nd & H & Ev & Eo & Et) HW Hc. assert (0 < 2 ^ W) by (apply Z.pow_pos_nonneg; lia). constructor; [| |lia|].
  - exists nd. split; [exact H|]. split; [congruence|auto].
  - exists (TFixed false W 0). split; [unfold type_of; rewrite H; exact Et|left; reflexivity].
  - exists (fun _ => TFixed false W 0). intros i Hi. split; [left; reflexivity|]. split; [|apply Z.mod_pos_bound; assumption].
    replace (TFixed false W 0, c mod 2 ^ W) with (i_const (hw e) (TFixed false W 0) c); [apply (kv_const (hw e) w n nd); [exact H|exact Eo|unfold type_of; rewrite H; exact Et]|].
    cbn. f_equal. unfold num. cbn. unfold u16. rewrite !Z.add_0_r, (Z.mod_small W) by lia. reflexivity.
Qed.

(** the first iteration, on a constant *)
Lemma inline_first h w k c0 c195 lft rgt cc r : st F T h w -> topk w k -> const_of w lft (TFixed false 8 0) cc -> is_byte cc -> holds e w k rgt 8 r ->
  const_of w c0 (TFixed false 8 0) 0 -> const_of w c195 (TFixed false 8 0) 195 ->
  wp F T h w (galois_step k c0 c195 (lft, rgt, c0)) (fun w' s => fr T w w' /\ type_of w' (fst (fst s)) = Some (TFixed false 8 0) /\
    holds e w' k (fst (fst s)) 8 (fun i => fst (fst (peasant_step (cc, r i, 0)))) /\ holds e w' k (snd (fst s)) 8 (fun i => snd (fst (peasant_step (cc, r i, 0)))) /\
    holds e w' k (snd s) 8 (fun i => snd (peasant_step (cc, r i, 0)))).
Proof.
  intros S TK CL HB HR C0 C195. unfold galois_step. unfold is_byte in HB.
  seqr (rule_bits F e T h w k rgt 8 r 0 0 1 S HR ltac:(lia) ltac:(lia) eq_refl). intros h1 w1 b S1 (F1 & HBit). ck F1.
  seqr (rule_mux2 F e T h1 w1 k b _ c0 lft 8 (fun _ => 0) (fun _ => cc) S1 HBit (const_arg e w1 k c0 8 0 C0 ltac:(lia) ltac:(lia) ltac:(lia)) (const_arg e w1 k lft 8 cc CL ltac:(lia) ltac:(lia) ltac:(lia)) (fun _ => ex_intro _ _ (conj (const_type _ _ _ _ C0) (const_type _ _ _ _ CL)))). intros h2 w2 m S2 (F2 & HM). ck F2.
  seqr (rule_xor F e T h2 w2 k c0 m 8 (fun _ => 0) _ S2 (const_arg e w2 k c0 8 0 C0 ltac:(lia) ltac:(lia) ltac:(lia)) (proj1 HM) (or_intror HM)). intros h3 w3 curr' S3 (F3 & HC' & _). ck F3.
 
  seqr (rule_slice_a h3 w3 k lft 8 (fun _ => cc) 7 7 S3 (const_arg e w3 k lft 8 cc CL ltac:(lia) ltac:(lia) ltac:(lia)) (const_owner _ _ _ _ _ (st_WF F _ _ _ S3) CL (proj1 TK)) ltac:(lia) ltac:(lia)). intros h4 w4 o S4 (F4 & HO). ck F4. change (7 - 7 + 1) with 1 in HO.
  seqr (rule_mux2 F e T h4 w4 k o _ c0 c195 8 (fun _ => 0) (fun _ => 195) S4 HO (const_arg e w4 k c0 8 0 C0 ltac:(lia) ltac:(lia) ltac:(lia)) (const_arg e w4 k c195 8 195 C195 ltac:(lia) ltac:(lia) ltac:(lia)) (fun _ => ex_intro _ _ (conj (const_type _ _ _ _ C0) (const_type _ _ _ _ C195)))). intros h5 w5 mx S5 (F5 & HX). ck F5.
 
  seqr (rule_shift_const h5 w5 lft 8 cc 1 S5 CL ltac:(lia) ltac:(lia) ltac:(lia) ltac:(change (2 ^ 1) with 2; lia) (ex_intro _ _ (proj1 TK))). intros h6 w6 sh S6 (F6 & HS). ck F6.
  seqr (rule_xor F e T h6 w6 k sh mx 8 _ _ S6 (const_arg_mod w6 k sh 8 _ HS ltac:(lia) ltac:(change (2 ^ 1) with 2; lia)) (proj1 HX) (or_intror HX)). intros h7 w7 lft' S7 (F7 & HL' & _ & TL'). rewrite (const_type _ _ _ _ HS) in TL'. ck F7.
  seqr (rule_shift F e T h7 w7 k rgt 8 r false 1 S7 HR ltac:(lia)). intros h8 w8 rgt' S8 (F8 & HR' & _). ck F8.
  apply wp_ret; [exact S8|]. cbn [fst snd]. split; [|split; [|split; [|split]]].
  - exact (fr_trans _ _ _ _ F1 (fr_trans _ _ _ _ F2 (fr_trans _ _ _ _ F3 (fr_trans _ _ _ _ F4 (fr_trans _ _ _ _ F5 (fr_trans _ _ _ _ F6 (fr_trans _ _ _ _ F7 F8))))))).
  - assumption.
  - eapply holds_ext; [|exact HL']. intros i Hi. cbn beta. unfold peasant_step. cbn [fst snd]. f_equal. change (2 ^ 1) with 2. rewrite odd_mod2. reflexivity.
  - eapply holds_ext; [|exact HR']. intros i Hi. reflexivity.
  - eapply holds_ext; [|exact HC']. intros i Hi. cbn beta. unfold peasant_step. cbn [fst snd]. f_equal. change (2 ^ 1) with 2. change (2 ^ 0) with 1. rewrite Z.div_1_r, odd_mod2. reflexivity.
Qed.
Lemma rule_inline_mul h w k ty lft rgt cc b : st F T h w -> topk w k -> w_types w !! ty = Some (TFixed false 8 0) -> const_of w lft (TFixed false 8 0) cc -> is_byte cc -> holds e w k rgt 8 b ->
  wp F T h w (inline_mul k ty lft rgt) (fun w' s => fr T w w' /\ holds e w' k s 8 (fun i => gf_mul cc (b i))).
Proof.
  intros S TK Ht CL CB HR. unfold inline_mul. assert (TW : is_Some (w_top w)) by (exists k; apply TK).
  seqr (rule_const F T h w ty 8 0 S Ht ltac:(lia) ltac:(lia) TW). intros h1 w1 c0 S1 (F1 & C0). ck F1.
  assert (TW1 : is_Some (w_top w1)) by (exists k; apply TK).
  seqr (rule_const F T h1 w1 ty 8 195 S1 Ht ltac:(lia) ltac:(lia) TW1). intros h2 w2 c195 S2 (F2 & C195). ck F2.
  change (seq 0 7) with (0%nat :: seq 1 6). cbn [pfold].
  assert (LOOP : wp F T h2 w2 (do s <- galois_step k c0 c195 (lft, rgt, c0); pfold (fun s _ => galois_step k c0 c195 s) s (seq 1 6))
     (fun w' s => fr T w2 w' /\ type_of w' (fst (fst s)) = Some (TFixed false 8 0) /\ exists l0 r0 c1, (forall i, (l0 i, r0 i, c1 i) = Nat.iter 7 peasant_step (cc, b i, 0)) /\
       whold e w' k (fst (fst s)) 8 l0 /\ holds e w' k (snd (fst s)) 8 r0 /\ arg e w' k (snd s) 8 c1)).
  { eapply rule_bind; [exact (inline_first h2 w2 k c0 c195 lft rgt cc b S2 TK CL CB HR C0 C195)|]. cbn beta. intros h3 w3 s3 S3 (F3 & TY3 & A3 & B3 & D3). ck F3.
    eapply wp_conseq; [apply (rule_fold F T _ (fun l w' s => (length l <= 6)%nat /\ fr T w3 w' /\ fr T w2 w' /\ type_of w' (fst (fst s)) = Some (TFixed false 8 0) /\ exists l0 r0 c1, (forall i, (l0 i, r0 i, c1 i) = Nat.iter (7 - length l) peasant_step (cc, b i, 0)) /\
       whold e w' k (fst (fst s)) 8 l0 /\ holds e w' k (snd (fst s)) 8 r0 /\ arg e w' k (snd s) 8 c1)); [|exact S3|]|].
    - intros j l h' w' s S' (LE & F' & F2' & TY & l0 & r0 & c1 & EQ & H1 & H2 & H3). destruct s as [[lf rg] cu]. cbn [fst snd] in *. pose proof C0 as C0'. pose proof C195 as C195'. apply (gr_const _ _ _ _ _ _ (f_gr _ _ _ F')) in C0'. apply (gr_const _ _ _ _ _ _ (f_gr _ _ _ F')) in C195'.
      eapply wp_conseq; [exact (galois_step_rule F e T h' w' k c0 c195 lf rg cu l0 r0 c1 S' H1 H2 H3 TY C0' C195')|]. cbn beta. intros w'' s (F'' & TY' & G1 & G2 & G3). split; [cbn in LE; lia|]. split; [exact (fr_trans _ _ _ _ F' F'')|]. split; [exact (fr_trans _ _ _ _ F2' F'')|]. split; [exact TY'|].
      eexists _, _, _. split; [|split; [exact (weak _ _ _ _ _ _ G1)|split; [exact G2|exact (proj1 G3)]]]. intro i. cbn beta. rewrite <- !surjective_pairing, EQ. cbn [length] in *. replace (7 - length l)%nat with (Datatypes.S (7 - Datatypes.S (length l))) by lia. reflexivity.
    - split; [cbn; lia|]. split; [apply fr_refl|]. split; [exact F3|]. split; [exact TY3|]. eexists _, _, _. split; [|split; [exact (weak _ _ _ _ _ _ A3)|split; [exact B3|exact (proj1 D3)]]]. intro i. cbn beta. rewrite <- !surjective_pairing. reflexivity.
    - cbn beta. intros w' s (_ & _ & F2' & TY & l0 & r0 & c1 & EQ & R). split; [exact F2'|]. split; [exact TY|]. exists l0, r0, c1. split; [exact EQ|exact R]. }
  eapply rule_bind; [exact LOOP|].
  cbn beta. intros h6 w6 [[lf rg] cu] S6 (F6 & TY & l0 & r0 & c1 & EQ & H1 & H2 & H3). cbn [fst snd length Nat.sub] in *.
  apply (gr_const _ _ _ _ _ _ (f_gr _ _ _ F6)) in C0. pose proof (holds_gr _ _ _ _ _ _ _ _ (f_gr _ _ _ F6) HR) as HR6.
  seqr (rule_bits F e T h6 w6 k rg 8 r0 0 0 1 S6 H2 ltac:(lia) ltac:(lia) eq_refl). intros h7 w7 bt S7 (F7 & HB). ck F7.
  seqr (rule_mux2 F e T h7 w7 k bt _ c0 lf 8 (fun _ => 0) l0 S7 HB (const_arg e w7 k c0 8 0 C0 ltac:(lia) ltac:(lia) ltac:(lia)) (proj1 H1) (fun _ => ex_intro _ _ (conj (const_type _ _ _ _ C0) TY))). intros h8 w8 m S8 (F8 & HM). ck F8.
  eapply wp_conseq; [exact (rule_xor F e T h8 w8 k cu m 8 c1 _ S8 H3 (proj1 HM) (or_intror HM))|]. cbn beta. intros w9 d (F9 & HD & _).
  split; [exact (fr_trans _ _ _ _ F1 (fr_trans _ _ _ _ F2 (fr_trans _ _ _ _ F6 (fr_trans _ _ _ _ F7 (fr_trans _ _ _ _ F8 F9)))))|].
  eapply holds_ext; [|exact HD]. intros i Hi. cbn beta. pose proof (holds_range _ _ _ _ _ _ i HR Hi) as RB. rewrite <- peasant_gf_mul by (unfold is_byte in *; lia). unfold peasant. rewrite <- EQ. change (2 ^ 0) with 1. change (2 ^ 1) with 2. rewrite Z.div_1_r, odd_mod2. reflexivity.
Qed.
Lemma rule_inlin h w k v W x : st F T h w -> topk w k -> holds e w k v W x -> 128 <= W ->
  wp F T h w (inline_LGalois k v) (fun w' s => fr T w w' /\ holds e w' k s 8 (fun i => lin_part 16 (x i))).
Proof.
  intros S TK HV HW.
  assert (FIN : forall j r, j :: r = seq (16 - length (j :: r)) (length (j :: r)) -> (length (j :: r) <= 15)%nat -> j = (16 - Datatypes.S (length r))%nat /\ r = seq (Datatypes.S (16 - Datatypes.S (length r))) (length r) /\ (16 - length r)%nat = Datatypes.S (16 - Datatypes.S (length r))).
  { intros j r ER LE. cbn [length seq] in *. injection ER as E1 E2. repeat split; auto; lia. }
  unfold inline_LGalois. seqr (rule_dfUInt F T h w 8 S ltac:(lia)). intros h1 w1 ty S1 (F1 & Ht). ck F1.
  eapply rule_bind; [apply (rule_consts F T ty 8 ltac:(lia) kuz_coeffs h1 w1 S1 Ht); [repeat (constructor; [lia|]); constructor|destruct TK as (-> & _); eauto]|]. cbn beta. intros h1' w1' cs S1' (F1' & CS). ck F1'.
  seqr (rule_byte F T e h1' w1' k v W x 0 S1' HV HW ltac:(lia)). intros h2 w2 b S2 (F2 & HB). ck F2.
  seqr (rule_inline_mul h2 w2 k ty _ b _ _ S2 TK Ht (consts_nth _ _ _ _ 0 CS ltac:(cbn; lia)) (coeffs_byte 0 ltac:(lia)) HB). intros h4 w4 r0 S4 (F4 & H4). ck F4.
  eapply wp_conseq; [apply (rule_fold F T _ (fun r w' s => (length r <= 15)%nat /\ r = seq (16 - length r) (length r) /\ fr T w4 w' /\ holds e w' k s 8 (fun i => lin_part (16 - length r) (x i)))); [|exact S4|]|].
  - intros j r h' w' s' S' (LE & ER & F' & H'). destruct (FIN j r ER LE) as (Ej & Er & El). cbn [length] in H', LE.
    pose proof (topk_frame _ _ _ (f_frame _ _ _ F') TK) as TK'. pose proof (holds_gr _ _ _ _ _ _ _ _ (f_gr _ _ _ F') HV) as HV'. pose proof (g_types _ _ _ (f_gr _ _ _ F') _ _ Ht) as Ht'. pose proof (consts_gr _ _ _ _ _ _ (f_gr _ _ _ F') CS) as CS'.
    seqr (rule_byte F T e h' w' k v W x j S' HV' HW ltac:(lia)). intros h6 w6 b6 S6 (F6 & HB6). ck F6.
    seqr (rule_inline_mul h6 w6 k ty _ b6 _ _ S6 TK' Ht' (consts_nth _ _ _ _ j CS' ltac:(cbn; lia)) (coeffs_byte j ltac:(lia)) HB6). intros h7 w7 b7 S7 (F7 & H7). ck F7.
    eapply wp_conseq; [exact (rule_xor F e T h7 w7 k s' b7 8 _ _ S7 (proj1 H') (proj1 H7) (or_introl H'))|]. cbn beta. intros w8 s8 (F8 & H8 & _).
    rewrite El. split; [lia|]. split; [exact Er|]. split; [exact (fr_trans _ _ _ _ F' (fr_trans _ _ _ _ F6 (fr_trans _ _ _ _ F7 F8)))|]. eapply holds_ext; [|exact H8]. intros i _. cbn beta. unfold lin_part. rewrite seq_S, fold_left_app. cbn [fold_left Nat.add]. rewrite <- Ej. reflexivity.
  - rewrite seq_length. split; [lia|]. split; [reflexivity|]. split; [apply fr_refl|]. eapply holds_ext; [|exact H4]. intros i _. unfold lin_part. cbn [seq fold_left Nat.sub]. symmetry. apply Z.lxor_0_l.
  - cbn beta. intros w' s' (_ & _ & F' & H'). split; [exact (fr_trans _ _ _ _ F1 (fr_trans _ _ _ _ F1' (fr_trans _ _ _ _ F2 (fr_trans _ _ _ _ F4 F'))))|exact H'].
Qed.
End Inline.
