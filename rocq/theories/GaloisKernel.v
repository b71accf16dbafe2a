(** * Galois8Mul and KuznechikGalois8Mul compute products of GF(2^8) (proofs). *)
From Coq Require Import ZArith Bool String Lia.
From stdpp Require Import gmap list.
From Verif Require Import Types Word Value OpSpec Graph GraphSpec TypesProofs BuilderProofs BuilderProofs2 BuilderTopo GraphFacts StreamSpec Dfcir DfcirBuild
     Verilog Stubs Naming Firrtl Lower RtlSpec KernelSpec KernelValues Instance InstanceSpec InstanceLoop InstanceMain InstanceStep InstanceFlow LifeProofs ProgTyping SliceFacts
     CryptoSpec GaloisFacts KuzFacts Prog ProgFrame ProgRules ProgCalls ProgMux ProgPorts ProgInstance StdKernels ProgLib.
Local Open Scope string_scope.
Local Open Scope Z_scope.

Ltac seqr rule := eapply rule_bind; [exact rule|]; cbn beta.

Lemma odd_mod2 a : Z.odd (a mod 2) = Z.odd a.
Proof. rewrite Zmod_odd. destruct (Z.odd a); reflexivity. Qed.

Lemma const_type w n t c : const_of w n t c -> type_of w n = Some t.
Proof. intros (nd & H & _ & _ & E). unfold type_of. rewrite H. exact E. Qed.
Section Galois.
Variable F : fltops.

Lemma galois_step_rule e T h w k c0 c195 lft rgt curr l r c : st F T h w -> whold e w k lft 8 l -> holds e w k rgt 8 r -> arg e w k curr 8 c -> type_of w lft = Some (TFixed false 8 0) ->
  const_of w c0 (TFixed false 8 0) 0 -> const_of w c195 (TFixed false 8 0) 195 ->
  wp F T h w (galois_step k c0 c195 (lft, rgt, curr)) (fun w' s => fr T w w' /\ type_of w' (fst (fst s)) = Some (TFixed false 8 0) /\
    holds e w' k (fst (fst s)) 8 (fun i => fst (fst (peasant_step (l i, r i, c i)))) /\ holds e w' k (snd (fst s)) 8 (fun i => snd (fst (peasant_step (l i, r i, c i)))) /\
    holds e w' k (snd s) 8 (fun i => snd (peasant_step (l i, r i, c i)))).
Proof.
  intros S HL HR HC TL C0 C195. unfold galois_step.
  seqr (rule_bits F e T h w k rgt 8 r 0 0 1 S HR ltac:(lia) ltac:(lia) eq_refl). intros h1 w1 b S1 (F1 & HB). cfr F1.
  seqr (rule_mux2 F e T h1 w1 k b _ c0 lft 8 (fun _ => 0) l S1 HB (const_arg e w1 k c0 8 0 C0 ltac:(lia) ltac:(lia) ltac:(lia)) (proj1 HL) (fun _ => ex_intro _ _ (conj (const_type _ _ _ _ C0) TL))). intros h2 w2 m S2 (F2 & HM). cfr F2.
  seqr (rule_xor F e T h2 w2 k curr m 8 c _ S2 HC (proj1 HM) (or_intror HM)). intros h3 w3 curr' S3 (F3 & HC' & _). cfr F3.
  seqr (rule_bits_w F e T h3 w3 k lft 8 l 7 7 1 S3 HL ltac:(lia) ltac:(lia) eq_refl). intros h4 w4 o S4 (F4 & HO). cfr F4.
  seqr (rule_mux2 F e T h4 w4 k o _ c0 c195 8 (fun _ => 0) (fun _ => 195) S4 HO (const_arg e w4 k c0 8 0 C0 ltac:(lia) ltac:(lia) ltac:(lia)) (const_arg e w4 k c195 8 195 C195 ltac:(lia) ltac:(lia) ltac:(lia)) (fun _ => ex_intro _ _ (conj (const_type _ _ _ _ C0) (const_type _ _ _ _ C195)))). intros h5 w5 mx S5 (F5 & HX). cfr F5.
  seqr (rule_shift_w F e T h5 w5 k lft 8 l true 1 S5 HL ltac:(lia)). intros h6 w6 sh S6 (F6 & HS & _ & TS). rewrite TL in TS. cfr F6.
  seqr (rule_xor F e T h6 w6 k sh mx 8 _ _ S6 (proj1 HS) (proj1 HX) (or_introl HS)). intros h7 w7 lft' S7 (F7 & HL' & _ & TL'). rewrite TS in TL'. cfr F7.
  seqr (rule_shift F e T h7 w7 k rgt 8 r false 1 S7 HR ltac:(lia)). intros h8 w8 rgt' S8 (F8 & HR' & _). cfr F8.
  apply wp_ret; [exact S8|]. cbn [fst snd]. split; [|split; [exact TL'|split; [|split]]].
  - exact (fr_trans _ _ _ _ F1 (fr_trans _ _ _ _ F2 (fr_trans _ _ _ _ F3 (fr_trans _ _ _ _ F4 (fr_trans _ _ _ _ F5 (fr_trans _ _ _ _ F6 (fr_trans _ _ _ _ F7 F8))))))).
  - eapply holds_ext; [|exact HL']. intros i Hi. cbn beta. unfold peasant_step. cbn [fst snd]. f_equal. change (2 ^ 1) with 2. rewrite odd_mod2. reflexivity.
  - eapply holds_ext; [|exact HR']. intros i Hi. reflexivity.
  - eapply holds_ext; [|exact HC']. intros i Hi. cbn beta. unfold peasant_step. cbn [fst snd]. f_equal. change (2 ^ 1) with 2. change (2 ^ 0) with 1. rewrite Z.div_1_r, odd_mod2. reflexivity.
Qed.

(** an output that was created and then driven *)
Lemma old_free X w w' n : gr X w w' -> w_nodes w' !! n = None -> w_nodes w !! n = None.
Proof. intros G H. destruct (w_nodes w !! n) as [nd|] eqn:E; [|reflexivity]. destruct (g_live _ _ _ G n nd E) as (z & Hz & _). congruence. Qed.

(** stream [s] carries [W] bit numbers *)
Definition carries (e : env) (s : string) (W : Z) (x : Z -> Z) : Prop := exists f : Z -> dftype, forall i, 0 <= i -> e_stream e s i = (f i, x i) /\ utype (f i) W /\ 0 <= x i < 2 ^ W.

Lemma rule_galois e T h w k a b : st F T h w -> is_Some (w_kern w !! k) -> is_Some (w_top w) -> names w k = [] -> carries e "left" 8 a -> carries e "right" 8 b ->
  wp F T h w (Galois8Mul k) (fun w2 _ => exists ports out d, child T e w w2 k ["left"; "right"] [8; 8] ports "result" out d 8 (fun i => gf_mul (a i) (b i)) /\ forall n, n ∈ ports -> n <> d).
Proof.
  intros S KW TW NW (fa & EA) (fb & EB). unfold Galois8Mul.
  seqr (rule_dfUInt F T h w 8 S ltac:(lia)). intros h1 w1 ty S1 (F1 & Ht). cfr F1. pose proof (f_names _ _ _ F1 k) as N1. rewrite NW in N1.
  seqr (rule_input_w F e T h1 w1 k "left" ty 8 a fa S1 Ht ltac:(lia) KW ltac:(discriminate) EA). intros h2 w2 lft S2 (X2 & Fr2 & HL & _ & IL & TL & N2 & N2'). carry (x_gr _ _ _ _ X2) (x_frame _ _ _ _ X2). rewrite N1 in N2.
  seqr (rule_input F e T h2 w2 k "right" ty 8 b fb S2 Ht ltac:(lia) KW ltac:(split; discriminate) EB). intros h3 w3 rgt S3 (X3 & Fr3 & HR & IR & TR & N3 & N3'). carry (x_gr _ _ _ _ X3) (x_frame _ _ _ _ X3). rewrite N2 in N3.
  seqr (rule_const F T h3 w3 ty 8 0 S3 Ht ltac:(lia) ltac:(lia) TW). intros h4 w4 c0 S4 (F4 & C0). cfr F4.
  seqr (rule_const F T h4 w4 ty 8 195 S4 Ht ltac:(lia) ltac:(lia) TW). intros h5 w5 c195 S5 (F5 & C195). cfr F5.
  eapply rule_bind.
  { apply (rule_fold F T _ (fun l w' s => (length l <= 7)%nat /\ fr T w5 w' /\ type_of w' (fst (fst s)) = Some (TFixed false 8 0) /\ exists l0 r0 c1, (forall i, (l0 i, r0 i, c1 i) = Nat.iter (7 - length l) peasant_step (a i, b i, 0)) /\
       whold e w' k (fst (fst s)) 8 l0 /\ holds e w' k (snd (fst s)) 8 r0 /\ arg e w' k (snd s) 8 c1)); [|exact S5|].
    - intros j l h' w' s S' (LE & F' & TY & l0 & r0 & c1 & EQ & H1 & H2 & H3). destruct s as [[lf rg] cu]. cbn [fst snd] in *. pose proof C0 as C0'. pose proof C195 as C195'. apply (gr_const _ _ _ _ _ _ (f_gr _ _ _ F')) in C0'. apply (gr_const _ _ _ _ _ _ (f_gr _ _ _ F')) in C195'.
      eapply wp_conseq; [exact (galois_step_rule e T h' w' k c0 c195 lf rg cu l0 r0 c1 S' H1 H2 H3 TY C0' C195')|]. cbn beta. intros w'' s (F'' & TY' & G1 & G2 & G3). split; [cbn in LE; lia|]. split; [exact (fr_trans _ _ _ _ F' F'')|]. split; [exact TY'|].
      eexists _, _, _. split; [|split; [exact (weak _ _ _ _ _ _ G1)|split; [exact G2|exact (proj1 G3)]]]. intro i. cbn beta. rewrite <- !surjective_pairing, EQ. cbn [length] in *. replace (7 - length l)%nat with (Datatypes.S (7 - Datatypes.S (length l))) by lia. reflexivity.
    - split; [cbn; lia|]. split; [apply fr_refl|]. split; [exact TL|]. exists a, b, (fun _ => 0). split; [intro i; reflexivity|]. split; [exact HL|]. split; [exact HR|]. exact (const_arg e w5 k c0 8 0 C0 ltac:(lia) ltac:(lia) ltac:(lia)). }
  cbn beta. intros h6 w6 [[lf rg] cu] S6 (_ & F6 & TY & l0 & r0 & c1 & EQ & H1 & H2 & H3). cbn [fst snd length Nat.sub] in *. cfr F6.
  seqr (rule_bits F e T h6 w6 k rg 8 r0 0 0 1 S6 H2 ltac:(lia) ltac:(lia) eq_refl). intros h7 w7 bt S7 (F7 & HB). cfr F7.
  seqr (rule_mux2 F e T h7 w7 k bt _ c0 lf 8 (fun _ => 0) l0 S7 HB (const_arg e w7 k c0 8 0 C0 ltac:(lia) ltac:(lia) ltac:(lia)) (proj1 H1) (fun _ => ex_intro _ _ (conj (const_type _ _ _ _ C0) TY))). intros h8 w8 m S8 (F8 & HM). cfr F8.
  assert (IL8 : exists z, w_nodes w8 !! lft = Some z) by (destruct IL as ((z & Hz & _) & _); eauto). assert (IR8 : exists z, w_nodes w8 !! rgt = Some z) by (destruct IR as ((z & Hz & _) & _); eauto).
  seqr (rule_xor F e T h8 w8 k cu m 8 c1 _ S8 H3 (proj1 HM) (or_intror HM)). intros h9 w9 d S9 (F9 & HD & FD & _). cfr F9.
  assert (ND : forall n, n ∈ [lft; rgt] -> n <> d) by (intros n Hn ->; rewrite !elem_of_cons in Hn; destruct Hn as [<-|[<-|Hn]]; [destruct IL8; congruence|destruct IR8; congruence|inversion Hn]).
  assert (EV : forall i, 0 <= i -> Z.lxor (c1 i) (if Z.odd ((r0 i / 2 ^ 0) mod 2 ^ 1) then l0 i else 0) = gf_mul (a i) (b i)).
  { intros i Hi. destruct (EA i Hi) as (_ & _ & RA). destruct (EB i Hi) as (_ & _ & RB). rewrite <- peasant_gf_mul by assumption. unfold peasant. rewrite <- EQ. change (2 ^ 0) with 1. change (2 ^ 1) with 2. rewrite Z.div_1_r, odd_mod2. reflexivity. }
  apply (holds_ext _ _ _ _ _ _ _ EV) in HD. assert (X9 : ext T [] w3 w9) by exact (fr_ext _ _ _ (fr_trans _ _ _ _ F4 (fr_trans _ _ _ _ F5 (fr_trans _ _ _ _ F6 (fr_trans _ _ _ _ F7 (fr_trans _ _ _ _ F8 F9)))))).
  assert (N9 : forall j, names w9 j = names w3 j) by (intro j; exact (f_names _ _ _ (fr_trans _ _ _ _ F4 (fr_trans _ _ _ _ F5 (fr_trans _ _ _ _ F6 (fr_trans _ _ _ _ F7 (fr_trans _ _ _ _ F8 F9))))) j)).
  seqr (rule_output F T h9 w9 k "result" ty 8 S9 Ht ltac:(lia) KW ltac:(discriminate)). intros h10 w10 out S10 (X10 & Fr10 & OO & TO & _ & N10 & N10'). carry (x_gr _ _ _ _ X10) (x_frame _ _ _ _ X10).
  seqr (rule_connect F e T h10 w10 k out d 8 _ (TFixed false 8 0) S10 OO HD TO (fun _ => conj eq_refl (Z.le_refl 8))). intros h11 w11 zz S11 (X11 & O11 & D11 & R11 & W11 & N11). carry (x_gr _ _ _ _ X11) (x_frame _ _ _ _ X11).
  apply wp_ret; [exact S11|]. exists [lft; rgt], out, d. split; [|exact ND].
  pose proof (ext_trans _ _ _ _ _ _ (fr_ext _ _ _ F1) X2) as Y2. pose proof (ext_trans _ _ _ _ _ _ Y2 X3) as Y3. pose proof (ext_trans _ _ _ _ _ _ Y3 X9) as Y9. pose proof (ext_trans _ _ _ _ _ _ Y9 X10) as Y10. pose proof (ext_trans _ _ _ _ _ _ Y10 X11) as Y11. cbn [app] in Y2, Y3, Y9, Y10, Y11.
  constructor; auto.
  - apply (ext_same _ _ _ _ _ Y11). intro n. rewrite !elem_of_cons. tauto.
  - intros n Hn. rewrite !elem_of_cons in Hn. destruct Hn as [->|[->|[->|Hn]]]; [exact (old_free _ _ _ _ (x_gr _ _ _ _ Y9) Fr10)|exact (old_free _ _ _ _ (f_gr _ _ _ F1) Fr2)|exact (old_free _ _ _ _ (x_gr _ _ _ _ Y2) Fr3)|inversion Hn].
  - intros j Nj. rewrite N11, N10', N9, N3', N2', (f_names _ _ _ F1) by exact Nj. reflexivity.
  - constructor; [|constructor; [|constructor]]; (split; [unfold port; rewrite N11, N10, N9, N3; reflexivity|assumption]).
  - unfold port. rewrite N11, N10. reflexivity.
Qed.

(** ** Multiplication by a constant, with tables *)
Definition table_ok (c : Z) (t : list Z) : bool :=
  Nat.eqb (length t) 256 && forallb (fun j => nth j t 0 =? gf_mul c (Z.of_nat j)) (seq 0 256).
Definition tables_ok : bool := forallb (fun c => match mul_table c with Some t => table_ok c t | None => false end) [0x94; 0x20; 0x85; 0x10; 0xC2; 0xC0; 0xFB].
Lemma tables_checked : tables_ok = true.
Proof. vm_compute. reflexivity. Qed.
Definition coefficient (c : Z) : Prop := c ∈ [0x94; 0x20; 0x85; 0x10; 0xC2; 0xC0; 0xFB].
Lemma table_spec c : coefficient c -> exists t, mul_table c = Some t /\ length t = 256%nat /\ forall x, 0 <= x < 256 -> nth (Z.to_nat x) t 0 = gf_mul c x.
Proof.
  intro H. pose proof tables_checked as TC. unfold tables_ok in TC. rewrite forallb_forall in TC. apply elem_of_list_In in H. specialize (TC c H). destruct (mul_table c) as [t|]; [|discriminate]. exists t. split; [reflexivity|].
  unfold table_ok in TC. apply andb_prop in TC as [A B]. apply Nat.eqb_eq in A. split; [exact A|]. intros x Hx. rewrite forallb_forall in B. specialize (B (Z.to_nat x) ltac:(apply in_seq; lia)). apply Z.eqb_eq in B. rewrite B. rewrite Z2Nat.id by lia. reflexivity.
Qed.
Lemma rule_kgalois e T h w k c a : st F T h w -> is_Some (w_kern w !! k) -> is_Some (w_top w) -> names w k = [] -> carries e "in" 8 a -> c = 1 \/ coefficient c ->
  wp F T h w (KuznechikGalois8Mul c k) (fun w2 _ => exists ports out d, child T e w w2 k ["in"] [8] ports "out" out d 8 (fun i => gf_mul c (a i))).
Proof.
  intros S KW TW NW (fa & EA) HC. unfold KuznechikGalois8Mul.
  seqr (rule_dfUInt F T h w 8 S ltac:(lia)). intros h1 w1 ty S1 (F1 & Ht). cfr F1. pose proof (f_names _ _ _ F1 k) as N1. rewrite NW in N1.
  seqr (rule_input F e T h1 w1 k "in" ty 8 a fa S1 Ht ltac:(lia) KW ltac:(split; discriminate) EA). intros h2 w2 lft S2 (X2 & Fr2 & HL & IL & TL & N2 & N2'). carry (x_gr _ _ _ _ X2) (x_frame _ _ _ _ X2). rewrite N1 in N2.
  seqr (rule_output F T h2 w2 k "out" ty 8 S2 Ht ltac:(lia) KW ltac:(discriminate)). intros h3 w3 out S3 (X3 & Fr3 & OO & TO & _ & N3 & N3'). carry (x_gr _ _ _ _ X3) (x_frame _ _ _ _ X3). rewrite N2 in N3.
  eapply (rule_bind F _ _ _ _ _ (fun w4 d => fr T w3 w4 /\ holds e w4 k d 8 (fun i => gf_mul c (a i)))).
  { destruct (c =? 1) eqn:E1.
    - apply Z.eqb_eq in E1. subst c. apply wp_ret; [exact S3|]. split; [apply fr_refl|]. eapply holds_ext; [|exact HL]. intros i Hi. symmetry. apply gf_mul_1. exact (holds_range _ _ _ _ _ _ i HL Hi).
    - apply Z.eqb_neq in E1. destruct HC as [HC|HC]; [contradiction|]. destruct (table_spec c HC) as (t & ET & LT & VT). rewrite ET.
      assert (CB : 0 <= c < 256) by (unfold coefficient in HC; repeat (apply elem_of_cons in HC; destruct HC as [->|HC]; [lia|]); inversion HC).
      assert (TB : Forall (fun v => 0 <= v < 256) t).
      { apply Forall_forall. intros v Hv. apply elem_of_list_lookup in Hv as (j & Hj). pose proof (lookup_lt_Some _ _ _ Hj). apply nth_lookup_Some with (d := 0) in Hj. specialize (VT (Z.of_nat j) ltac:(lia)). rewrite Nat2Z.id, Hj in VT. subst v. apply gf_mul_byte; lia. }
      seqr (rule_consts F T ty 8 ltac:(lia) t h3 w3 S3 Ht ltac:(eapply Forall_impl; [exact TB|]; cbn; intros; lia) TW). intros h4 w4 cs S4 (F4 & C4). cfr F4.
      eapply wp_conseq; [apply (rule_table F e T h4 w4 k lft 8 a cs 8 t S4 HL C4); [lia|eapply Forall_impl; [exact TB|]; cbn; intros; lia|rewrite LT; cbn; lia]|].
      cbn beta. intros w5 s (F5 & H5 & _). split; [exact (fr_trans _ _ _ _ F4 F5)|]. eapply holds_ext; [|exact H5]. intros i Hi. apply VT. exact (holds_range _ _ _ _ _ _ i HL Hi). }
  cbn beta. intros h4 w4 d S4 (F4 & HD). cfr F4. apply (open_gr _ _ _ _ _ (f_gr _ _ _ F4)) in OO; [|intro I; inversion I].
  seqr (rule_connect F e T h4 w4 k out d 8 _ (TFixed false 8 0) S4 OO HD TO (fun _ => conj eq_refl (Z.le_refl 8))). intros h5 w5 zz S5 (X5 & O5 & D5 & R5 & W5 & N5). carry (x_gr _ _ _ _ X5) (x_frame _ _ _ _ X5).
  apply wp_ret; [exact S5|]. exists [lft], out, d.
  pose proof (ext_trans _ _ _ _ _ _ (fr_ext _ _ _ F1) X2) as Y2. pose proof (ext_trans _ _ _ _ _ _ Y2 X3) as Y3. pose proof (ext_trans _ _ _ _ _ _ Y3 (fr_ext _ _ _ F4)) as Y4. pose proof (ext_trans _ _ _ _ _ _ Y4 X5) as Y5. cbn [app] in Y2, Y3, Y4, Y5.
  pose proof (f_names _ _ _ F4) as N4. constructor; auto.
  - apply (ext_same _ _ _ _ _ Y5). intro n. rewrite !elem_of_cons. tauto.
  - intros n Hn. rewrite !elem_of_cons in Hn. destruct Hn as [->|[->|Hn]]; [exact (old_free _ _ _ _ (x_gr _ _ _ _ Y2) Fr3)|exact (old_free _ _ _ _ (f_gr _ _ _ F1) Fr2)|inversion Hn].
  - intros j Nj. rewrite N5, N4, N3', N2', (f_names _ _ _ F1) by exact Nj. reflexivity.
  - constructor; [|constructor]; (split; [unfold port; rewrite N5, N4, N3; reflexivity|assumption]).
  - unfold port. rewrite N5, N4, N3. reflexivity.
Qed.
End Galois.
