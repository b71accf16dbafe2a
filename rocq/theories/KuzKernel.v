(** * The kernels of Kuznechik compute the transformations of GOST R 34.12-2015 (proofs). *)
From Coq Require Import ZArith Bool String Lia.
From stdpp Require Import gmap list.
From Verif Require Import Types Word Value OpSpec Graph GraphSpec TypesProofs BuilderProofs BuilderProofs2 BuilderTopo GraphFacts StreamSpec Dfcir DfcirBuild
     Verilog Stubs Naming Firrtl Lower RtlSpec KernelSpec KernelValues Instance InstanceSpec InstanceLoop InstanceMain InstanceStep InstanceFlow LifeProofs ProgTyping SliceFacts
     CryptoSpec GaloisFacts KuzFacts Prog ProgFrame ProgRules ProgCalls ProgMux ProgPorts ProgInstance StdKernels ProgLib GaloisKernel.
Local Open Scope string_scope.
Local Open Scope Z_scope.

(** the only kernel alive whose constants are its own *)
Definition topk (w : world) (k : nat) : Prop := w_top w = Some k /\ is_Some (w_kern w !! k) /\ w_stack w <> [].
Lemma topk_frame w w' k : frame w w' -> topk w k -> topk w' k.
Proof. intros (A & B & C) (D & E & G). split; [congruence|]. split; [apply C, E|congruence]. Qed.
Ltac ck FR := cfr FR;
  match type of FR with fr _ ?w ?w' => repeat match goal with H : topk w ?k |- _ => apply (topk_frame w w' k (f_frame _ _ _ FR)) in H end end.
Lemma const_owner w r t c k : WF w -> const_of w r t c -> w_top w = Some k -> owner w r = k.
Proof. intros W (nd & H & Ev & _) T. pose proof (cs_const_top _ (proj1 W) r nd H Ev) as X. unfold owner. rewrite H. congruence. Qed.

(** ** The values, as loops *)
Definition byte (x : Z) (j : nat) : Z := (x / 2 ^ (8 * Z.of_nat (15 - j))) mod 256.
Lemma byte_slice x j : (j <= 15)%nat -> (x / 2 ^ (120 - 8 * Z.of_nat j)) mod 2 ^ 8 = byte x j.
Proof. intro H. unfold byte. replace (8 * Z.of_nat (15 - j)) with (120 - 8 * Z.of_nat j) by lia. reflexivity. Qed.
Lemma byte_range x j : is_byte (byte x j).
Proof. apply Z.mod_pos_bound. lia. Qed.
Definition sub_part (l : list Z) (n : nat) (x : Z) : Z := fold_left (fun acc j => acc * 2 ^ 8 + nth (Z.to_nat (byte x j)) l 0) (seq 0 n) 0.
Lemma fold_map {A B C} (f : C -> B -> C) (g : A -> B) l : forall c, fold_left f (map g l) c = fold_left (fun c a => f c (g a)) l c.
Proof. induction l as [|a l IH]; intro c; [reflexivity|exact (IH _)]. Qed.
Lemma fold_ext {A C} (f g : C -> A -> C) l : (forall c a, f c a = g c a) -> forall c, fold_left f l c = fold_left g l c.
Proof. intro E. induction l as [|a l IH]; intro c; [reflexivity|]. cbn. rewrite E. apply IH. Qed.
Lemma sub_full l x : sub_part l 16 x = word_of (map (fun b => nth (Z.to_nat b) l 0) (bytes 16 x)).
Proof.
  unfold sub_part, word_of, bytes. rewrite !fold_map. apply fold_ext. intros c j. change (16 - 1)%nat with 15%nat. unfold byte. change (2 ^ 8) with 256. rewrite (Z.mul_comm 256). reflexivity.
Qed.
Definition lin_part (n : nat) (x : Z) : Z := fold_left (fun acc j => Z.lxor acc (gf_mul (nth j kuz_coeffs 0) (byte x j))) (seq 0 n) 0.
Lemma lin_full x : lin_part 16 x = kuz_lin (bytes 16 x).
Proof. unfold lin_part, kuz_lin, bytes, kuz_coeffs. cbn [seq map combine fold_left nth fst snd]. reflexivity. Qed.

Section Kuz.
Variable F : fltops.
Variable T : bool.
Variable e : env.

(** a byte of the low 128 bits of a value of [W] bits *)
Lemma rule_byte h w k a W x j : st F T h w -> holds e w k a W x -> 128 <= W -> (j <= 15)%nat ->
  wp F T h w (bits a (127 - 8 * Z.of_nat j) (120 - 8 * Z.of_nat j)) (fun w' s => fr T w w' /\ holds e w' k s 8 (fun i => byte (x i) j)).
Proof.
  intros S H HW Hj. eapply wp_conseq; [apply (rule_bits F e T h w k a W x (127 - 8 * Z.of_nat j) (120 - 8 * Z.of_nat j) 8 S H); lia|]. cbn beta. intros w' s [A B]. split; [exact A|]. eapply holds_ext; [|exact B]. intros i _. cbn beta. apply byte_slice, Hj.
Qed.

(** *** the substitution *)
Definition byte_table (l : list Z) : Prop := length l = 256%nat /\ Forall is_byte l.
Lemma rule_permut h w k v x (inv : bool) : st F T h w -> topk w k -> holds e w k v 8 x -> byte_table (if inv then permut_inv else permut_fwd) ->
  wp F T h w (tablePermut k v inv) (fun w' s => fr T w w' /\ holds e w' k s 8 (fun i => nth (Z.to_nat (x i)) (if inv then permut_inv else permut_fwd) 0)).
Proof.
  intros S TK HV (LT & BT). unfold tablePermut. set (l := if inv then permut_inv else permut_fwd) in *. clearbody l.
  seqr (rule_dfUInt F T h w 8 S ltac:(lia)). intros h1 w1 ty S1 (F1 & Ht). ck F1.
  eapply rule_bind; [apply (rule_consts F T ty 8 ltac:(lia) l h1 w1 S1 Ht); [eapply Forall_impl; [exact BT|]; cbn; unfold is_byte; intros; lia|destruct TK as (-> & _); eauto]|]. cbn beta. intros h2 w2 cs S2 (F2 & C2). ck F2.
  eapply wp_conseq; [apply (rule_table F e T h2 w2 k v 8 x cs 8 l S2 HV C2); [lia|eapply Forall_impl; [exact BT|]; cbn; unfold is_byte; intros; lia|rewrite LT; cbn; lia]|].
  cbn beta. intros w3 s (F3 & H3 & _). split; [exact (fr_trans _ _ _ _ F1 (fr_trans _ _ _ _ F2 F3))|exact H3].
Qed.
Lemma rule_S h w k v x (inv : bool) : st F T h w -> topk w k -> holds e w k v 128 x -> byte_table (if inv then permut_inv else permut_fwd) ->
  wp F T h w (kuz_S k v inv) (fun w' s => fr T w w' /\ holds e w' k s 128 (fun i => sub_part (if inv then permut_inv else permut_fwd) 16 (x i))).
Proof.
  intros S TK HV BT. unfold kuz_S.
  seqr (rule_byte h w k v 128 x 0 S HV ltac:(lia) ltac:(lia)). intros h1 w1 b S1 (F1 & HB). ck F1.
  seqr (rule_permut h1 w1 k b _ inv S1 TK HB BT). intros h2 w2 s S2 (F2 & HS). ck F2.
  set (l := if inv then permut_inv else permut_fwd) in *.
  eapply wp_conseq; [apply (rule_fold F T _ (fun r w' s => (length r <= 15)%nat /\ r = seq (16 - length r) (length r) /\ fr T w2 w' /\ holds e w' k s (8 * Z.of_nat (16 - length r)) (fun i => sub_part l (16 - length r) (x i)))); [|exact S2|]|].
  - intros j r h' w' s' S' (LE & ER & F' & H'). cbn [length] in *. assert (Ej : j = (16 - Datatypes.S (length r))%nat) by (cbn [seq] in ER; injection ER; auto). assert (Er : r = seq (Datatypes.S (16 - Datatypes.S (length r))) (length r)) by (cbn [seq] in ER; injection ER; auto).
    pose proof (topk_frame _ _ _ (f_frame _ _ _ F') TK) as TK'. pose proof (holds_gr _ _ _ _ _ _ _ _ (f_gr _ _ _ F') HV) as HV'.
    seqr (rule_byte h' w' k v 128 x j S' HV' ltac:(lia) ltac:(lia)). intros h3 w3 b' S3 (F3 & HB'). ck F3.
    seqr (rule_permut h3 w3 k b' _ inv S3 TK' HB' BT). intros h4 w4 t S4 (F4 & HT). ck F4. fold l in HT.
    eapply wp_conseq; [apply (rule_cat F e T h4 w4 k s' t _ _ 8 _ S4 H' (proj1 HT)); lia|]. cbn beta. intros w5 s5 (F5 & H5).
    replace (16 - length r)%nat with (Datatypes.S (16 - Datatypes.S (length r))) by lia. split; [lia|]. split; [exact Er|]. split; [exact (fr_trans _ _ _ _ F' (fr_trans _ _ _ _ F3 (fr_trans _ _ _ _ F4 F5)))|].
    replace (8 * Z.of_nat (Datatypes.S (16 - Datatypes.S (length r)))) with (8 * Z.of_nat (16 - Datatypes.S (length r)) + 8) by lia. eapply holds_ext; [|exact H5]. intros i _. cbn beta. unfold sub_part. rewrite seq_S, fold_left_app. cbn [fold_left Nat.add]. rewrite <- Ej. reflexivity.
  - cbn [length seq_length]. rewrite seq_length. split; [lia|]. split; [reflexivity|]. split; [apply fr_refl|]. eapply holds_ext; [|exact HS]. intros i _. reflexivity.
  - cbn beta. intros w' s' (_ & _ & F' & H'). split; [exact (fr_trans _ _ _ _ F1 (fr_trans _ _ _ _ F2 F'))|exact H'].
Qed.

(** *** the products *)
Definition feed1 (s : string) (f : Z -> hval) : env := {| e_stream := fun s' i => if String.eqb s' s then f i else e_stream e s' i; e_scalar := e_scalar e |}.
Definition feed2 (s1 : string) (f1 : Z -> hval) (s2 : string) (f2 : Z -> hval) : env :=
  {| e_stream := fun s' i => if String.eqb s' s1 then f1 i else if String.eqb s' s2 then f2 i else e_stream e s' i; e_scalar := e_scalar e |}.
Lemma rule_inst_opt h ws w p v c u x : st F T h w -> slot T ws w p v -> type_of w v = Some (TFixed false 8 0) -> topk w p -> holds e w p u 8 x -> c = 1 \/ coefficient c ->
  wp F T h w (instance p (KuznechikGalois8Mul c) [(u, "in"); (v, "out")]) (fun w3 r => fr T ws w3 /\ holds e w3 p r 8 (fun i => gf_mul c (x i))).
Proof.
  intros S SL SV (TK & _ & NS) HU HC. destruct (a_val _ _ _ _ _ _ (proj1 HU)) as (f & V). set (e' := feed1 "in" (fun i => (f i, x i))).
  apply (rule_child F T e e' h ws w p v (KuznechikGalois8Mul c) [(u, "in")] "out" 8 _ S SL (ex_intro _ _ (conj SV (or_introl eq_refl))) NS).
  - cbn. apply NoDup_cons. split; [intro I; apply elem_of_list_singleton in I; discriminate|apply NoDup_singleton].
  - intros u' s' I. apply elem_of_list_singleton in I. injection I as -> ->. exists 8, x. split; [exact (proj1 HU)|]. split; [apply HU|]. intros i Hi. cbn. destruct (V i Hi) as (A & B & _). auto.
  - intros u' s' I _. apply elem_of_list_singleton in I. injection I as -> ->. exact (proj1 (proj2 HU)).
  - intros k h1 w1 S1 KW TW NW. eapply wp_conseq; [apply (rule_kgalois F e' T h1 w1 k c x S1 KW TW NW); [exists f; intros i Hi; destruct (V i Hi) as (A & _ & B); cbn; auto|exact HC]|].
    cbn beta. intros w2 _ (ports & out & d & CH). exists [8], ports, out, d. split; [exact CH|]. intros _. constructor; [exists x; exact (proj1 HU)|constructor].
Qed.
Lemma rule_inst_classic h ws w p v c u x cc : st F T h w -> slot T ws w p v -> type_of w v = Some (TFixed false 8 0) -> topk w p -> holds e w p u 8 x -> const_of w c (TFixed false 8 0) cc -> is_byte cc ->
  wp F T h w (instance p Galois8Mul [(c, "left"); (u, "right"); (v, "result")]) (fun w3 r => fr T ws w3 /\ holds e w3 p r 8 (fun i => gf_mul cc (x i))).
Proof.
  intros S SL SV (TK & _ & NS) HU HC CB. unfold is_byte in CB. pose proof (const_owner _ _ _ _ _ (st_WF F _ _ _ S) HC TK) as OC. pose proof (const_arg e w p c 8 cc HC ltac:(lia) ltac:(lia) ltac:(lia)) as AC.
  destruct (a_val _ _ _ _ _ _ (proj1 HU)) as (f & V). destruct (a_val _ _ _ _ _ _ AC) as (g & U). set (e' := feed2 "left" (fun i => (g i, cc)) "right" (fun i => (f i, x i))).
  apply (rule_child F T e e' h ws w p v Galois8Mul [(c, "left"); (u, "right")] "result" 8 _ S SL (ex_intro _ _ (conj SV (or_introl eq_refl))) NS).
  - cbn. apply NoDup_cons. split; [intro I; rewrite !elem_of_cons in I; destruct I as [I|[I|I]]; [discriminate|discriminate|inversion I]|]. apply NoDup_cons. split; [intro I; apply elem_of_list_singleton in I; discriminate|apply NoDup_singleton].
  - intros u' s' I. rewrite !elem_of_cons in I. destruct I as [I|[I|I]]; [| |inversion I]; injection I as -> ->.
    + exists 8, (fun _ => cc). split; [exact AC|]. split; [exact OC|]. intros i Hi. cbn. destruct (U i Hi) as (A & B & _). auto.
    + exists 8, x. split; [exact (proj1 HU)|]. split; [apply HU|]. intros i Hi. cbn. destruct (V i Hi) as (A & B & _). auto.
  - intros u' s' I NL. rewrite !elem_of_cons in I. destruct I as [I|[I|I]]; [| |inversion I]; injection I as -> ->; [destruct (NL eq_refl)|exact (proj1 (proj2 HU))].
  - intros k h1 w1 S1 KW TW NW. eapply wp_conseq; [apply (rule_galois F e' T h1 w1 k (fun _ => cc) x S1 KW TW NW); [exists g; intros i Hi; destruct (U i Hi) as (A & _ & B); cbn; auto|exists f; intros i Hi; destruct (V i Hi) as (A & _ & B); cbn; auto]|].
    cbn beta. intros w2 _ (ports & out & d & CH & ND). exists [8; 8], ports, out, d. split; [exact CH|]. intros _. constructor; [eexists; exact AC|]. constructor; [exists x; exact (proj1 HU)|constructor].
Qed.
Lemma coeffs_ok j : (j <= 15)%nat -> nth j kuz_coeffs 0 = 1 \/ coefficient (nth j kuz_coeffs 0).
Proof. intro H. do 16 (destruct j as [|j]; [cbn; first [left; reflexivity|right; unfold coefficient; rewrite !elem_of_cons; tauto]|]). lia. Qed.
Lemma coeffs_byte j : (j <= 15)%nat -> is_byte (nth j kuz_coeffs 0).
Proof. intro H. do 16 (destruct j as [|j]; [cbn; split; lia|]). lia. Qed.

Lemma byte_proper : proper (TFixed false 8 0).
Proof. apply (utype_facts _ 8); [left; reflexivity|lia]. Qed.
Lemma rule_lin opt h w k v W x : st F T h w -> topk w k -> holds e w k v W x -> 128 <= W ->
  wp F T h w (LGalois opt k v) (fun w' s => fr T w w' /\ holds e w' k s 8 (fun i => lin_part 16 (x i))).
Proof.
  intros S TK HV HW.
  assert (FIN : forall j r, j :: r = seq (16 - length (j :: r)) (length (j :: r)) -> (length (j :: r) <= 15)%nat -> j = (16 - Datatypes.S (length r))%nat /\ r = seq (Datatypes.S (16 - Datatypes.S (length r))) (length r) /\ (16 - length r)%nat = Datatypes.S (16 - Datatypes.S (length r))).
  { intros j r ER LE. cbn [length seq] in *. injection ER as E1 E2. repeat split; auto; lia. }
  destruct opt; unfold LGalois.
  - unfold LGalois_opt. seqr (rule_dfUInt F T h w 8 S ltac:(lia)). intros h1 w1 ty S1 (F1 & Ht). ck F1.
    seqr (rule_byte h1 w1 k v W x 0 S1 HV HW ltac:(lia)). intros h2 w2 b S2 (F2 & HB). ck F2.
    seqr (rule_newStream F T h2 w2 k ty _ S2 Ht byte_proper (proj1 (proj2 TK))). intros h3 w3 res S3 [SL TSL].
    pose proof (holds_gr _ _ _ _ _ _ _ _ (sl_gr _ _ _ _ _ SL) HB) as HB3. pose proof (topk_frame _ _ _ (sl_frame _ _ _ _ _ SL) TK) as TK3.
    seqr (rule_inst_opt h3 w2 w3 k res _ b _ S3 SL TSL TK3 HB3 (coeffs_ok 0 ltac:(lia))). intros h4 w4 r0 S4 (F4 & H4). ck F4.
    eapply wp_conseq; [apply (rule_fold F T _ (fun r w' s => (length r <= 15)%nat /\ r = seq (16 - length r) (length r) /\ fr T w4 w' /\ holds e w' k s 8 (fun i => lin_part (16 - length r) (x i)))); [|exact S4|]|].
    + intros j r h' w' s' S' (LE & ER & F' & H'). destruct (FIN j r ER LE) as (Ej & Er & El). cbn [length] in H', LE.
      pose proof (topk_frame _ _ _ (f_frame _ _ _ F') TK) as TK'. pose proof (holds_gr _ _ _ _ _ _ _ _ (f_gr _ _ _ F') HV) as HV'. pose proof (g_types _ _ _ (f_gr _ _ _ F') _ _ Ht) as Ht'.
      seqr (rule_newStream F T h' w' k ty _ S' Ht' byte_proper (proj1 (proj2 TK'))). intros h5 w5 buf S5 [SL5 TSL5]. apply (holds_gr _ _ _ _ _ _ _ _ (sl_gr _ _ _ _ _ SL5)) in HV'. apply (topk_frame _ _ _ (sl_frame _ _ _ _ _ SL5)) in TK'.
      seqr (rule_byte h5 w5 k v W x j S5 HV' HW ltac:(lia)). intros h6 w6 b6 S6 (F6 & HB6). ck F6. apply (fun X => slot_fr T _ _ _ _ _ X F6) in SL5.
      seqr (rule_inst_opt h6 w' w6 k buf _ b6 _ S6 SL5 TSL5 TK' HB6 (coeffs_ok j ltac:(lia))). intros h7 w7 b7 S7 (F7 & H7). ck F7.
      eapply wp_conseq; [exact (rule_xor F e T h7 w7 k s' b7 8 _ _ S7 (proj1 H') (proj1 H7) (or_introl H'))|]. cbn beta. intros w8 s8 (F8 & H8 & _).
      rewrite El. split; [lia|]. split; [exact Er|]. split; [exact (fr_trans _ _ _ _ F' (fr_trans _ _ _ _ F7 F8))|]. eapply holds_ext; [|exact H8]. intros i _. cbn beta. unfold lin_part. rewrite seq_S, fold_left_app. cbn [fold_left Nat.add]. rewrite <- Ej. reflexivity.
    + rewrite seq_length. split; [lia|]. split; [reflexivity|]. split; [apply fr_refl|]. eapply holds_ext; [|exact H4]. intros i _. unfold lin_part. cbn [seq fold_left Nat.sub]. symmetry. apply Z.lxor_0_l.
    + cbn beta. intros w' s' (_ & _ & F' & H'). split; [exact (fr_trans _ _ _ _ F1 (fr_trans _ _ _ _ F2 (fr_trans _ _ _ _ F4 F')))|exact H'].
  - unfold LGalois_classic. seqr (rule_dfUInt F T h w 8 S ltac:(lia)). intros h1 w1 ty S1 (F1 & Ht). ck F1.
    eapply rule_bind; [apply (rule_consts F T ty 8 ltac:(lia) kuz_coeffs h1 w1 S1 Ht); [repeat (constructor; [lia|]); constructor|destruct TK as (-> & _); eauto]|]. cbn beta. intros h1' w1' cs S1' (F1' & CS). ck F1'.
    seqr (rule_byte h1' w1' k v W x 0 S1' HV HW ltac:(lia)). intros h2 w2 b S2 (F2 & HB). ck F2.
    seqr (rule_newStream F T h2 w2 k ty _ S2 Ht byte_proper (proj1 (proj2 TK))). intros h3 w3 res S3 [SL TSL].
    pose proof (holds_gr _ _ _ _ _ _ _ _ (sl_gr _ _ _ _ _ SL) HB) as HB3. pose proof (topk_frame _ _ _ (sl_frame _ _ _ _ _ SL) TK) as TK3. pose proof (consts_gr _ _ _ _ _ _ (sl_gr _ _ _ _ _ SL) CS) as CS3.
    seqr (rule_inst_classic h3 w2 w3 k res _ b _ _ S3 SL TSL TK3 HB3 (consts_nth _ _ _ _ 0 CS3 ltac:(cbn; lia)) (coeffs_byte 0 ltac:(lia))). intros h4 w4 r0 S4 (F4 & H4). ck F4.
    eapply wp_conseq; [apply (rule_fold F T _ (fun r w' s => (length r <= 15)%nat /\ r = seq (16 - length r) (length r) /\ fr T w4 w' /\ holds e w' k s 8 (fun i => lin_part (16 - length r) (x i)))); [|exact S4|]|].
    + intros j r h' w' s' S' (LE & ER & F' & H'). destruct (FIN j r ER LE) as (Ej & Er & El). cbn [length] in H', LE.
      pose proof (topk_frame _ _ _ (f_frame _ _ _ F') TK) as TK'. pose proof (holds_gr _ _ _ _ _ _ _ _ (f_gr _ _ _ F') HV) as HV'. pose proof (g_types _ _ _ (f_gr _ _ _ F') _ _ Ht) as Ht'. pose proof (consts_gr _ _ _ _ _ _ (f_gr _ _ _ F') CS) as CS'.
      seqr (rule_newStream F T h' w' k ty _ S' Ht' byte_proper (proj1 (proj2 TK'))). intros h5 w5 buf S5 [SL5 TSL5]. apply (holds_gr _ _ _ _ _ _ _ _ (sl_gr _ _ _ _ _ SL5)) in HV'. apply (topk_frame _ _ _ (sl_frame _ _ _ _ _ SL5)) in TK'. apply (consts_gr _ _ _ _ _ _ (sl_gr _ _ _ _ _ SL5)) in CS'.
      seqr (rule_byte h5 w5 k v W x j S5 HV' HW ltac:(lia)). intros h6 w6 b6 S6 (F6 & HB6). ck F6. apply (fun X => slot_fr T _ _ _ _ _ X F6) in SL5.
      seqr (rule_inst_classic h6 w' w6 k buf _ b6 _ _ S6 SL5 TSL5 TK' HB6 (consts_nth _ _ _ _ j CS' ltac:(cbn; lia)) (coeffs_byte j ltac:(lia))). intros h7 w7 b7 S7 (F7 & H7). ck F7.
      eapply wp_conseq; [exact (rule_xor F e T h7 w7 k s' b7 8 _ _ S7 (proj1 H') (proj1 H7) (or_introl H'))|]. cbn beta. intros w8 s8 (F8 & H8 & _).
      rewrite El. split; [lia|]. split; [exact Er|]. split; [exact (fr_trans _ _ _ _ F' (fr_trans _ _ _ _ F7 F8))|]. eapply holds_ext; [|exact H8]. intros i _. cbn beta. unfold lin_part. rewrite seq_S, fold_left_app. cbn [fold_left Nat.add]. rewrite <- Ej. reflexivity.
    + rewrite seq_length. split; [lia|]. split; [reflexivity|]. split; [apply fr_refl|]. eapply holds_ext; [|exact H4]. intros i _. unfold lin_part. cbn [seq fold_left Nat.sub]. symmetry. apply Z.lxor_0_l.
    + cbn beta. intros w' s' (_ & _ & F' & H'). split; [exact (fr_trans _ _ _ _ F1 (fr_trans _ _ _ _ F1' (fr_trans _ _ _ _ F2 (fr_trans _ _ _ _ F4 F'))))|exact H'].
Qed.
End Kuz.
