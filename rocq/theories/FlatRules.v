(** * Rules for kernels with signed types, the operators read as they are built (proofs). *)
From Coq Require Import ZArith Bool String Lia.
From stdpp Require Import gmap list.
From Verif Require Import Types Word Value OpSpec Graph GraphSpec TypingSpec TypesProofs BuilderProofs BuilderProofs2 BuilderTopo GraphFacts StreamSpec Dfcir DfcirBuild
     Verilog Stubs Naming StubsSpec Firrtl Lower RtlSpec KernelSpec KernelValues Instance InstanceSpec InstanceLoop InstanceMain InstanceStep InstanceFlow LifeProofs ProgTyping SliceFacts Prog ProgFrame ProgRules ProgCalls ProgPorts.
Local Open Scope Z_scope.

(** integers: signed and unsigned, and raw bits *)
Record itype (t : dftype) (s : bool) (W : Z) : Prop := {
  it_s : is_signed t = s; it_w : total_bits t = W; it_f : RtlSpec.is_float t = false; it_p : proper t; it_b : 0 < W < 65536;
  it_s' : is_signed (kind t) = s; it_w' : total_bits (kind t) = W; it_f' : RtlSpec.is_float (kind t) = false
}.
Lemma itype_raw W : 0 < W < 65536 -> itype (TRaw W) false W.
Proof. intro H. constructor; try reflexivity; [split; cbn; lia|exact H|]. cbn. unfold u16. rewrite Z.add_0_r. apply Z.mod_small. lia. Qed.
Lemma itype_uint W : 0 < W < 65536 -> itype (TFixed false W 0) false W.
Proof. intro H. assert (E : total_bits (TFixed false W 0) = W) by (cbn; unfold u16; rewrite Z.add_0_r; apply Z.mod_small; lia). constructor; try reflexivity; [exact E|split; cbn; lia|exact H|exact E]. Qed.
Lemma itype_int W : 0 < W < 65536 -> itype (TFixed true (W - 1) 0) true W.
Proof. intro H. assert (E : total_bits (TFixed true (W - 1) 0) = W) by (unfold total_bits, u16; rewrite Z.add_0_r; replace (1 + (W - 1)) with W by lia; apply Z.mod_small; lia). constructor; try reflexivity; [exact E|split; cbn; lia|exact H|exact E]. Qed.

Notation hwa := (hw_as Actual).
(** variable [n] can be used by kernel [k], has type [t], and its value at position [i] is the
    pattern of the integer [x i] *)
Record sarg (e : env) (w : world) (k n : nat) (t : dftype) (x : Z -> Z) : Prop := {
  sa_node : exists nd, w_nodes w !! n = Some nd /\ n_op nd <> OUT /\ (n_vk nd = VConst \/ n_meta nd = k);
  sa_type : type_of w n = Some t;
  sa_int : exists s W, itype t s W;
  sa_val : forall i, 0 <= i -> kval (hwa e) w n i (kind t, x i mod 2 ^ total_bits t)
}.
(** and is a stream of [k] *)
Definition svar (e : env) (w : world) (k n : nat) (t : dftype) (x : Z -> Z) : Prop := sarg e w k n t x /\ ctl w n /\ owner w n = k.

Lemma sarg_live e w k n t x : sarg e w k n t x -> is_Some (w_nodes w !! n).
Proof. intros [(nd & H & _) _ _ _]. eauto. Qed.
Lemma sarg_nohole e w k n t x : sarg e w k n t x -> ~ hole w n /\ ~ has_op w n OUT.
Proof.
  intros [(nd & H & NO & _) _ _ V]. split; [|intros (y & Hy & Ey); congruence].
  intros [(y & Hy & Ey)|[(y & Hy & Ey) _]]; [|congruence]. pose proof (V 0 ltac:(lia)) as K.
  rewrite H in Hy. injection Hy as <-. inversion K; subst; rewrite H in *; match goal with E : Some _ = Some _ |- _ => injection E as <- end; rewrite Ey in *; try discriminate; contradiction.
Qed.
Lemma sarg_gr e X w w' k n t x : gr X w w' -> sarg e w k n t x -> sarg e w' k n t x.
Proof.
  intros G [(nd & H & NO & U) Ht IT V]. constructor; auto.
  - destruct (g_live _ _ _ G n nd H) as (nd' & H' & E1 & E2 & E3 & E4 & E5). exists nd'. split; [exact H'|]. rewrite <- E1, <- E3, <- E5. auto.
  - exact (gr_type _ _ _ _ _ G Ht).
  - intros i Hi. exact (gr_kval _ _ _ _ _ _ _ G (V i Hi)).
Qed.
Lemma svar_gr e X w w' k n t x : gr X w w' -> svar e w k n t x -> svar e w' k n t x.
Proof.
  intros G (A & B & C). pose proof (sarg_live _ _ _ _ _ _ A) as L. split; [exact (sarg_gr _ _ _ _ _ _ _ _ G A)|]. rewrite (gr_owner _ _ _ _ G L). split; [exact (ctl_gr _ _ _ _ G B)|exact C].
Qed.
Lemma sarg_cong e w k n t x y : (forall i, 0 <= i -> x i mod 2 ^ total_bits t = y i mod 2 ^ total_bits t) -> sarg e w k n t x -> sarg e w k n t y.
Proof. intros E [A B C V]. constructor; auto. intros i Hi. rewrite <- (E i Hi). exact (V i Hi). Qed.
Lemma svar_cong e w k n t x y : (forall i, 0 <= i -> x i mod 2 ^ total_bits t = y i mod 2 ^ total_bits t) -> svar e w k n t x -> svar e w k n t y.
Proof. intros E (A & B). split; [exact (sarg_cong _ _ _ _ _ _ _ E A)|exact B]. Qed.
Lemma svar_ext e w k n t x y : (forall i, 0 <= i -> x i = y i) -> svar e w k n t x -> svar e w k n t y.
Proof. intro E. apply svar_cong. intros i Hi. rewrite (E i Hi). reflexivity. Qed.
Lemma sarg_usable e w k n t x : sarg e w k n t x -> usable w k n.
Proof. intros [(nd & H & _ & U) _ _ _]. exists nd. auto. Qed.
Lemma const_sarg e w k n t c s W : const_of w n t c -> itype t s W -> sarg e w k n t (fun _ => num s 64 c).
Proof.
  intros (nd & H & Ev & Eo & Et) IT. assert (TY : type_of w n = Some t) by (unfold type_of; rewrite H; exact Et). constructor; eauto.
  - exists nd. split; [exact H|]. split; [congruence|auto].
  - intros i Hi. change (kind t, num s 64 c mod 2 ^ total_bits t) with (kind t, num s 64 c mod 2 ^ total_bits t).
    rewrite <- (it_s _ _ _ IT). exact (kv_const (hwa e) w n nd t c i H Eo TY).
Qed.

(** ** What the flow accepts, with positive latencies for signed arithmetic *)
Definition good_lat (lat : opk -> dftype -> Z) : Prop := (forall b t, is_arith b = true -> is_signed t = true -> 0 < lat (BIN b) t) /\ forall t, lat CAST t <= 0.
Definition stidy (w : world) : Prop :=
  forall n nd, w_nodes w !! n = Some nd ->
    (exists t, type_of w n = Some t /\ proper t /\
       forall ts lat, good_lat lat -> Forall2 (fun a ta => type_of w a = Some ta) (operands w n) ts -> act_fits (n_op nd) t ts (lat (n_op nd) t)) /\
    (length (operands w n) <= 128)%nat /\
    (forall k, n_op nd <> OFFSET k) /\ (n_op nd = OUT -> readers w n = []) /\
    match n_op nd with UN _ => False | MUX => forall c arms, operands w n = c :: arms -> ctl w c | _ => True end.
Lemma stidy_node X w w' r k o t vk nm args : WF w -> WF w' -> gr X w w' -> preserved w w' r -> new_node w w' r k o t vk nm args ->
  (forall a, a ∈ args -> ~ has_op w a OUT) -> proper t -> (forall ts lat, good_lat lat -> Forall2 (fun a ta => type_of w a = Some ta) args ts -> act_fits o t ts (lat o t)) ->
  (length args <= 128)%nat -> (forall k, o <> OFFSET k) ->
  match o with UN _ => False | MUX => forall c arms, args = c :: arms -> ctl w c | _ => True end -> stidy w -> stidy w'.
Proof.
  intros W W' G P NN NO PT FT NA NF CT Ty. pose proof NN as (Fr & (nd & Hr & Er & _) & Hin & Hl).
  assert (Op : operands w' r = args) by (unfold operands; rewrite Hin; apply imap_src).
  assert (Old : forall n, is_Some (w_nodes w !! n) -> operands w' n = operands w n) by (intros n (y & H); unfold operands; destruct P as (_ & P2 & _); rewrite P2; [reflexivity|eauto|congruence]).
  intros n nd' Hn'. destruct (decide (n = r)) as [->|Nr].
  - rewrite Hr in Hn'. injection Hn' as <-. rewrite Er, Op. split; [|split; [|split; [exact NF|split]]].
    + exists t. split; [|split; [exact PT|]]. { destruct NN as (_ & (z & Hz & _ & Ht & _) & _). unfold type_of. rewrite Hz. exact Ht. }
      intros ts lat GL F2. apply (FT ts lat GL). exact (types_old X w w' args ts G W Hl F2).
    + exact NA.
    + intros ->. exact (new_unread _ _ _ _ _ _ _ _ _ W W' P NN).
    + destruct o; try exact CT. intros c arms E. exact (ctl_gr _ _ _ _ G (CT c arms E)).
  - pose proof P as (_ & _ & _ & P4). destruct (P4 n ltac:(eauto) Nr) as (y & Hy). destruct (g_live _ _ _ G n y Hy) as (y' & Hy' & E1 & _). rewrite Hn' in Hy'. injection Hy' as <-. rewrite <- E1.
    destruct (Ty n y Hy) as ((tn & Htn & Pn & Fn) & Nn & On & Rn & Cn). rewrite (Old n) by eauto. split; [|split; [exact Nn|split; [exact On|split]]].
    + exists tn. split; [exact (gr_type _ _ _ _ _ G Htn)|]. split; [exact Pn|]. intros ts lat GL F2. apply (Fn ts lat GL). apply (types_old X w w' _ ts G W); [|exact F2]. intros a Ha. apply (operands_live w n a (proj1 W) Ha).
    + intro Eo. assert (Z : forall m, m ∈ readers w' n -> False).
      { intros m Hm. apply (readers_operands w' n m (proj1 W')) in Hm. destruct (decide (m = r)) as [->|Nm].
        - rewrite Op in Hm. apply (NO n Hm). exists y. auto.
        - destruct (operands_live w' m n (proj1 W') Hm) as [_ L]. rewrite (Old m (P4 m L Nm)) in Hm. apply (readers_operands w n m (proj1 W)) in Hm. rewrite (Rn Eo) in Hm. inversion Hm. }
      destruct (readers w' n) as [|m l] eqn:E; [reflexivity|]. exfalso. apply (Z m). constructor.
    + destruct (n_op y); try exact Cn. intros c arms E. exact (ctl_gr _ _ _ _ G (Cn c arms E)).
Qed.
Lemma stidy_same w w' : w_nodes w' = w_nodes w -> w_chans w' = w_chans w -> (forall t ty, w_types w !! t = Some ty -> w_types w' !! t = Some ty) -> WF w -> stidy w -> stidy w'.
Proof.
  intros E1 E2 E3 W Ty n nd H. pose proof (gr_types_only w w' E1 E2 E3) as G. rewrite E1 in H. destruct (Ty n nd H) as ((tn & Htn & Pn & Fn) & Nn & On & Rn & Cn).
  assert (EO : operands w' n = operands w n) by (unfold operands, in_chans; rewrite E1, E2; reflexivity).
  assert (ER : readers w' n = readers w n) by (unfold readers, out_chans; rewrite E1, E2; reflexivity).
  rewrite EO, ER. split; [|split; [exact Nn|split; [exact On|split; [exact Rn|]]]].
  - exists tn. split; [exact (gr_type _ _ _ _ _ G Htn)|]. split; [exact Pn|]. intros ts lat GL F2. apply (Fn ts lat GL). apply (types_old [] w w' _ ts G W); [|exact F2]. intros a Ha. apply (operands_live w n a (proj1 W) Ha).
  - destruct (n_op nd); try exact Cn. intros c arms E. exact (ctl_gr _ _ _ _ G (Cn c arms E)).
Qed.

Section Flat.
Variable F : fltops.
Notation st := (st F true).
Notation wp := (wp F true).
(** code that only adds operations *)
Record sfr (w w' : world) : Prop := {
  sf_gr : gr [] w w';
  sf_frame : frame w w';
  sf_names : forall j, names w' j = names w j;
  sf_tidy : stidy w -> stidy w'
}.
Lemma sfr_refl w : sfr w w.
Proof. constructor; [apply gr_refl|apply frame_refl|auto|auto]. Qed.
Lemma sfr_trans w1 w2 w3 : sfr w1 w2 -> sfr w2 w3 -> sfr w1 w3.
Proof.
  intros [A1 A2 A3 A4] [B1 B2 B3 B4]. constructor; [exact (gr_trans _ _ _ _ _ A1 B1)|exact (frame_trans _ _ _ A2 B2)|intro j; rewrite B3; apply A3|auto].
Qed.
Definition vals (tx : list (dftype * (Z -> Z))) (i : Z) : list hval := map (fun p => (kind (fst p), snd p i mod 2 ^ total_bits (fst p))) tx.
Definition plain_op (o : opk) : Prop := match o with BIN _ | CAST | SHL _ | SHR _ | BITS _ _ | CAT => True | _ => False end.
(** a call that creates one operation *)
Lemma args_types e w k args tx ts : Forall2 (fun a p => sarg e w k a (fst p) (snd p)) args tx -> Forall2 (fun a ta => type_of w a = Some ta) args ts -> ts = map fst tx.
Proof.
  intro A. revert ts. induction A as [|a p args tx H A IH]; intros ts F2; inversion F2 as [|? ? ? ? E F2']; subst; [reflexivity|]. cbn. f_equal; [|exact (IH _ F2')].
  pose proof (sa_type _ _ _ _ _ _ H). congruence.
Qed.
Lemma op_rule e h w c w' r k o t args tx y s W : st h w -> step F w c = Ok (w', r) -> match c with CBin _ _ _ | CShift _ _ _ | CSlice _ _ _ | CCat _ _ | CCast _ _ => True | _ => False end ->
  new_node w w' r k o t VStream EmptyString args -> plain_op o -> itype t s W -> (length args <= 128)%nat ->
  Forall2 (fun a p => sarg e w k a (fst p) (snd p)) args tx ->
  (forall lat, good_lat lat -> act_fits o t (map fst tx) (lat o t)) ->
  (forall i, 0 <= i -> act_op o t (vals tx i) = Some (kind t, y i mod 2 ^ W)) ->
  wp h w (call c) (fun w' r => sfr w w' /\ svar e w' k r t y).
Proof.
  intros S E NC NN PO IT LN FA FT AC. pose proof (st_WF F true h w S) as Ww. destruct (step_ext F _ _ _ _ E Ww) as [[W' P] _].
  assert (AR : forall a, a ∈ args -> exists p, sarg e w k a (fst p) (snd p)) by (intros a Ha; apply elem_of_list_lookup in Ha as (j & Hj); destruct (Forall2_lookup_l _ _ _ _ _ FA Hj) as (p & _ & A); eauto).
  assert (NH : forall a, a ∈ args -> ~ hole w a /\ ~ has_op w a OUT) by (intros a Ha; destruct (AR a Ha) as (p & A); exact (sarg_nohole _ _ _ _ _ _ A)).
  assert (G : gr [] w w').
  { eapply gr_node; [exact Ww|exact W'|exact P|exact NN|intros a Ha; apply NH, Ha| |intros n I; inversion I]. intros [->|[->| ->]]; contradiction. }
  assert (NCC : forall a b, c <> CConnect a b) by (intros a b ->; contradiction).
  pose proof NN as (Fr & (nd & Hr & Er & Ht & Ev & En & Em) & Hin & Hl).
  assert (TY : type_of w' r = Some t) by (unfold type_of; rewrite Hr; exact Ht).
  assert (KV : forall i, 0 <= i -> kval (hwa e) w' r i (kind t, y i mod 2 ^ total_bits t)).
  { intros i Hi. eapply (kv_op (hwa e) w' r nd t i (vals tx i)); [exact Hr|rewrite Er; destruct o; try contradiction; exact I|exact TY|exact Hi| |rewrite Er, (it_w _ _ _ IT); exact (AC i Hi)].
    unfold operands. rewrite Hin, imap_src. unfold vals. clear - FA G Hi. induction FA as [|a p args tx A FA IH]; cbn; constructor; [|exact IH].
    exact (gr_kval _ _ _ _ _ _ _ G (sa_val _ _ _ _ _ _ A i Hi)). }
  eapply wp_call; [exact S|exact E|destruct c; try contradiction; exact I|intros t' ->; contradiction|]. split.
  - constructor; [exact G|apply (step_frame F _ _ _ _ E); intros ->; contradiction|apply (step_names F _ _ _ _ E Ww); destruct c; try contradiction; exact I|].
    intro Ty. eapply stidy_node; [exact Ww|exact W'|exact G|exact P|exact NN|intros a Ha; apply NH, Ha|exact (it_p _ _ _ IT)| |exact LN|intros z ->; exact PO|destruct o; try contradiction; exact I|exact Ty].
    intros ts lat GL F2. rewrite (args_types _ _ _ _ _ _ FA F2). exact (FT lat GL).
  - split; [constructor|split].
    + exists nd. split; [exact Hr|]. split; [rewrite Er; intros ->; contradiction|right; exact Em].
    + exact TY.
    + eauto.
    + exact KV.
    + exists nd. split; [exact Hr|]. split; [exact Ev|]. intros _. rewrite En. discriminate.
    + unfold owner. rewrite Hr. exact Em.
Qed.
Lemma svar_node e w k n t x : svar e w k n t x -> exists nd, w_nodes w !! n = Some nd /\ w_types w !! n_ty nd = Some t /\ n_meta nd = k /\ ~ is_const w n.
Proof.
  intros (A & C & O). destruct (sa_node _ _ _ _ _ _ A) as (nd & H & _). exists nd. split; [exact H|]. pose proof (sa_type _ _ _ _ _ _ A) as T. unfold type_of in T. rewrite H in T. split; [exact T|].
  split; [unfold owner in O; rewrite H in O; exact O|exact (ctl_var w n C)].
Qed.

Lemma srule_type h w t : st h w -> wf_type t -> wp h w (call (CType t)) (fun w' ty => sfr w w' /\ w_types w' !! ty = Some t).
Proof.
  intros S WT. pose proof (st_WF F true h w S) as W. eapply (wp_call F true h w (CType t)); [exact S|reflexivity|exact I|intros t' E; injection E as <-; exact WT|].
  assert (TY : forall i ty, w_types w !! i = Some ty -> w_types (fst (add_type w t)) !! i = Some ty) by (intros i ty H; cbn; apply lookup_app_l_Some, H).
  split; [|cbn; rewrite lookup_app_r, Nat.sub_diag by lia; reflexivity]. constructor.
  - apply gr_types_only; [reflexivity|reflexivity|exact TY].
  - exact (type_frame w t).
  - reflexivity.
  - apply stidy_same; [reflexivity|reflexivity|exact TY|exact W].
Qed.
(** *** constants *)
Lemma const_sfr h w c w' r t v s W i f : st h w -> step F w c = Ok (w', r) -> match c with CConst _ _ | CBin _ _ _ => True | _ => False end -> const_result w w' r t v -> t = TFixed i f 0 -> itype t s W -> sfr w w'.
Proof.
  intros S E NC CR TF IT. pose proof (st_WF F true h w S) as WFw. destruct (step_ext F _ _ _ _ E WFw) as [[W' P] _].
  pose proof (gr_constr w w' r _ _ WFw W' P CR) as G. constructor; [exact G|apply (step_frame F _ _ _ _ E); intros ->; contradiction|apply (step_names F _ _ _ _ E WFw); destruct c; try contradiction; exact I|].
  intros Ty. destruct CR as (CO & [->|(Fr & Hin & _)]); [exact Ty|]. destruct CO as (nd & Hr & Ev & Eo & Et).
  eapply (stidy_node [] w w' r (n_meta nd) (CONST v) t VConst (n_name nd) []); [exact WFw|exact W'|exact G|exact P| |intros a Ha; inversion Ha|exact (it_p _ _ _ IT)| |cbn; lia|discriminate|exact I|exact Ty].
  - split; [exact Fr|]. split; [exists nd; auto 10|]. split; [exact Hin|]. intros a Ha. inversion Ha.
  - intros ts lat _ F2. inversion F2. subst t. cbn. auto.
Qed.
Lemma const_progress w ty t v : WF w -> w_types w !! ty = Some t -> is_Some (w_top w) -> exists w' r, create_or_use_const w ty v = Ok (w', r).
Proof.
  intros WFw Ht (k & Hk). destruct (cs_top _ (proj1 WFw) k Hk) as (g & Hg).
  unfold create_or_use_const, get_type. rewrite Ht. cbn [of_opt rbind]. rewrite Hk. cbn [of_opt rbind]. rewrite Hg. cbn [of_opt rbind].
  destruct (List.find _ _); [eauto|]. unfold add_node. rewrite Hg. cbn [of_opt rbind]. eauto.
Qed.
Lemma srule_const h w ty i c s W : st h w -> w_types w !! ty = Some (TFixed s i 0) -> itype (TFixed s i 0) s W -> is_Some (w_top w) ->
  wp h w (call (CConst ty c)) (fun w' r => sfr w w' /\ const_of w' r (TFixed s i 0) (c mod 2 ^ 64)).
Proof.
  intros S Ht IT Top. pose proof (st_WF F true h w S) as WFw. destruct (const_progress w ty _ (c mod 2 ^ 64) WFw Ht Top) as (w' & r & E).
  assert (ES : step F w (CConst ty c) = Ok (w', r)) by exact E.
  destruct (step_ext F _ _ _ _ ES WFw) as [_ (t & Et & CR)]. rewrite Ht in Et. injection Et as <-.
  eapply wp_call; [exact S|exact ES|exact I|discriminate|]. split; [|exact (proj1 CR)]. exact (const_sfr h w _ w' r _ _ s W _ _ S ES I CR eq_refl IT).
Qed.
(** two constants: the result is one *)
Lemma srule_fold h w o a b i va vb v W : st h w -> is_Some (w_top w) -> (o = ADD \/ o = SUB \/ o = MUL) -> itype (TFixed true i 0) true W -> const_of w a (TFixed true i 0) va -> const_of w b (TFixed true i 0) vb -> c_int o va vb = CV v ->
  wp h w (call (CBin o a b)) (fun w' r => sfr w w' /\ const_of w' r (TFixed true i 0) v).
Proof.
  intros S Top Ho IT CA CB EV. pose proof (st_WF F true h w S) as WFw. pose proof CA as (na & Na & Va & Oa & Ta). pose proof CB as (nb & Nb & Vb & Ob & Tb).
  assert (FB : fold_bin F o (TFixed true i 0) va vb = CV v) by (destruct Ho as [-> |[-> | ->]]; exact EV).
  destruct (const_progress w (n_ty na) _ v WFw Ta Top) as (w' & r & E).
  assert (ES : step F w (CBin o a b) = Ok (w', r)).
  { cbn [step]. unfold do_bin, get_node, get_type, const_value. rewrite Na, Nb. cbn [of_opt rbind]. rewrite Va, Vb, Oa, Ob, Ta. cbn [of_opt rbind]. rewrite FB. cbn [of_cval rbind]. exact E. }
  destruct (step_ext F _ _ _ _ ES WFw) as [_ [(ta & tb & va' & vb' & v' & CA' & CB' & EF & CR)|(ta & Hta & NC & _)]].
  2:{ exfalso. apply NC. split; [exists na|exists nb]; auto. }
  assert (ta = TFixed true i 0 /\ va' = va) as [-> ->] by (destruct CA' as (y & Hy & _ & Oy & Ty); rewrite Na in Hy; injection Hy as <-; rewrite Oa in Oy; split; congruence).
  assert (vb' = vb) as -> by (destruct CB' as (y & Hy & _ & Oy & Ty); rewrite Nb in Hy; injection Hy as <-; rewrite Ob in Oy; congruence).
  rewrite FB in EF. injection EF as <-.
  eapply wp_call; [exact S|exact ES|exact I|discriminate|]. split; [|exact (proj1 CR)]. exact (const_sfr h w _ w' r _ _ true W _ _ S ES I CR eq_refl IT).
Qed.

(** *** bits *)
Lemma srule_slice e h w k a t s W x l r : st h w -> svar e w k a t x -> itype t s W -> 0 <= r <= l -> l < W ->
  wp h w (call (CSlice a l r)) (fun w' v => sfr w w' /\ svar e w' k v (TRaw (l - r + 1)) (fun i => (x i mod 2 ^ W) / 2 ^ r)).
Proof.
  intros S V IT LR LW. pose proof (st_WF F true h w S) as WFw. destruct (svar_node _ _ _ _ _ _ V) as (nd & Hn & Hty & Em & _). pose proof (it_b _ _ _ IT) as HW. pose proof (it_w _ _ _ IT) as TB.
  destruct (mk_op_progress (fst (add_type w (mkRaw (l - r + 1)))) k (BITS l r) (length (w_types w)) [a]) as (w' & v & E).
  { apply (add_type_WF w _ WFw). } { cbn. rewrite lookup_app_r, Nat.sub_diag by lia. eauto. } { discriminate. } { cbn. rewrite <- Em. exact (kern_of F _ _ _ _ _ S Hn). }
  { intros b Hb. apply elem_of_list_singleton in Hb as ->. apply usable_types. exact (sarg_usable _ _ _ _ _ _ (proj1 V)). }
  assert (ES : step F w (CSlice a l r) = Ok (w', v)).
  { cbn [step]. unfold do_slice, get_node, get_type. rewrite Hn. cbn [of_opt rbind]. rewrite Hty. cbn [of_opt rbind]. unfold u16. rewrite !Z.mod_small by lia.
    destruct (Z.ltb_spec r l).
    - replace (total_bits t <=? l) with false by (symmetry; apply Z.leb_gt; lia). cbn. rewrite Em. exact E.
    - assert (l = r) by lia. subst l. replace (total_bits t <=? r) with false by (symmetry; apply Z.leb_gt; lia). cbn. rewrite Em. exact E. }
  destruct (step_ext F _ _ _ _ ES WFw) as [_ (ta & Hta & _ & NN)]. rewrite !Z.mod_small in NN by lia. rewrite (proj2 (proj2 V)) in NN.
  rewrite Z.max_l, Z.min_r, Z.abs_eq, slice_raw in NN by lia.
  eapply (op_rule e h w _ w' v k _ _ [a] [(t, x)] _ false (l - r + 1)); [exact S|exact ES|exact I|exact NN|exact I|apply itype_raw; lia|cbn; lia|constructor; [exact (proj1 V)|constructor]|intros; exact I|].
  intros i Hi. cbn. rewrite TB. reflexivity.
Qed.
Lemma srule_cat e h w k a b W1 x W2 y : st h w -> svar e w k a (TRaw W1) x -> svar e w k b (TRaw W2) y -> 0 < W1 -> 0 < W2 -> W1 + W2 < 65536 ->
  wp h w (call (CCat a b)) (fun w' v => sfr w w' /\ svar e w' k v (TRaw (W1 + W2)) (fun i => x i mod 2 ^ W1 * 2 ^ W2 + y i mod 2 ^ W2)).
Proof.
  intros S A B H1 H2 LW. pose proof (st_WF F true h w S) as WFw. destruct (svar_node _ _ _ _ _ _ A) as (na & Na & Ta & Em & _). destruct (svar_node _ _ _ _ _ _ B) as (nb & Nb & Tb & _).
  destruct (mk_op_progress (fst (add_type w (mkRaw (W1 + W2)))) k CAT (length (w_types w)) [a; b]) as (w' & v & E).
  { apply (add_type_WF w _ WFw). } { cbn. rewrite lookup_app_r, Nat.sub_diag by lia. eauto. } { discriminate. } { cbn. rewrite <- Em. exact (kern_of F _ _ _ _ _ S Na). }
  { intros z Hz. apply usable_types. rewrite !elem_of_cons in Hz. destruct Hz as [->|[->|Hz]]; [exact (sarg_usable _ _ _ _ _ _ (proj1 A))|exact (sarg_usable _ _ _ _ _ _ (proj1 B))|inversion Hz]. }
  assert (ES : step F w (CCat a b) = Ok (w', v)).
  { cbn [step]. unfold do_cat, get_node, get_type. rewrite Na, Nb. cbn [of_opt rbind]. rewrite Ta, Tb. cbn [of_opt rbind total_bits]. rewrite Em. exact E. }
  destruct (step_ext F _ _ _ _ ES WFw) as [_ (ta' & tb' & Hta' & Htb' & NN)]. rewrite (sa_type _ _ _ _ _ _ (proj1 A)) in Hta'. injection Hta' as <-. rewrite (sa_type _ _ _ _ _ _ (proj1 B)) in Htb'. injection Htb' as <-.
  cbn [total_bits] in NN. rewrite slice_raw, (proj2 (proj2 A)) in NN by lia.
  eapply (op_rule e h w _ w' v k _ _ [a; b] [(TRaw W1, x); (TRaw W2, y)] _ false (W1 + W2)); [exact S|exact ES|exact I|exact NN|exact I|apply itype_raw; lia|cbn; lia|constructor; [exact (proj1 A)|constructor; [exact (proj1 B)|constructor]]| |].
  - intros lat _. cbn. split; [reflexivity|lia].
  - intros i Hi. unfold vals. cbn [map fst snd act_op hw_op total_bits]. rewrite (it_w' _ _ _ (itype_raw W2 ltac:(lia))). do 2 f_equal. symmetry. apply Z.mod_small.
    rewrite Z.pow_add_r by lia. pose proof (Z.mod_pos_bound (x i) (2 ^ W1) ltac:(apply Z.pow_pos_nonneg; lia)). pose proof (Z.mod_pos_bound (y i) (2 ^ W2) ltac:(apply Z.pow_pos_nonneg; lia)). nia.
Qed.
(** *** casts to another type *)
Lemma srule_cast e h w k a t s W x ty t' s' W' : st h w -> svar e w k a t x -> itype t s W -> w_types w !! ty = Some t' -> itype t' s' W' -> t <> t' ->
  wp h w (call (CCast a ty)) (fun w' v => sfr w w' /\ svar e w' k v t' (fun i => num s' W (x i mod 2 ^ W))).
Proof.
  intros S V IT HT IT' NE. pose proof (st_WF F true h w S) as WFw. destruct (svar_node _ _ _ _ _ _ V) as (nd & Hn & Hty & Em & _).
  assert (EQ : Nat.eqb ty (n_ty nd) = false) by (apply Nat.eqb_neq; intros ->; congruence).
  destruct (mk_op_progress w k CAST ty [a]) as (w' & v & E).
  { apply WFw. } { eauto. } { discriminate. } { rewrite <- Em. exact (kern_of F _ _ _ _ _ S Hn). }
  { intros b Hb. apply elem_of_list_singleton in Hb as ->. exact (sarg_usable _ _ _ _ _ _ (proj1 V)). }
  assert (ES : step F w (CCast a ty) = Ok (w', v)) by (cbn [step]; unfold do_cast, get_node, get_type; rewrite Hn; cbn [of_opt rbind]; rewrite HT; cbn [of_opt rbind]; rewrite EQ, Em; exact E).
  destruct (step_ext F _ _ _ _ ES WFw) as [_ (t1 & Ht1 & [(-> & -> & y & Hy & Ey)|NN])].
  { exfalso. rewrite Hn in Hy. injection Hy as <-. apply Nat.eqb_neq in EQ. congruence. }
  rewrite HT in Ht1. injection Ht1 as <-. rewrite (proj2 (proj2 V)) in NN.
  eapply (op_rule e h w _ w' v k _ _ [a] [(t, x)] _ s' W'); [exact S|exact ES|exact I|exact NN|exact I|exact IT'|cbn; lia|constructor; [exact (proj1 V)|constructor]| |].
  - intros lat [_ GL]. cbn. right. left. apply GL.
  - intros i Hi. unfold vals. cbn [map fst snd act_op]. rewrite (it_f' _ _ _ IT), (it_f _ _ _ IT'), (it_s _ _ _ IT'), (it_w' _ _ _ IT), (it_w _ _ _ IT), (it_w _ _ _ IT'). reflexivity.
Qed.
(** *** shifts *)
Lemma shift_node e h w k a t x (l : bool) n : st h w -> svar e w k a t x -> 0 <= n < 256 ->
  exists w' r, step F w (CShift l a n) = Ok (w', r) /\ new_node w w' r k ((if l then SHL else SHR) n) t VStream EmptyString [a].
Proof.
  intros S V Hn8. pose proof (st_WF F true h w S) as WFw. destruct (svar_node _ _ _ _ _ _ V) as (nd & Hn & Hty & Em & NC).
  destruct (mk_op_progress w k ((if l then SHL else SHR) n) (n_ty nd) [a]) as (w' & s & E).
  { apply WFw. } { eauto. } { destruct l; discriminate. } { rewrite <- Em. exact (kern_of F _ _ _ _ _ S Hn). }
  { intros b Hb. apply elem_of_list_singleton in Hb as ->. exact (sarg_usable _ _ _ _ _ _ (proj1 V)). }
  assert (ES : step F w (CShift l a n) = Ok (w', s)).
  { cbn [step]. unfold do_shift, get_node, u8. rewrite Hn, (Z.mod_small n) by lia. cbn [of_opt rbind]. rewrite (const_value_none w a nd WFw Hn NC), Em. destruct l; exact E. }
  destruct (step_ext F _ _ _ _ ES WFw) as [_ [(ta & va & v & (y & Hy & Ev & _) & _)|(ta & Hta & _ & NN)]]; [exfalso; apply NC; exists y; auto|].
  rewrite (sa_type _ _ _ _ _ _ (proj1 V)) in Hta. injection Hta as <-. rewrite (Z.mod_small n), (proj2 (proj2 V)) in NN by lia. eauto.
Qed.
Lemma num_signed W x : 0 < W -> - 2 ^ (W - 1) <= x < 2 ^ (W - 1) -> num true W (x mod 2 ^ W) = x.
Proof.
  intros HW R. assert (E : 2 ^ W = 2 * 2 ^ (W - 1)) by (rewrite <- Z.pow_succ_r by lia; f_equal; lia). unfold num. cbn [andb].
  destruct (Z.leb_spec 0 x).
  - rewrite (Z.mod_small x) by lia. destruct (Z.leb_spec (2 ^ (W - 1)) x); lia.
  - replace (x mod 2 ^ W) with (x + 2 ^ W) by (symmetry; rewrite <- (Z.mod_add x 1 (2 ^ W)), Z.mul_1_l by lia; apply Z.mod_small; lia). destruct (Z.leb_spec (2 ^ (W - 1)) (x + 2 ^ W)); lia.
Qed.
Lemma srule_shl e h w k a t W x n : st h w -> svar e w k a t x -> itype t true W -> 0 <= n < 256 -> 2 <= W -> (forall i, 0 <= i -> - 2 ^ (W - 1) <= x i * 2 ^ n < 2 ^ (W - 1)) ->
  wp h w (call (CShift true a n)) (fun w' r => sfr w w' /\ svar e w' k r t (fun i => x i * 2 ^ n)).
Proof.
  intros S V IT Hn HW R. destruct (shift_node e h w k a t x true n S V Hn) as (w' & r & ES & NN).
  eapply (op_rule e h w _ w' r k _ _ [a] [(t, x)] _ true W); [exact S|exact ES|exact I|exact NN|exact I|exact IT|cbn; lia|constructor; [exact (proj1 V)|constructor]| |].
  - intros lat _. cbn. split; [lia|]. right. rewrite (it_w _ _ _ IT). exact HW.
  - intros i Hi. specialize (R i Hi). unfold vals. cbn [map fst snd act_op]. rewrite (it_s _ _ _ IT), (it_w _ _ _ IT). do 2 f_equal.
    assert (E : 2 ^ W = 2 * 2 ^ (W - 1)) by (rewrite <- Z.pow_succ_r by lia; f_equal; lia). assert (PN : 1 <= 2 ^ n) by (pose proof (Z.pow_pos_nonneg 2 n); lia). set (M := 2 ^ (W - 1)) in *. set (N := 2 ^ n) in *.
    assert (ML : forall q, (x i + q * (2 * M)) * N mod M = (x i * N) mod M) by (intro q; replace ((x i + q * (2 * M)) * N) with (x i * N + (q * 2 * N) * M) by ring; apply Z.mod_add; unfold M in *; nia).
    destruct (Z.leb_spec 0 (x i)) as [P0|P0].
    + assert (x i < M) by nia. rewrite (Z.mod_small (x i)) by lia. rewrite (Z.div_small (x i)), Z.mod_small, (Z.mod_small _ (2 ^ W)) by nia. lia.
    + assert (- M <= x i) by nia. assert (0 < M) by nia.
      assert (NG : forall z K, - K <= z < 0 -> z mod K = z + K) by (intros z K HK; symmetry; apply (Z.mod_unique_pos z K (-1)); lia).
      rewrite E, (NG (x i) (2 * M)), (NG (x i * N) (2 * M)) by nia.
      replace ((x i + 2 * M) * N) with ((x i + 1 * (2 * M)) * N) by ring. rewrite ML, (NG (x i * N) M) by nia.
      replace ((x i + 2 * M) / M) with 1 by (apply (Z.div_unique_pos _ _ _ (x i + M)); lia). lia.
Qed.
Lemma srule_shr e h w k a t W x n : st h w -> svar e w k a t x -> itype t true W -> 0 <= n < 256 ->
  wp h w (call (CShift false a n)) (fun w' r => sfr w w' /\ svar e w' k r t (fun i => num true W (x i mod 2 ^ W) / 2 ^ n)).
Proof.
  intros S V IT Hn. destruct (shift_node e h w k a t x false n S V Hn) as (w' & r & ES & NN).
  eapply (op_rule e h w _ w' r k _ _ [a] [(t, x)] _ true W); [exact S|exact ES|exact I|exact NN|exact I|exact IT|cbn; lia|constructor; [exact (proj1 V)|constructor]| |].
  - intros lat _. cbn. lia.
  - intros i Hi. unfold vals, h_num. cbn [map fst snd act_op hw_op]. unfold h_num. cbn [fst snd]. rewrite (it_s' _ _ _ IT), (it_w _ _ _ IT), (it_w' _ _ _ IT). reflexivity.
Qed.
End Flat.
