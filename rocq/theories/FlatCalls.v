(** * Rules for kernels with signed types, continued: arithmetic, choice, ports (proofs). *)
From Coq Require Import ZArith Bool String Lia.
From stdpp Require Import gmap list.
From Verif Require Import Types Word Value OpSpec Graph GraphSpec TypingSpec TypesProofs BuilderProofs BuilderProofs2 BuilderTopo GraphFacts StreamSpec Dfcir DfcirBuild
     Verilog Stubs Naming StubsSpec Firrtl Lower RtlSpec KernelSpec KernelValues Instance InstanceSpec InstanceLoop InstanceMain InstanceStep InstanceFlow LifeProofs ProgTyping SliceFacts Prog ProgFrame ProgRules ProgCalls ProgPorts FlatRules.
Local Open Scope Z_scope.

Section Calls.
Variable F : fltops.
Notation st := (st F true).
Notation wp := (wp F true).

(** *** binary operations on a stream *)
Lemma bin_node e h w k o a b t x t2 y : st h w -> svar e w k a t x -> sarg e w k b t2 y ->
  exists w' r, step F w (CBin o a b) = Ok (w', r) /\ new_node w w' r k (BIN o) (if is_comp o then TFixed false 1 0 else t) VStream EmptyString [a; b].
Proof.
  intros S A B. pose proof (st_WF F true h w S) as WFw. destruct (svar_node _ _ _ _ _ _ A) as (na & Na & Ta & Em & NC). destruct (sa_node _ _ _ _ _ _ B) as (nb & Nb & _).
  assert (U : forall z, z ∈ [a; b] -> usable w k z) by (intros z Hz; rewrite !elem_of_cons in Hz; destruct Hz as [->|[->|Hz]]; [exact (sarg_usable _ _ _ _ _ _ (proj1 A))|exact (sarg_usable _ _ _ _ _ _ B)|inversion Hz]).
  assert (exists w' r, step F w (CBin o a b) = Ok (w', r)) as (w' & r & ES).
  { cbn [step]. unfold do_bin, get_node. rewrite Na, Nb. cbn [of_opt rbind]. rewrite (const_value_none w a na WFw Na NC), Em. destruct (is_comp o).
    - destruct (mk_op_progress (fst (add_type w mkBool)) k (BIN o) (length (w_types w)) [a; b]) as (w' & r & E); [apply (add_type_WF w _ WFw)|cbn; rewrite lookup_app_r, Nat.sub_diag by lia; eauto|discriminate|cbn; rewrite <- Em; exact (kern_of F _ _ _ _ _ S Na)|intros z Hz; apply usable_types, U, Hz|]. exists w', r. exact E.
    - destruct (mk_op_progress w k (BIN o) (n_ty na) [a; b]) as (w' & r & E); [apply WFw|eauto|discriminate|rewrite <- Em; exact (kern_of F _ _ _ _ _ S Na)|exact U|]. eauto. }
  exists w', r. split; [exact ES|].
  destruct (step_ext F _ _ _ _ ES WFw) as [_ [(ta' & tb' & va & vb & v & (y1 & Hy1 & Ev1 & _) & _)|(ta' & Hta' & _ & NN)]]; [exfalso; apply NC; exists y1; auto|].
  rewrite (sa_type _ _ _ _ _ _ (proj1 A)) in Hta'. injection Hta' as <-.
  assert (KK : (if is_constb w a then owner w b else owner w a) = k).
  { unfold is_constb. rewrite Na. destruct (n_vk na) eqn:E; [exact (proj2 (proj2 A))|exact (proj2 (proj2 A))|exfalso; apply NC; exists na; auto]. }
  rewrite KK in NN. exact NN.
Qed.
Lemma num_cong s W x : 0 < W -> num s W (x mod 2 ^ W) mod 2 ^ W = x mod 2 ^ W.
Proof.
  intro HW. assert (0 < 2 ^ W) by (apply Z.pow_pos_nonneg; lia). unfold num. destruct (s && _).
  - replace (x mod 2 ^ W - 2 ^ W) with (x mod 2 ^ W + (-1) * 2 ^ W) by ring. rewrite Z.mod_add by lia. apply Z.mod_mod. lia.
  - apply Z.mod_mod. lia.
Qed.
Lemma ring_cong o m a b a' b' : 0 < m -> is_arith o = true -> a mod m = a' mod m -> b mod m = b' mod m -> bin_math o a b mod m = bin_math o a' b' mod m.
Proof.
  intros Hm Ho EA EB. destruct o; try discriminate Ho; cbn [bin_math].
  - rewrite (Z.add_mod a b), (Z.add_mod a' b') by lia. congruence.
  - rewrite (Zminus_mod a b), (Zminus_mod a' b'). congruence.
  - rewrite (Z.mul_mod a b), (Z.mul_mod a' b') by lia. congruence.
Qed.
(** sums, differences and products *)
Lemma srule_arith e h w k o a b t s W x y : st h w -> is_arith o = true -> svar e w k a t x -> sarg e w k b t y -> itype t s W ->
  wp h w (call (CBin o a b)) (fun w' r => sfr w w' /\ svar e w' k r t (fun i => bin_math o (x i) (y i))).
Proof.
  intros S Ho A B IT. destruct (bin_node e h w k o a b t x t y S A B) as (w' & r & ES & NN). assert (IC : is_comp o = false) by (destruct o; try discriminate Ho; reflexivity). rewrite IC in NN.
  assert (BW : is_bitwise o = false) by (destruct o; try discriminate Ho; reflexivity). assert (CP : is_compare o = false) by (destruct o; try discriminate Ho; reflexivity).
  eapply (op_rule F e h w _ w' r k _ _ [a; b] [(t, x); (t, y)] _ s W); [exact S|exact ES|exact I|exact NN|exact I|exact IT|cbn; lia|constructor; [exact (proj1 A)|constructor; [exact B|constructor]]| |].
  - intros lat [GL _]. cbn [map fst act_fits]. rewrite BW, CP. split; [exact Ho|]. destruct (is_signed t) eqn:E; [left; exact (GL o t Ho E)|right; reflexivity].
  - intros i Hi. unfold vals. cbn [map fst snd act_op]. rewrite BW, CP, Ho, (it_f' _ _ _ IT). cbn [orb]. rewrite (it_w _ _ _ IT), (it_w' _ _ _ IT), (it_s _ _ _ IT). do 2 f_equal.
    pose proof (it_b _ _ _ IT). apply ring_cong; [apply Z.pow_pos_nonneg; lia|exact Ho|apply num_cong; lia|apply num_cong; lia].
Qed.
(** comparisons of signed numbers *)
Lemma srule_compare e h w k o a b t W x y : st h w -> is_compare o = true -> svar e w k a t x -> sarg e w k b t y -> itype t true W ->
  wp h w (call (CBin o a b)) (fun w' r => sfr w w' /\ svar e w' k r (TFixed false 1 0) (fun i => bin_math o (num true W (x i mod 2 ^ W)) (num true W (y i mod 2 ^ W)))).
Proof.
  intros S Ho A B IT. destruct (bin_node e h w k o a b t x t y S A B) as (w' & r & ES & NN). assert (IC : is_comp o = true) by (destruct o; try discriminate Ho; reflexivity). rewrite IC in NN.
  assert (BW : is_bitwise o = false) by (destruct o; try discriminate Ho; reflexivity).
  eapply (op_rule F e h w _ w' r k _ _ [a; b] [(t, x); (t, y)] _ false 1); [exact S|exact ES|exact I|exact NN|exact I|apply itype_uint; lia|cbn; lia|constructor; [exact (proj1 A)|constructor; [exact B|constructor]]| |].
  - intros lat _. cbn [map fst act_fits]. rewrite BW, Ho. exact I.
  - intros i Hi. unfold vals. cbn [map fst snd act_op]. rewrite BW, Ho, (it_f' _ _ _ IT). cbn [orb]. rewrite (it_w _ _ _ IT), (it_w' _ _ _ IT), (it_s' _ _ _ IT), Z.max_id. reflexivity.
Qed.
(** *** choice *)
Lemma srule_mux e h w k c tc Wc xc arms t s W ys : st h w -> svar e w k c tc xc -> itype tc false Wc -> Forall2 (fun a y => sarg e w k a t y) arms ys -> itype t s W -> arms <> [] -> (length arms <= 127)%nat ->
  (forall i, 0 <= i -> 0 <= xc i < Z.of_nat (length arms) /\ xc i < 2 ^ Wc) ->
  wp h w (call (CMux k c arms)) (fun w' r => sfr w w' /\ svar e w' k r t (fun i => nth (Z.to_nat (xc i)) ys (fun _ => 0) i)).
Proof.
  intros S C ITc F2 IT NEa LN R. pose proof (st_WF F true h w S) as WFw. destruct (svar_node _ _ _ _ _ _ C) as (nc & Nc & _ & Em & _).
  destruct arms as [|a0 arms]; [contradiction|]. clear NEa.
  assert (AR : forall a, a ∈ a0 :: arms -> exists y, sarg e w k a t y) by (intros a Ha; apply elem_of_list_lookup in Ha as (j & Hj); destruct (Forall2_lookup_l _ _ _ _ _ F2 Hj) as (y & _ & A); eauto).
  destruct (AR a0 ltac:(constructor)) as (y0 & A0). destruct (sa_node _ _ _ _ _ _ A0) as (n0 & N0 & _). pose proof (sa_type _ _ _ _ _ _ A0) as Ht0.
  assert (Hty : w_types w !! n_ty n0 = Some t) by (unfold type_of in Ht0; rewrite N0 in Ht0; exact Ht0).
  destruct (mk_op_progress w k MUX (n_ty n0) (c :: a0 :: arms)) as (w' & r & E).
  { apply WFw. } { eauto. } { discriminate. } { rewrite <- Em. exact (kern_of F _ _ _ _ _ S Nc). }
  { intros b Hb. rewrite elem_of_cons in Hb. destruct Hb as [->|Hb]; [exact (sarg_usable _ _ _ _ _ _ (proj1 C))|]. destruct (AR b Hb) as (y & A). exact (sarg_usable _ _ _ _ _ _ A). }
  assert (ES : step F w (CMux k c (a0 :: arms)) = Ok (w', r)).
  { cbn [step]. unfold do_mux, get_node. rewrite N0. cbn [of_opt rbind]. exact E. }
  destruct (step_ext F _ _ _ _ ES WFw) as [[W' P] (a0' & rest & t' & EQ & Ht & NN)]. injection EQ as <- <-. rewrite Ht0 in Ht. injection Ht as <-.
  assert (NH : forall a, a ∈ c :: a0 :: arms -> ~ hole w a /\ ~ has_op w a OUT) by (intros b Hb; rewrite elem_of_cons in Hb; destruct Hb as [->|Hb]; [exact (sarg_nohole _ _ _ _ _ _ (proj1 C))|]; destruct (AR b Hb) as (y & A); exact (sarg_nohole _ _ _ _ _ _ A)).
  assert (G : gr [] w w').
  { eapply gr_node; [exact WFw|exact W'|exact P|exact NN|intros a Ha; apply NH, Ha| |intros n I; inversion I]. intros [X|[X|X]]; discriminate X. }
  pose proof NN as (Fr & (nd & Hr & Er & Ht & Ev & En & Emr) & Hin & Hl).
  assert (TY : type_of w' r = Some t) by (unfold type_of; rewrite Hr; exact Ht).
  eapply wp_call; [exact S|exact ES|exact I|discriminate|]. split.
  - constructor; [exact G|exact (step_frame F _ _ _ _ ES ltac:(discriminate))|exact (step_names F _ _ _ _ ES WFw I)|].
    intro Ty. eapply stidy_node; [exact WFw|exact W'|exact G|exact P|exact NN|intros a Ha; apply NH, Ha|exact (it_p _ _ _ IT)| |cbn in *; lia|discriminate|intros c' arms' EQ; injection EQ as <- _; exact (proj1 (proj2 C))|exact Ty].
    intros ts lat GL X. inversion X as [|? t1 ? l E1 X']. subst. cbn. split; [inversion X'; discriminate|].
    assert (FT : forall a, a ∈ a0 :: arms -> type_of w a = Some t) by (intros a Ha; destruct (AR a Ha) as (y & A); exact (sa_type _ _ _ _ _ _ A)).
    clear - X' FT. revert X' FT. generalize (a0 :: arms). intros q X' FT. induction X' as [|? ? ? ? E1 X' IH]; [constructor|]. constructor; [pose proof (FT _ ltac:(left)); congruence|apply IH; intros a Ha; apply FT; right; exact Ha].
  - split; [constructor|split].
    + exists nd. split; [exact Hr|]. split; [congruence|right; exact Emr].
    + exact TY.
    + eauto.
    + intros i Hi. destruct (R i Hi) as [R1 R2]. assert (J : (Z.to_nat (xc i) < length (a0 :: arms))%nat) by lia. set (j := Z.to_nat (xc i)) in *.
      destruct (lookup_lt_is_Some_2 _ _ J) as (a & Ha). destruct (Forall2_lookup_l _ _ _ _ _ F2 Ha) as (y & Hy & Ay). rewrite (nth_lookup_Some _ _ _ _ Hy).
      pose proof (sa_val _ _ _ _ _ _ (proj1 C) i Hi) as KC. rewrite (it_w _ _ _ ITc), Z.mod_small in KC by lia.
      eapply (kv_mux _ _ r nd c (a0 :: arms) a i (kind tc, xc i)); [exact Hr|exact Er|unfold operands; rewrite Hin, imap_src; reflexivity|exact Hi|exact (gr_kval _ _ _ _ _ _ _ G KC)|exact Ha|exact (gr_kval _ _ _ _ _ _ _ G (sa_val _ _ _ _ _ _ Ay i Hi))|].
      intros b Hb. destruct (AR b Hb) as (yb & Ab). eexists. exact (gr_kval _ _ _ _ _ _ _ G (sa_val _ _ _ _ _ _ Ab i Hi)).
    + exists nd. split; [exact Hr|]. split; [exact Ev|]. intros _. rewrite En. discriminate.
    + unfold owner. rewrite Hr. exact Emr.
Qed.

(** *** ports *)
Record sext (X : list nat) (w w' : world) : Prop := { sx_gr : gr X w w'; sx_frame : frame w w'; sx_tidy : stidy w -> stidy w' }.
Lemma sfr_sext w w' : sfr w w' -> sext [] w w'.
Proof. intros [A B C D]. constructor; auto. Qed.
Lemma sext_trans X Y w1 w2 w3 : sext X w1 w2 -> sext Y w2 w3 -> sext (X ++ Y) w1 w3.
Proof. intros [A1 A2 A3] [B1 B2 B3]. constructor; [exact (gr_trans _ _ _ _ _ A1 B1)|exact (frame_trans _ _ _ A2 B2)|auto]. Qed.
Lemma srule_var h w c o k nm ty t : st h w -> (c = CInput k false nm ty /\ o = IN \/ c = COutput k false nm ty /\ o = OUT) ->
  w_types w !! ty = Some t -> proper t -> is_Some (w_kern w !! k) ->
  wp h w (call c) (fun w' r => sext [r] w w' /\ w_nodes w !! r = None /\ operands w' r = [] /\ readers w' r = [] /\
    (exists nd, w_nodes w' !! r = Some nd /\ n_op nd = o /\ n_vk nd = VStream /\ n_name nd = nm /\ n_meta nd = k) /\ type_of w' r = Some t /\
    (forall j, names w' j = if decide (j = k /\ nm <> EmptyString) then (nm, r) :: names w j else names w j)).
Proof.
  intros S Hc Ht PT (g & Hg). pose proof (st_WF F true h w S) as WFw.
  assert (exists w' r, add_node w k o ty VStream nm = Ok (w', r)) as (w' & r & E) by (unfold add_node; rewrite Hg; cbn [of_opt rbind]; eauto).
  assert (ES : step F w c = Ok (w', r)).
  { destruct Hc as [[-> ->]|[-> ->]]; cbn [step]; unfold do_io, get_type; rewrite Ht; cbn [of_opt rbind]; exact E. }
  destruct (step_ext F _ _ _ _ ES WFw) as [[W' P] CP].
  assert (NN : new_node w w' r k o t VStream nm []).
  { destruct Hc as [[-> ->]|[-> ->]]; destruct CP as (t' & Ht' & NN); rewrite Ht in Ht'; injection Ht' as <-; exact NN. }
  assert (OO : operands w' r = []) by (destruct NN as (_ & _ & Hin & _); unfold operands; rewrite Hin; reflexivity).
  assert (G : gr [r] w w').
  { eapply gr_node; [exact WFw|exact W'|exact P|exact NN|intros a Ha; inversion Ha|intros _; constructor|intros n Hn; apply elem_of_list_singleton, Hn]. }
  eapply wp_call; [exact S|exact ES| | |].
  { destruct Hc as [[-> _]|[-> _]]; exact I. } { intros t' X. destruct Hc as [[-> _]|[-> _]]; discriminate X. }
  pose proof NN as (Fr & (nd & Hr & Er & Ety & Ev & En & Em) & _). split; [constructor|].
  - exact G.
  - apply (step_frame F _ _ _ _ ES). destruct Hc as [[-> _]|[-> _]]; discriminate.
  - intros Ty. eapply (stidy_node [r] w w' r k o t VStream nm []); [exact WFw|exact W'|exact G|exact P|exact NN|intros a Ha; inversion Ha|exact PT| |cbn; lia| | |exact Ty].
    + intros ts lat _ F2. inversion F2. destruct Hc as [[_ ->]|[_ ->]]; exact I.
    + intros z X. destruct Hc as [[_ ->]|[_ ->]]; discriminate X.
    + destruct Hc as [[_ ->]|[_ ->]]; exact I.
  - split; [exact Fr|]. split; [exact OO|]. split; [exact (new_unread _ _ _ _ _ _ _ _ _ WFw W' P NN)|]. split; [exists nd; auto|]. split; [unfold type_of; rewrite Hr; exact Ety|].
    exact (names_add_node _ _ _ _ _ _ _ _ E).
Qed.
Lemma srule_input e h w k nm ty t s W x : st h w -> w_types w !! ty = Some t -> itype t s W -> is_Some (w_kern w !! k) -> nm <> EmptyString -> nm <> "left"%string ->
  (forall i, 0 <= i -> e_stream e nm i = (kind t, x i mod 2 ^ W)) ->
  wp h w (call (CInput k false nm ty)) (fun w' r => sext [r] w w' /\ w_nodes w !! r = None /\ svar e w' k r t x /\ in_port w' r /\
    names w' k = (nm, r) :: names w k).
Proof.
  intros S Ht IT Hk Nn N2 HE.
  eapply wp_conseq; [apply (srule_var h w (CInput k false nm ty) IN k nm ty t S); [left; auto|exact Ht|exact (it_p _ _ _ IT)|exact Hk]|].
  cbn beta. intros w' r (X & Fr & Op & Rd & (nd & Hr & Er & Ev & En & Em) & Ty & Nm). split; [exact X|]. split; [exact Fr|]. split; [split; [constructor|split]|split].
  - exists nd. split; [exact Hr|]. split; [congruence|auto].
  - exact Ty.
  - eauto.
  - intros i Hi. rewrite (it_w _ _ _ IT), <- (HE i Hi), <- En. apply (kv_stream (hwa e) w' r nd i); auto.
  - exists nd. rewrite En. auto.
  - unfold owner. rewrite Hr. exact Em.
  - split; [exists nd; auto|exact Op].
  - rewrite Nm, decide_True by auto. reflexivity.
Qed.
Lemma srule_output h w k nm ty t s W : st h w -> w_types w !! ty = Some t -> itype t s W -> is_Some (w_kern w !! k) -> nm <> EmptyString ->
  wp h w (call (COutput k false nm ty)) (fun w' r => sext [r] w w' /\ w_nodes w !! r = None /\ open_out w' k r /\ type_of w' r = Some t /\
    names w' k = (nm, r) :: names w k).
Proof.
  intros S Ht IT Hk Nn.
  eapply wp_conseq; [apply (srule_var h w (COutput k false nm ty) OUT k nm ty t S); [right; auto|exact Ht|exact (it_p _ _ _ IT)|exact Hk]|].
  cbn beta. intros w' r (X & Fr & Op & Rd & (nd & Hr & Er & Ev & En & Em) & Ty & Nm). split; [exact X|]. split; [exact Fr|].
  split; [split; [exists nd; auto|]; split; [exact Op|]; split; [exact Rd|unfold owner; rewrite Hr; exact Em]|].
  split; [exact Ty|]. rewrite Nm, decide_True by auto. reflexivity.
Qed.
(** an output driven by a variable of its type *)
Lemma srule_connect e h w k a b t s W x : st h w -> open_out w k a -> svar e w k b t x -> type_of w a = Some t -> itype t s W ->
  wp h w (call (CConnect a b)) (fun w' _ => sext [a] w w' /\ has_op w' a OUT /\ operands w' a = [b] /\ readers w' a = [] /\ owner w' a = k /\ (forall j, names w' j = names w j)).
Proof.
  intros S (HO & OA & RA & OW) B Ht IT. pose proof (st_WF F true h w S) as WFw. destruct (svar_node _ _ _ _ _ _ B) as (nb & Nb & _ & Emb & _). pose proof (sa_type _ _ _ _ _ _ (proj1 B)) as Htb. destruct HO as (na & Na & Ea).
  assert (NE : a <> b) by (intros ->; destruct (sarg_nohole _ _ _ _ _ _ (proj1 B)) as [_ N]; apply N; exists na; auto).
  assert (Ema : n_meta na = k) by (unfold owner in OW; rewrite Na in OW; exact OW).
  destruct (add_chan_progress w k b a 0 true (proj1 WFw)) as (w' & E).
  { exact (sarg_usable _ _ _ _ _ _ (proj1 B)). } { destruct (cs_owned _ (proj1 WFw) a na Na) as (g & Hg & Hi). rewrite Ema in Hg. eauto. }
  assert (ES : step F w (CConnect a b) = Ok (w', a)) by (cbn [step]; unfold do_connect, get_node; rewrite Na; cbn [of_opt rbind]; rewrite Ema, E; reflexivity).
  assert (OK : ok_call w (CConnect a b)) by (split; [exact NE|]; split; [exact OA|]; split; [exact RA|]; exists na; auto).
  destruct (step_ext F _ _ _ _ ES WFw) as [[W' (P1 & P2 & P3 & P4)] (_ & _ & _ & Hin & LL)].
  assert (G : gr [a] w w') by (apply (gr_conn F w w' a b WFw ES); [right; split; [exists na; auto|exact OA]|exact (proj1 (sarg_nohole _ _ _ _ _ _ (proj1 B)))]).
  assert (OP : operands w' a = [b]) by (unfold operands; rewrite Hin, map_app; unfold operands in OA; rewrite OA; reflexivity).
  assert (LB : is_Some (w_nodes w !! b)) by eauto. assert (LA : is_Some (w_nodes w !! a)) by eauto.
  assert (RD : readers w' a = []).
  { assert (Z : forall m, m ∈ readers w' a -> False).
    { intros m Hm. apply (readers_operands w' a m (proj1 W')) in Hm. destruct (decide (m = a)) as [->|Nm]; [rewrite OP in Hm; apply elem_of_list_singleton in Hm; congruence|].
      destruct (operands_live w' m a (proj1 W') Hm) as [_ L]. unfold operands in Hm. rewrite P2 in Hm; [|apply LL, L|exact Nm]. apply (readers_operands w a m (proj1 WFw)) in Hm. rewrite RA in Hm. inversion Hm. }
    destruct (readers w' a) as [|m l] eqn:Em; [reflexivity|]. exfalso. apply (Z m). constructor. }
  eapply wp_call; [exact S|exact ES|exact OK|discriminate|]. split; [constructor|].
  - exact G.
  - exact (step_frame F _ _ _ _ ES ltac:(discriminate)).
  - intros Ty n nd' Hn'. destruct (proj1 (LL n) ltac:(eauto)) as (y & Hy). destruct (g_live _ _ _ G n y Hy) as (y' & Hy' & E1 & _). rewrite Hn' in Hy'. injection Hy' as <-. rewrite <- E1.
    destruct (Ty n y Hy) as ((tn & Htn & Pn & Fn) & Nn & On & Rn & Cn).
    assert (RR : n_op y = OUT -> readers w' n = []).
    { intro Eo. destruct (decide (n = a)) as [->|Na']; [exact RD|]. assert (Z : forall m, m ∈ readers w' n -> False).
      { intros m Hm. apply (readers_operands w' n m (proj1 W')) in Hm. destruct (decide (m = a)) as [->|Nm].
        - rewrite OP in Hm. apply elem_of_list_singleton in Hm as ->. apply (sarg_nohole _ _ _ _ _ _ (proj1 B)). exists y. auto.
        - destruct (operands_live w' m n (proj1 W') Hm) as [_ L]. unfold operands in Hm. rewrite P2 in Hm; [|apply LL, L|exact Nm]. apply (readers_operands w n m (proj1 WFw)) in Hm. rewrite (Rn Eo) in Hm. inversion Hm. }
      destruct (readers w' n) as [|m l] eqn:Em; [reflexivity|]. exfalso. apply (Z m). constructor. }
    destruct (decide (n = a)) as [->|Na'].
    + assert (y = na) as -> by congruence. rewrite OP. split; [|split; [cbn; lia|split; [exact On|split; [exact RR|rewrite Ea; exact I]]]].
      exists tn. split; [exact (gr_type _ _ _ _ _ G Htn)|]. split; [exact Pn|]. intros ts lat _ F2. apply one_type in F2 as (ts1 & -> & Ets).
      rewrite Ht in Htn. injection Htn as <-. rewrite (gr_type _ _ _ _ _ G Htb) in Ets. injection Ets as <-. rewrite Ea. cbn. split; [reflexivity|lia].
    + assert (EO : operands w' n = operands w n) by (unfold operands; rewrite P2; [reflexivity|eauto|exact Na']). rewrite EO. split; [|split; [exact Nn|split; [exact On|split; [exact RR|]]]].
      * exists tn. split; [exact (gr_type _ _ _ _ _ G Htn)|]. split; [exact Pn|]. intros ts lat GL F2. apply (Fn ts lat GL). apply (types_old [a] w w' _ ts G WFw); [|exact F2]. intros z Hz. apply (operands_live w n z (proj1 WFw) Hz).
      * destruct (n_op y); try exact Cn. intros c arms EE. exact (ctl_gr _ _ _ _ G (Cn c arms EE)).
  - split; [apply (op_old [a] w w' a _ G LA); exists na; auto|]. split; [exact OP|]. split; [exact RD|]. split; [rewrite (gr_owner _ _ _ _ G LA); exact OW|]. exact (step_names F _ _ _ _ ES WFw I).
Qed.
End Calls.
