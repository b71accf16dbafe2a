(** * Ports, placeholders and connections (proofs). *)
From Coq Require Import ZArith Bool String Lia.
From stdpp Require Import gmap list.
From Verif Require Import Types Word Value OpSpec Graph GraphSpec TypesProofs BuilderProofs BuilderProofs2 BuilderTopo GraphFacts StreamSpec Dfcir DfcirBuild
     Verilog Stubs Naming Firrtl Lower RtlSpec KernelSpec KernelValues Instance InstanceSpec InstanceLoop InstanceMain InstanceStep InstanceFlow LifeProofs ProgTyping SliceFacts Prog ProgFrame ProgRules ProgCalls.
Local Open Scope Z_scope.

(** the kernels alive are the same, and [w'] has more variables *)
Record ext (T : bool) (X : list nat) (w w' : world) : Prop := {
  x_gr : gr X w w';
  x_frame : frame w w';
  x_tidy : T = true -> tidy w -> tidy w'
}.
Lemma fr_ext T w w' : fr T w w' -> ext T [] w w'.
Proof. intros [A B C D]. constructor; auto. Qed.
Lemma ext_fr T w w' : ext T [] w w' -> (forall j, names w' j = names w j) -> fr T w w'.
Proof. intros [A B D] C. constructor; auto. Qed.
Lemma ext_trans T X Y w1 w2 w3 : ext T X w1 w2 -> ext T Y w2 w3 -> ext T (X ++ Y) w1 w3.
Proof. intros [A1 A2 A3] [B1 B2 B3]. constructor; [exact (gr_trans _ _ _ _ _ A1 B1)|exact (frame_trans _ _ _ A2 B2)|auto]. Qed.
Lemma ext_same T X Y w w' : ext T X w w' -> (forall n, n ∈ X <-> n ∈ Y) -> ext T Y w w'.
Proof.
  intros [A B C] E. constructor; auto. apply (gr_weaken X Y w w' A); [intros n; apply E|]. intros n H L. apply (g_old _ _ _ A n); [apply E, H|exact L].
Qed.

Section Ports.
Variable F : fltops.

Lemma new_unread w w' r k o t vk nm args : WF w -> WF w' -> preserved w w' r -> new_node w w' r k o t vk nm args -> readers w' r = [].
Proof.
  intros W W' (P1 & P2 & P3 & P4) (Fr & _ & Hin & Hl). assert (Z : forall m, m ∈ readers w' r -> False).
  { intros m Hm. apply (readers_operands w' r m (proj1 W')) in Hm. destruct (decide (m = r)) as [->|Nm].
    - unfold operands in Hm. rewrite Hin, imap_src in Hm. destruct (Hl r Hm) as (y & Hy). congruence.
    - destruct (operands_live w' m r (proj1 W') Hm) as [_ L]. pose proof (P4 m L Nm) as L'. unfold operands in Hm. rewrite P2 in Hm by assumption. destruct (operands_live w m r (proj1 W) Hm) as [(y & Hy) _]. congruence. }
  destruct (readers w' r) as [|m l] eqn:E; [reflexivity|]. exfalso. apply (Z m). constructor.
Qed.
(** a call that creates a variable without operands *)
Lemma rule_var T h w c o k nm ty t : st F T h w -> (c = CInput k false nm ty /\ o = IN \/ c = COutput k false nm ty /\ o = OUT \/ c = CNewVar k false ty /\ o = NONE /\ nm = EmptyString) ->
  w_types w !! ty = Some t -> proper t -> is_Some (w_kern w !! k) ->
  wp F T h w (call c) (fun w' r => ext T [r] w w' /\ w_nodes w !! r = None /\ operands w' r = [] /\ readers w' r = [] /\
    (exists nd, w_nodes w' !! r = Some nd /\ n_op nd = o /\ n_vk nd = VStream /\ n_name nd = nm /\ n_meta nd = k) /\ type_of w' r = Some t /\
    (forall j, names w' j = if decide (j = k /\ nm <> EmptyString) then (nm, r) :: names w j else names w j)).
Proof.
  intros S Hc Ht PT (g & Hg). pose proof (st_WF F T h w S) as WFw.
  assert (exists w' r, add_node w k o ty VStream nm = Ok (w', r)) as (w' & r & E) by (unfold add_node; rewrite Hg; cbn [of_opt rbind]; eauto).
  assert (ES : step F w c = Ok (w', r)).
  { destruct Hc as [[-> ->]|[[-> ->]|[-> [-> ->]]]]; cbn [step]; unfold do_io, get_type; rewrite Ht; cbn [of_opt rbind]; exact E. }
  destruct (step_ext F _ _ _ _ ES WFw) as [[W' P] CP].
  assert (NN : new_node w w' r k o t VStream nm []).
  { destruct Hc as [[-> ->]|[[-> ->]|[-> [-> ->]]]]; destruct CP as (t' & Ht' & NN); rewrite Ht in Ht'; injection Ht' as <-; exact NN. }
  assert (OO : operands w' r = []) by (destruct NN as (_ & _ & Hin & _); unfold operands; rewrite Hin; reflexivity).
  assert (G : gr [r] w w').
  { eapply gr_node; [exact WFw|exact W'|exact P|exact NN|intros a Ha; inversion Ha|intros _; constructor|intros n Hn; apply elem_of_list_singleton, Hn]. }
  eapply wp_call; [exact S|exact ES| | |].
  { destruct Hc as [[-> _]|[[-> _]|[-> _]]]; exact I. } { intros t' X. destruct Hc as [[-> _]|[[-> _]|[-> _]]]; discriminate X. }
  pose proof NN as (Fr & (nd & Hr & Er & Ety & Ev & En & Em) & _). split; [constructor|].
  - exact G.
  - apply (step_frame F _ _ _ _ ES). destruct Hc as [[-> _]|[[-> _]|[-> _]]]; discriminate.
  - intros _ Ty. eapply (tidy_node [r] w w' r k o t VStream nm []); [exact WFw|exact W'|exact G|exact P|exact NN|intros a Ha; inversion Ha|exact PT| |left; cbn; lia| | |exact Ty].
    + intros ts lat F2. inversion F2. destruct Hc as [[_ ->]|[[_ ->]|[_ [-> _]]]]; exact I.
    + intros z X. destruct Hc as [[_ ->]|[[_ ->]|[_ [-> _]]]]; discriminate X.
    + destruct Hc as [[_ ->]|[[_ ->]|[_ [-> _]]]]; exact I.
  - split; [exact Fr|]. split; [exact OO|]. split; [exact (new_unread _ _ _ _ _ _ _ _ _ WFw W' P NN)|]. split; [exists nd; auto|]. split; [unfold type_of; rewrite Hr; exact Ety|].
    exact (names_add_node _ _ _ _ _ _ _ _ E).
Qed.
(** an input stream *)
Definition in_port (w : world) (r : nat) : Prop := (exists nd, w_nodes w !! r = Some nd /\ n_op nd = IN /\ n_vk nd = VStream) /\ operands w r = [].
Lemma in_port_gr X w w' r : gr X w w' -> in_port w r -> in_port w' r.
Proof.
  intros G ((nd & H & Eo & Ev) & O). destruct (g_live _ _ _ G r nd H) as (nd' & H' & E1 & _ & E3 & _). split; [exists nd'; split; [exact H'|]; split; congruence|].
  rewrite (g_ops _ _ _ G r); [exact O|eauto|]. intro I. destruct (g_old _ _ _ G r I ltac:(eauto)) as [(z & Hz & Ez)|[(z & Hz & Ez) _]]; congruence.
Qed.
Lemma rule_input_w e T h w k nm ty W x (f : Z -> dftype) : st F T h w -> w_types w !! ty = Some (TFixed false W 0) -> 0 < W < 65536 -> is_Some (w_kern w !! k) -> nm <> EmptyString ->
  (forall i, 0 <= i -> e_stream e nm i = (f i, x i) /\ utype (f i) W /\ 0 <= x i < 2 ^ W) ->
  wp F T h w (call (CInput k false nm ty)) (fun w' r => ext T [r] w w' /\ w_nodes w !! r = None /\ whold e w' k r W x /\ (nm <> "left"%string -> ctl w' r) /\ in_port w' r /\ type_of w' r = Some (TFixed false W 0) /\
    names w' k = (nm, r) :: names w k /\ forall j, j <> k -> names w' j = names w j).
Proof.
  intros S Ht HW Hk Nn HE. assert (UT : utype (TFixed false W 0) W) by (left; reflexivity).
  eapply wp_conseq; [apply (rule_var T h w (CInput k false nm ty) IN k nm ty (TFixed false W 0) S); [left; auto|exact Ht|apply (utype_facts _ _ UT HW)|exact Hk]|].
  cbn beta. intros w' r (X & Fr & Op & Rd & (nd & Hr & Er & Ev & En & Em) & Ty & Nm). split; [exact X|]. split; [exact Fr|]. split; [split; [constructor|split]|split].
  - exists nd. split; [exact Hr|]. split; [congruence|auto].
  - exists (TFixed false W 0). auto.
  - exact HW.
  - exists f. intros i Hi. destruct (HE i Hi) as (E & U & R). split; [exact U|]. split; [|exact R]. rewrite <- E, <- En. apply (kv_stream (hw e) w' r nd i); auto.
  - intros (y & Hy & Ey). congruence.
  - unfold owner. rewrite Hr. exact Em.
  - intro N. exists nd. rewrite En. auto.
  - split; [split; [exists nd; auto|exact Op]|]. split; [exact Ty|]. split; [rewrite Nm, decide_True by auto; reflexivity|]. intros j Nj. rewrite Nm, decide_False by tauto. reflexivity.
Qed.
Lemma rule_input e T h w k nm ty W x (f : Z -> dftype) : st F T h w -> w_types w !! ty = Some (TFixed false W 0) -> 0 < W < 65536 -> is_Some (w_kern w !! k) -> nm <> EmptyString /\ nm <> "left"%string ->
  (forall i, 0 <= i -> e_stream e nm i = (f i, x i) /\ utype (f i) W /\ 0 <= x i < 2 ^ W) ->
  wp F T h w (call (CInput k false nm ty)) (fun w' r => ext T [r] w w' /\ w_nodes w !! r = None /\ holds e w' k r W x /\ in_port w' r /\ type_of w' r = Some (TFixed false W 0) /\
    names w' k = (nm, r) :: names w k /\ forall j, j <> k -> names w' j = names w j).
Proof.
  intros S Ht HW Hk [N1 N2] HE. eapply wp_conseq; [exact (rule_input_w e T h w k nm ty W x f S Ht HW Hk N1 HE)|]. cbn beta. intros w' r (A & B & (C1 & _ & C2) & D & E). split; [exact A|]. split; [exact B|]. split; [split; [exact C1|split; [exact (D N2)|exact C2]]|exact E].
Qed.
(** an output stream, not driven yet *)
Definition open_out (w : world) (k r : nat) : Prop := has_op w r OUT /\ operands w r = [] /\ readers w r = [] /\ owner w r = k.
Lemma rule_output T h w k nm ty W : st F T h w -> w_types w !! ty = Some (TFixed false W 0) -> 0 < W < 65536 -> is_Some (w_kern w !! k) -> nm <> EmptyString ->
  wp F T h w (call (COutput k false nm ty)) (fun w' r => ext T [r] w w' /\ w_nodes w !! r = None /\ open_out w' k r /\ type_of w' r = Some (TFixed false W 0) /\ (exists nd, w_nodes w' !! r = Some nd /\ n_name nd = nm) /\
    names w' k = (nm, r) :: names w k /\ forall j, j <> k -> names w' j = names w j).
Proof.
  intros S Ht HW Hk Nn. assert (UT : utype (TFixed false W 0) W) by (left; reflexivity).
  eapply wp_conseq; [apply (rule_var T h w (COutput k false nm ty) OUT k nm ty (TFixed false W 0) S); [right; left; auto|exact Ht|apply (utype_facts _ _ UT HW)|exact Hk]|].
  cbn beta. intros w' r (X & Fr & Op & Rd & (nd & Hr & Er & Ev & En & Em) & Ty & Nm). split; [exact X|]. split; [exact Fr|].
  split; [split; [exists nd; auto|]; split; [exact Op|]; split; [exact Rd|unfold owner; rewrite Hr; exact Em]|].
  split; [exact Ty|]. split; [exists nd; auto|]. split; [rewrite Nm, decide_True by auto; reflexivity|]. intros j Nj. rewrite Nm, decide_False by tauto. reflexivity.
Qed.
Lemma open_gr X w w' k r : gr X w w' -> r ∉ X -> open_out w k r -> open_out w' k r.
Proof.
  intros G N (A & B & C & D). pose proof A as (nd & Hr & Er). assert (L : is_Some (w_nodes w !! r)) by eauto. split; [apply (op_old X w w' r _ G L), A|].
  split; [rewrite (g_ops _ _ _ G r L N); exact B|]. split; [apply (g_unread _ _ _ G r); [right; auto|exact N|exact C]|rewrite (gr_owner _ _ _ _ G L); exact D].
Qed.
(** driving an output *)
Lemma rule_connect e T h w k a b W x t : st F T h w -> open_out w k a -> holds e w k b W x -> type_of w a = Some t -> (T = true -> is_signed t = false /\ W <= total_bits t) ->
  wp F T h w (call (CConnect a b)) (fun w' _ => ext T [a] w w' /\ has_op w' a OUT /\ operands w' a = [b] /\ readers w' a = [] /\ owner w' a = k /\ (forall j, names w' j = names w j)).
Proof.
  intros S (HO & OA & RA & OW) B Ht TT. pose proof (st_WF F T h w S) as WFw. destruct (held _ _ _ _ _ _ (weak _ _ _ _ _ _ B)) as (nb & tb & Nb & _ & Htb & UTb & Emb & HWb). destruct HO as (na & Na & Ea).
  assert (NE : a <> b) by (intros ->; destruct (arg_nohole _ _ _ _ _ _ (proj1 B)) as [_ N]; apply N; exists na; auto).
  assert (Ema : n_meta na = k) by (unfold owner in OW; rewrite Na in OW; exact OW).
  destruct (add_chan_progress w k b a 0 true (proj1 WFw)) as (w' & E).
  { exact (arg_usable _ _ _ _ _ _ (proj1 B)). } { destruct (cs_owned _ (proj1 WFw) a na Na) as (g & Hg & Hi). rewrite Ema in Hg. eauto. }
  assert (ES : step F w (CConnect a b) = Ok (w', a)) by (cbn [step]; unfold do_connect, get_node; rewrite Na; cbn [of_opt rbind]; rewrite Ema, E; reflexivity).
  assert (OK : ok_call w (CConnect a b)) by (split; [exact NE|]; split; [exact OA|]; split; [exact RA|]; exists na; auto).
  destruct (step_ext F _ _ _ _ ES WFw) as [[W' (P1 & P2 & P3 & P4)] (_ & _ & _ & Hin & LL)].
  assert (G : gr [a] w w') by (apply (gr_conn F w w' a b WFw ES); [right; split; [exists na; auto|exact OA]|exact (proj1 (arg_nohole _ _ _ _ _ _ (proj1 B)))]).
  assert (OP : operands w' a = [b]) by (unfold operands; rewrite Hin, map_app; unfold operands in OA; rewrite OA; reflexivity).
  assert (LB : is_Some (w_nodes w !! b)) by eauto. assert (LA : is_Some (w_nodes w !! a)) by eauto.
  assert (RD : readers w' a = []).
  { assert (Z : forall m, m ∈ readers w' a -> False).
    { intros m Hm. apply (readers_operands w' a m (proj1 W')) in Hm. destruct (decide (m = a)) as [->|Nm]; [rewrite OP in Hm; apply elem_of_list_singleton in Hm; congruence|].
      destruct (operands_live w' m a (proj1 W') Hm) as [_ L]. unfold operands in Hm. rewrite P2 in Hm; [|apply LL, L|exact Nm]. apply (readers_operands w a m (proj1 WFw)) in Hm. rewrite RA in Hm. inversion Hm. }
    destruct (readers w' a) as [|m l] eqn:Em; [reflexivity|]. exfalso. apply (Z m). constructor. }
  eapply wp_call; [exact S|exact ES|exact OK|discriminate|]. split; [constructor|].
  - exact G.
  - exact (step_frame F _ _ _ _ ES ltac:(discriminate)).
  - intros ET Ty n nd' Hn'. destruct (proj1 (LL n) ltac:(eauto)) as (y & Hy). destruct (g_live _ _ _ G n y Hy) as (y' & Hy' & E1 & _). rewrite Hn' in Hy'. injection Hy' as <-. rewrite <- E1.
    destruct (Ty n y Hy) as ((tn & Htn & Pn & Fn) & Nn & On & Rn & Cn).
    assert (RR : n_op y = OUT -> readers w' n = []).
    { intro Eo. destruct (decide (n = a)) as [->|Na']; [exact RD|]. assert (Z : forall m, m ∈ readers w' n -> False).
      { intros m Hm. apply (readers_operands w' n m (proj1 W')) in Hm. destruct (decide (m = a)) as [->|Nm].
        - rewrite OP in Hm. apply elem_of_list_singleton in Hm as ->. apply (arg_nohole _ _ _ _ _ _ (proj1 B)). exists y. auto.
        - destruct (operands_live w' m n (proj1 W') Hm) as [_ L]. unfold operands in Hm. rewrite P2 in Hm; [|apply LL, L|exact Nm]. apply (readers_operands w n m (proj1 WFw)) in Hm. rewrite (Rn Eo) in Hm. inversion Hm. }
      destruct (readers w' n) as [|m l] eqn:Em; [reflexivity|]. exfalso. apply (Z m). constructor. }
    destruct (decide (n = a)) as [->|Na'].
    + assert (y = na) as -> by congruence. rewrite OP. split; [|split; [left; cbn; lia|split; [exact On|split; [exact RR|rewrite Ea; exact I]]]].
      exists tn. split; [exact (gr_type _ _ _ _ _ G Htn)|]. split; [exact Pn|]. intros ts lat F2. apply one_type in F2 as (ts1 & -> & Ets).
      rewrite Ht in Htn. injection Htn as <-. rewrite (gr_type _ _ _ _ _ G Htb) in Ets. injection Ets as <-. rewrite Ea. destruct (TT ET) as [Sg Le]. destruct (utype_facts tb W UTb HWb) as (Sb & _ & TB & _). cbn. rewrite Sb, Sg, TB. auto.
    + assert (EO : operands w' n = operands w n) by (unfold operands; rewrite P2; [reflexivity|eauto|exact Na']). rewrite EO. split; [|split; [|split; [exact On|split; [exact RR|]]]].
      * exists tn. split; [exact (gr_type _ _ _ _ _ G Htn)|]. split; [exact Pn|]. intros ts lat F2. apply Fn. apply (types_old [a] w w' _ ts G WFw); [|exact F2]. intros z Hz. apply (operands_live w n z (proj1 WFw) Hz).
      * destruct Nn as [Nn|Nn]; [left; exact Nn|right]. intros z Hz. exact (constant_node_old _ _ _ _ G (Nn z Hz)).
      * destruct (n_op y); try exact Cn. intros c arms EE. exact (ctl_gr _ _ _ _ G (Cn c arms EE)).
  - split; [apply (op_old [a] w w' a _ G LA); exists na; auto|]. split; [exact OP|]. split; [exact RD|]. split; [rewrite (gr_owner _ _ _ _ G LA); exact OW|]. exact (step_names F _ _ _ _ ES WFw I).
Qed.
(** the value of a driven output *)
Lemma out_value e w k a b W x i : has_op w a OUT -> operands w a = [b] -> holds e w k b W x -> 0 <= i -> exists t, utype t W /\ kval (hw e) w a i (t, x i) /\ 0 <= x i < 2 ^ W.
Proof.
  intros (na & Na & Ea) OP (A & _) Hi. destruct (a_val _ _ _ _ _ _ A) as (f & V). destruct (V i Hi) as (U & K & R). exists (f i). split; [exact U|]. split; [|exact R].
  eapply kv_out; [exact Na|exact Ea|exact OP|exact K].
Qed.
(** a new kernel *)
Lemma rule_kernel T h w : st F T h w ->
  wp F T h w (call KNew) (fun w' k => gr [] w w' /\ w_kern w !! k = None /\ names w' k = [] /\ (forall j, names w' j = names w j) /\ is_Some (w_kern w' !! k) /\
    (forall j, is_Some (w_kern w' !! j) <-> is_Some (w_kern w !! j) \/ j = k) /\ w_stack w' = k :: w_stack w /\ (w_stack w <> [] -> w_top w' = w_top w) /\ (w_stack w = [] -> w_top w' = Some k) /\
    w_nodes w' = w_nodes w /\ (T = true -> tidy w -> tidy w')).
Proof.
  intro S. pose proof (st_WF F T h w S) as WFw. pose proof (st_stacked F T h w S) as ST.
  assert (FK : w_kern w !! w_next w = None) by (destruct (w_kern w !! w_next w) as [g|] eqn:E; [pose proof (cs_fresh_k _ (proj1 WFw) (w_next w) ltac:(eauto)); lia|reflexivity]).
  assert (ES : step F w KNew = Ok (do_kernel w)) by reflexivity. destruct (do_kernel w) as [w' k] eqn:EK. unfold do_kernel in EK. injection EK as EW <-.
  assert (Nm : forall j, names w' j = names w j) by exact (step_names F _ _ _ _ ES WFw I).
  eapply wp_call; [exact S|exact ES|exact I|discriminate|].
  split; [apply gr_types_only; rewrite <- EW; auto|]. split; [exact FK|]. split; [rewrite Nm; unfold names; rewrite FK; reflexivity|]. split; [exact Nm|].
  split; [rewrite <- EW; cbn; rewrite lookup_insert; eauto|]. split; [|split; [rewrite <- EW; reflexivity|split; [|split; [|split; [rewrite <- EW; reflexivity|]]]]].
  - intro j. rewrite <- EW. cbn. destruct (decide (j = w_next w)) as [->|Nj]; [rewrite lookup_insert; split; eauto|rewrite lookup_insert_ne by auto]. split; [auto|intros [X| ->]; [exact X|contradiction]].
  - intro Ns. rewrite <- EW. cbn. destruct (w_stack w) as [|k0 s] eqn:E; [contradiction|]. destruct (w_top w) eqn:E2; [reflexivity|].
    exfalso. pose proof (sk_top _ ST) as X. rewrite E, E2 in X. destruct (last_is_Some (k0 :: s)) as [_ Y]. destruct (Y ltac:(discriminate)) as (z & Hz). congruence.
  - intro Ns. rewrite <- EW. cbn. rewrite Ns. reflexivity.
  - intros _. apply tidy_same; [rewrite <- EW; reflexivity|rewrite <- EW; reflexivity|rewrite <- EW; auto|exact WFw].
Qed.
End Ports.
