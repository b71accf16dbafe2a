(** * Rules for the API calls (proofs). *)
From Coq Require Import ZArith Bool String Lia.
From stdpp Require Import gmap list.
From Verif Require Import Types Word Value OpSpec Graph GraphSpec TypingSpec TypesProofs BuilderProofs BuilderProofs2 BuilderTopo GraphFacts StreamSpec Dfcir DfcirBuild
     Verilog Stubs Naming Firrtl Lower RtlSpec KernelSpec KernelValues Instance InstanceSpec InstanceLoop InstanceMain InstanceStep InstanceFlow LifeProofs ProgTyping SliceFacts Prog ProgFrame.
Local Open Scope Z_scope.

(** unsigned integers and raw bits of [W] bits *)
Definition utype (t : dftype) (W : Z) : Prop := t = TFixed false W 0 \/ t = TRaw W.
Lemma utype_facts t W : utype t W -> 0 < W < 65536 -> is_signed t = false /\ RtlSpec.is_float t = false /\ total_bits t = W /\ proper t /\ port_type t = mkP false W.
Proof.
  intros [-> | ->] H; (split; [reflexivity|]; split; [reflexivity|]).
  - cbn. rewrite Z.add_0_r. split; [unfold u16; apply Z.mod_small; lia|]. split; [split; cbn; lia|reflexivity].
  - cbn. split; [reflexivity|]. split; [split; cbn; lia|reflexivity].
Qed.

(** [arg e w k n W x]: variable [n] can be used by kernel [k], has [W] bits, and its value
    at position [i] is [x i] when the environment is [e] *)
Record arg (e : env) (w : world) (k n : nat) (W : Z) (x : Z -> Z) : Prop := {
  a_node : exists nd, w_nodes w !! n = Some nd /\ n_op nd <> OUT /\ (n_vk nd = VConst \/ n_meta nd = k);
  a_type : exists t, type_of w n = Some t /\ utype t W;
  a_width : 0 < W < 65536;
  a_val : exists f : Z -> dftype, forall i, 0 <= i -> utype (f i) W /\ kval (hw e) w n i (f i, x i) /\ 0 <= x i < 2 ^ W
}.
(** and is a variable of [k], not a constant; a stream *)
Definition whold (e : env) (w : world) (k n : nat) (W : Z) (x : Z -> Z) : Prop := arg e w k n W x /\ ~ is_const w n /\ owner w n = k.
Definition holds (e : env) (w : world) (k n : nat) (W : Z) (x : Z -> Z) : Prop := arg e w k n W x /\ ctl w n /\ owner w n = k.
Lemma ctl_var w n : ctl w n -> ~ is_const w n.
Proof. intros (nd & H & E & _) (y & Hy & Ey). congruence. Qed.
Lemma ctl_gr X w w' n : gr X w w' -> ctl w n -> ctl w' n.
Proof. intros G (nd & H & E & N). destruct (g_live _ _ _ G n nd H) as (nd' & H' & E1 & E2 & E3 & E4 & _). exists nd'. split; [exact H'|]. split; [congruence|]. rewrite <- E1, <- E4. exact N. Qed.
Lemma weak e w k n W x : holds e w k n W x -> whold e w k n W x.
Proof. intros (A & B & C). split; [exact A|]. split; [exact (ctl_var w n B)|exact C]. Qed.

Lemma arg_live e w k n W x : arg e w k n W x -> is_Some (w_nodes w !! n).
Proof. intros [(nd & H & _) _ _ _]. eauto. Qed.
Lemma arg_solid e w k n W x : arg e w k n W x -> ~ hole w n.
Proof.
  intros [(nd & H & NO & _) _ _ (f & V)] [(y & Hy & Ey)|[(y & Hy & Ey) _]]; [|congruence]. destruct (V 0 ltac:(lia)) as (_ & K & _).
  rewrite H in Hy. injection Hy as <-. inversion K; subst; rewrite H in *; match goal with E : Some _ = Some _ |- _ => injection E as <- end; rewrite Ey in *; try discriminate; contradiction.
Qed.
Lemma arg_gr e X w w' k n W x : gr X w w' -> arg e w k n W x -> arg e w' k n W x.
Proof.
  intros G [(nd & H & NO & U) (t & Ht & UT) WD (f & V)]. constructor; auto.
  - destruct (g_live _ _ _ G n nd H) as (nd' & H' & E1 & E2 & E3 & E4 & E5). exists nd'. split; [exact H'|]. rewrite <- E1, <- E3, <- E5. auto.
  - exists t. split; [exact (gr_type _ _ _ _ _ G Ht)|exact UT].
  - exists f. intros i Hi. destruct (V i Hi) as (A & B & C). split; [exact A|]. split; [exact (gr_kval _ _ _ _ _ _ _ G B)|exact C].
Qed.
Lemma isconst_old X w w' n : gr X w w' -> is_Some (w_nodes w !! n) -> (is_const w' n <-> is_const w n).
Proof.
  intros G (nd & H). destruct (g_live _ _ _ G n nd H) as (nd' & H' & _ & _ & E & _). split; intros (y & Hy & Ey).
  - rewrite H' in Hy. injection Hy as <-. exists nd. split; [exact H|congruence].
  - rewrite H in Hy. injection Hy as <-. exists nd'. split; [exact H'|congruence].
Qed.
Lemma holds_gr e X w w' k n W x : gr X w w' -> holds e w k n W x -> holds e w' k n W x.
Proof.
  intros G (A & B & C). pose proof (arg_live _ _ _ _ _ _ A) as L. split; [exact (arg_gr _ _ _ _ _ _ _ _ G A)|]. rewrite (gr_owner _ _ _ _ G L). split; [exact (ctl_gr _ _ _ _ G B)|exact C].
Qed.
Lemma whold_gr e X w w' k n W x : gr X w w' -> whold e w k n W x -> whold e w' k n W x.
Proof.
  intros G (A & B & C). pose proof (arg_live _ _ _ _ _ _ A) as L. split; [exact (arg_gr _ _ _ _ _ _ _ _ G A)|]. rewrite (isconst_old _ _ _ _ G L), (gr_owner _ _ _ _ G L). auto.
Qed.
Lemma arg_ext e w k n W x y : (forall i, 0 <= i -> x i = y i) -> arg e w k n W x -> arg e w k n W y.
Proof. intros E [A B C (f & V)]. constructor; auto. exists f. intros i Hi. rewrite <- (E i Hi). exact (V i Hi). Qed.
Lemma holds_ext e w k n W x y : (forall i, 0 <= i -> x i = y i) -> holds e w k n W x -> holds e w k n W y.
Proof. intros E (A & B). split; [exact (arg_ext _ _ _ _ _ _ _ E A)|exact B]. Qed.
(** constants *)
Lemma const_arg e w k n W c : const_of w n (TFixed false W 0) c -> 0 < W < 65536 -> 0 <= c < 2 ^ W -> c < 2 ^ 64 -> arg e w k n W (fun _ => c).
Proof.
  intros (nd & H & Ev & Eo & Et) HW Hc Hc'. constructor; auto.
  - exists nd. split; [exact H|]. split; [congruence|auto].
  - exists (TFixed false W 0). split; [unfold type_of; rewrite H; exact Et|left; reflexivity].
  - exists (fun _ => TFixed false W 0). intros i Hi. split; [left; reflexivity|]. split; [|exact Hc].
    replace (TFixed false W 0, c) with (i_const (hw e) (TFixed false W 0) c); [apply (kv_const (hw e) w n nd); [exact H|exact Eo|unfold type_of; rewrite H; exact Et]|].
    cbn. f_equal. unfold num. cbn. unfold u16. rewrite !Z.add_0_r, (Z.mod_small W) by lia. apply Z.mod_small, Hc.
Qed.

Section Rules.
Variable F : fltops.
(** code that only adds operations *)
Record fr (T : bool) (w w' : world) : Prop := {
  f_gr : gr [] w w';
  f_frame : frame w w';
  f_names : forall j, names w' j = names w j;
  f_tidy : T = true -> tidy w -> tidy w'
}.
Lemma fr_refl T w : fr T w w.
Proof. constructor; [apply gr_refl|apply frame_refl|auto|auto]. Qed.
Lemma fr_trans T w1 w2 w3 : fr T w1 w2 -> fr T w2 w3 -> fr T w1 w3.
Proof.
  intros [A1 A2 A3 A4] [B1 B2 B3 B4]. constructor; [exact (gr_trans _ _ _ _ _ A1 B1)|exact (frame_trans _ _ _ A2 B2)|intro j; rewrite B3; apply A3|auto].
Qed.

(** *** tidiness of a grown kernel *)
Lemma constant_node_old X w w' a : gr X w w' -> is_constant_node w a -> is_constant_node w' a.
Proof.
  intros G (nd & H & E). destruct (g_live _ _ _ G a nd H) as (nd' & H' & E1 & _ & E3 & _). exists nd'. split; [exact H'|]. rewrite <- E1, <- E3. exact E.
Qed.
Lemma types_same X w w' : gr X w w' -> WF w -> forall n, is_Some (w_nodes w !! n) -> type_of w' n = type_of w n.
Proof. intros G W n L. destruct (type_exists w n W L) as (t & Ht). rewrite Ht. exact (gr_type _ _ _ _ _ G Ht). Qed.
Lemma types_old X w w' l ts : gr X w w' -> WF w -> (forall a, a ∈ l -> is_Some (w_nodes w !! a)) -> Forall2 (fun a ta => type_of w' a = Some ta) l ts -> Forall2 (fun a ta => type_of w a = Some ta) l ts.
Proof.
  intros G W L F2. induction F2 as [|a ta l ts Ha F2 IH]; constructor.
  - rewrite <- (types_same X w w' G W a); [exact Ha|apply L; constructor].
  - apply IH. intros b Hb. apply L. right. exact Hb.
Qed.
Lemma tidy_node X w w' r k o t vk nm args : WF w -> WF w' -> gr X w w' -> preserved w w' r -> new_node w w' r k o t vk nm args ->
  (forall a, a ∈ args -> ~ has_op w a OUT) -> proper t -> (forall ts lat, Forall2 (fun a ta => type_of w a = Some ta) args ts -> op_fits o t ts lat) ->
  ((length args <= 128)%nat \/ forall a, a ∈ tl args -> is_constant_node w a) -> (forall k, o <> OFFSET k) ->
  match o with UN _ => False | MUX => forall c arms, args = c :: arms -> ctl w c | _ => True end -> tidy w -> tidy w'.
Proof.
  intros W W' G P NN NO PT FT NA NF CT Ty. pose proof NN as (Fr & (nd & Hr & Er & _) & Hin & Hl).
  assert (Op : operands w' r = args) by (unfold operands; rewrite Hin; apply imap_src).
  assert (Old : forall n, is_Some (w_nodes w !! n) -> operands w' n = operands w n) by (intros n (y & H); unfold operands; destruct P as (_ & P2 & _); rewrite P2; [reflexivity|eauto|congruence]).
  intros n nd' Hn'. destruct (decide (n = r)) as [->|Nr].
  - rewrite Hr in Hn'. injection Hn' as <-. rewrite Er, Op. split; [|split; [|split; [exact NF|split]]].
    + exists t. split; [|split; [exact PT|]]. { destruct NN as (_ & (z & Hz & _ & Ht & _) & _). unfold type_of. rewrite Hz. exact Ht. }
      intros ts lat F2. apply FT. exact (types_old X w w' args ts G W Hl F2).
    + destruct NA as [NA|NA]; [left; exact NA|right]. intros a Ha. exact (constant_node_old _ _ _ _ G (NA a Ha)).
    + intros ->. assert (Z : forall m, m ∈ readers w' r -> False).
      { intros m Hm. apply (readers_operands w' r m (proj1 W')) in Hm. destruct (decide (m = r)) as [->|Nm].
        - rewrite Op in Hm. destruct (Hl r Hm). congruence.
        - destruct (operands_live w' m r (proj1 W') Hm) as [_ L]. destruct P as (_ & _ & _ & P4). rewrite (Old m (P4 m L Nm)) in Hm. destruct (operands_live w m r (proj1 W) Hm) as [(y & Hy) _]. congruence. }
      destruct (readers w' r) as [|m l] eqn:E; [reflexivity|]. exfalso. apply (Z m). constructor.
    + destruct o; try exact CT. intros c arms E. exact (ctl_gr _ _ _ _ G (CT c arms E)).
  - pose proof P as (_ & _ & _ & P4). destruct (P4 n ltac:(eauto) Nr) as (y & Hy). destruct (g_live _ _ _ G n y Hy) as (y' & Hy' & E1 & _). rewrite Hn' in Hy'. injection Hy' as <-. rewrite <- E1.
    destruct (Ty n y Hy) as ((tn & Htn & Pn & Fn) & Nn & On & Rn & Cn). rewrite (Old n) by eauto. split; [|split; [|split; [exact On|split]]].
    + exists tn. split; [exact (gr_type _ _ _ _ _ G Htn)|]. split; [exact Pn|]. intros ts lat F2. apply Fn. apply (types_old X w w' _ ts G W); [|exact F2]. intros a Ha. apply (operands_live w n a (proj1 W) Ha).
    + destruct Nn as [Nn|Nn]; [left; exact Nn|right]. intros a Ha. exact (constant_node_old _ _ _ _ G (Nn a Ha)).
    + intro Eo. assert (Z : forall m, m ∈ readers w' n -> False).
      { intros m Hm. apply (readers_operands w' n m (proj1 W')) in Hm. destruct (decide (m = r)) as [->|Nm].
        - rewrite Op in Hm. apply (NO n Hm). exists y. auto.
        - destruct (operands_live w' m n (proj1 W') Hm) as [_ L]. rewrite (Old m (P4 m L Nm)) in Hm. apply (readers_operands w n m (proj1 W)) in Hm. rewrite (Rn Eo) in Hm. inversion Hm. }
      destruct (readers w' n) as [|m l] eqn:E; [reflexivity|]. exfalso. apply (Z m). constructor.
    + destruct (n_op y); try exact Cn. intros c arms E. exact (ctl_gr _ _ _ _ G (Cn c arms E)).
Qed.
Lemma tidy_same w w' : w_nodes w' = w_nodes w -> w_chans w' = w_chans w -> (forall t ty, w_types w !! t = Some ty -> w_types w' !! t = Some ty) -> WF w -> tidy w -> tidy w'.
Proof.
  intros E1 E2 E3 W Ty n nd H. pose proof (gr_types_only w w' E1 E2 E3) as G. rewrite E1 in H. destruct (Ty n nd H) as ((tn & Htn & Pn & Fn) & Nn & On & Rn & Cn).
  assert (EO : operands w' n = operands w n) by (unfold operands, in_chans; rewrite E1, E2; reflexivity).
  assert (ER : readers w' n = readers w n) by (unfold readers, out_chans; rewrite E1, E2; reflexivity).
  rewrite EO, ER. split; [|split; [|split; [exact On|split; [exact Rn|]]]].
  - exists tn. split; [exact (gr_type _ _ _ _ _ G Htn)|]. split; [exact Pn|]. intros ts lat F2. apply Fn. apply (types_old [] w w' _ ts G W); [|exact F2]. intros a Ha. apply (operands_live w n a (proj1 W) Ha).
  - destruct Nn as [Nn|Nn]; [left; exact Nn|right]. intros a Ha. exact (constant_node_old _ _ _ _ G (Nn a Ha)).
  - destruct (n_op nd); try exact Cn. intros c arms E. exact (ctl_gr _ _ _ _ G (Cn c arms E)).
Qed.

(** *** a call that creates one operation *)
Lemma node_fr T h w c w' r k o t args : st F T h w -> step F w c = Ok (w', r) -> c <> KNew -> match c with CInput _ _ _ _ | COutput _ _ _ _ => False | _ => True end ->
  new_node w w' r k o t VStream EmptyString args -> (forall a, a ∈ args -> ~ hole w a /\ ~ has_op w a OUT) -> match o with IN | OUT | NONE | OFFSET _ => False | _ => True end ->
  (T = true -> proper t /\ (forall ts lat, Forall2 (fun a ta => type_of w a = Some ta) args ts -> op_fits o t ts lat) /\
    ((length args <= 128)%nat \/ forall a, a ∈ tl args -> is_constant_node w a)) ->
  match o with UN _ => False | MUX => forall c arms, args = c :: arms -> ctl w c | _ => True end -> fr T w w'.
Proof.
  intros S E NK NI NN NA NO TI CT. pose proof (st_WF F T h w S) as W. destruct (step_ext F _ _ _ _ E W) as [[W' P] _].
  assert (G : gr [] w w').
  { eapply gr_node; [exact W|exact W'|exact P|exact NN|intros a Ha; apply NA, Ha| |intros n I; inversion I]. intros [->|[->| ->]]; contradiction. }
  constructor; [exact G|exact (step_frame F _ _ _ _ E NK)|exact (step_names F _ _ _ _ E W NI)|].
  intros ET Ty. destruct (TI ET) as (A & B & C). eapply tidy_node; [exact W|exact W'|exact G|exact P|exact NN|intros a Ha; apply NA, Ha|exact A|exact B|exact C|intros z ->; exact NO|exact CT|exact Ty].
Qed.
(** the value and the owner of the new variable *)
Lemma node_holds e T h w c w' r k o t args W x (f : Z -> dftype) : st F T h w -> step F w c = Ok (w', r) -> (forall a b, c <> CConnect a b) ->
  new_node w w' r k o t VStream EmptyString args -> o <> OUT -> utype t W -> 0 < W < 65536 ->
  (forall i, 0 <= i -> utype (f i) W /\ kval (hw e) w' r i (f i, x i) /\ 0 <= x i < 2 ^ W) -> holds e w' k r W x.
Proof.
  intros S E NC NN NO UT HW V. pose proof NN as (Fr & (nd & Hr & Er & Ht & Ev & En & Em) & Hin & Hl). split; [|split].
  - constructor; [|exists t; split; [unfold type_of; rewrite Hr; exact Ht|exact UT]|exact HW|exists f; exact V].
    exists nd. split; [exact Hr|]. split; [congruence|right; exact Em].
  - exists nd. split; [exact Hr|]. split; [exact Ev|]. intros _. rewrite En. discriminate.
  - unfold owner. rewrite Hr. exact Em.
Qed.
Lemma arg_usable e w k n W x : arg e w k n W x -> usable w k n.
Proof. intros [(nd & H & _ & U) _ _ _]. exists nd. auto. Qed.
Lemma arg_nohole e w k n W x : arg e w k n W x -> ~ hole w n /\ ~ has_op w n OUT.
Proof. intro A. split; [exact (arg_solid _ _ _ _ _ _ A)|]. destruct A as [(nd & H & NO & _) _ _ _]. intros (y & Hy & Ey). congruence. Qed.
Lemma usable_types w t k n : usable w k n -> usable (fst (add_type w t)) k n.
Proof. intros (nd & H & U). exists nd. auto. Qed.
End Rules.
