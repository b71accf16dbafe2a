(** * Instances inside constructors (proofs). *)
From Coq Require Import ZArith Bool String Lia.
From stdpp Require Import gmap list.
From Verif Require Import Types Word Value OpSpec Graph GraphSpec TypesProofs BuilderProofs BuilderProofs2 BuilderTopo GraphFacts StreamSpec Dfcir DfcirBuild
     Verilog Stubs Naming Firrtl Lower RtlSpec KernelSpec KernelValues Instance InstanceSpec InstanceProofs InstanceBind InstanceLoop InstanceMain InstanceStep InstanceFlow InstanceFacts LifeProofs ProgTyping SliceFacts TypingSpec RtlFlow
     Prog ProgFrame ProgRules ProgCalls ProgPorts.

(** a bound input: the variable of the parent, the name, the port *)
Definition binding := (nat * string * nat)%type.
Definition b_var (b : binding) : nat := fst (fst b).
Definition b_name (b : binding) : string := snd (fst b).
Definition b_port (b : binding) : nat := snd b.

(** the sub-kernel [k] has been constructed and is about to be bound.  [ws]: before the
    variable [v] for its output was created; [w0]: before the sub-kernel was created; [w2]: now *)
Record placed (e e' : env) (ws w0 w2 : world) (p k : nat) (ins : list binding) (v : nat) (so : string) (out d : nat) (W : Z) (y : Z -> Z) : Prop := {
  p_ws : WF ws; p_w0 : WF w0;
  p_var : gr [v] ws w0; p_fresh : w_nodes ws !! v = None; p_frame : frame ws w0; p_names : forall j, names w0 j = names ws j;
  p_none : has_op w0 v NONE; p_vops : operands w0 v = []; p_vread : readers w0 v = []; p_vown : owner w0 v = p;
  p_body : gr (out :: map b_port ins) w0 w2; p_free : forall n, n ∈ out :: map b_port ins -> w_nodes w0 !! n = None;
  p_new : w_kern w0 !! k = None; p_kern : forall j, is_Some (w_kern w2 !! j) <-> is_Some (w_kern w0 !! j) \/ j = k;
  p_stack : w_stack w2 = k :: w_stack w0; p_top : w_top w2 = w_top w0; p_knames : forall j, j <> k -> names w2 j = names w0 j;
  p_ports : forall b, b ∈ ins -> port w2 k (b_name b) (b_port b) /\ (exists nd, w_nodes w2 !! b_port b = Some nd /\ n_op nd = IN /\ n_vk nd = VStream) /\ operands w2 (b_port b) = [];
  p_vars : forall b, b ∈ ins -> exists Wb x, arg e w0 p (b_var b) Wb x /\ owner w0 (b_var b) = p /\ forall i, (0 <= i)%Z -> kval (hw e) w0 (b_var b) i (e_stream e' (b_name b) i) /\ utype (fst (e_stream e' (b_name b) i)) Wb;
  p_dup : NoDup (map b_name ins ++ [so]);
  p_out : port w2 k so out; p_outop : has_op w2 out OUT; p_outops : operands w2 out = [d]; p_outread : readers w2 out = [];
  p_drv : holds e' w2 k d W y;
  p_ctl : forall b, b ∈ ins -> b_name b <> "left"%string -> ctl w0 (b_var b)
}.
Definition bound (ins : list binding) (v : nat) (so : string) : list (nat * string) := map (fun b => (b_var b, b_name b)) ins ++ [(v, so)].

Lemma leads_inv w L a c : leads w L a c -> c = a \/ (exists b, L a b /\ leads w L b c) \/ (exists b, has_op w a OUT /\ operands w a = [b] /\ leads w L b c).
Proof. intros [a0|a0 b c0 H1 H2|a0 b c0 H1 H2 H3]; eauto 10. Qed.

Section Place.
Variable F : fltops.
Context (e e' : env) (ws w0 w2 : world) (p k : nat) (ins : list binding) (v : nat) (so : string) (out d : nat) (W : Z) (y : Z -> Z) (T : bool) (h : list icmd).
Hypothesis (PL : placed e e' ws w0 w2 p k ins v so out d W y) (S : st F T h w2) (TM : T = true -> types_match w2 k (bound ins v so)) (TD : T = true -> tidy ws -> tidy w2).
Notation bs := (bound ins v so).
Notation X := (out :: map b_port ins).

Let W2 : WF w2 := st_WF F T h w2 S.
Let SD : sound w2 := proj1 (st_sound F T h w2 S).
Let P := PL.

Lemma bound_cases u s : (u, s) ∈ bs -> (exists b, b ∈ ins /\ b_var b = u /\ b_name b = s) \/ u = v /\ s = so.
Proof.
  unfold bound. rewrite elem_of_app, elem_of_list_singleton. intros [H|H]; [|injection H as -> ->; auto]. apply elem_of_list_fmap in H as (b & E & Hb). injection E as -> ->. eauto.
Qed.
Lemma in_bound b : b ∈ ins -> (b_var b, b_name b) ∈ bs.
Proof. intro H. unfold bound. apply elem_of_app. left. apply elem_of_list_fmap. eauto. Qed.
Lemma out_bound : (v, so) ∈ bs.
Proof. unfold bound. apply elem_of_app. right. constructor. Qed.
Lemma port_fun s n n' : port w2 k s n -> port w2 k s n' -> n = n'.
Proof. unfold port. congruence. Qed.
Lemma live_v : is_Some (w_nodes w0 !! v).
Proof. destruct (p_none _ _ _ _ _ _ _ _ _ _ _ _ _ _ P) as (nd & H & _). eauto. Qed.
Lemma old_owner n : is_Some (w_nodes w0 !! n) -> owner w2 n = owner w0 n /\ owner w0 n <> k.
Proof.
  intro L. split; [exact (gr_owner _ _ _ _ (p_body _ _ _ _ _ _ _ _ _ _ _ _ _ _ P) L)|]. destruct L as (nd & H). destruct (cs_owned _ (proj1 (p_w0 _ _ _ _ _ _ _ _ _ _ _ _ _ _ P)) n nd H) as (g & Hg & _).
  unfold owner. rewrite H. intro EK. rewrite EK, (p_new _ _ _ _ _ _ _ _ _ _ _ _ _ _ P) in Hg. discriminate.
Qed.
Lemma port_new s n : port w2 k s n -> w_nodes w0 !! n = None.
Proof.
  intro H. destruct (named_port _ _ _ _ (so_named _ SD) H) as (nd & Hn & _ & Em & _). destruct (w_nodes w0 !! n) as [x|] eqn:E; [|reflexivity]. exfalso.
  destruct (old_owner n ltac:(eauto)) as [A B]. apply B. rewrite <- A. unfold owner. rewrite Hn. exact Em.
Qed.
Lemma port_own s n : port w2 k s n -> owner w2 n = k.
Proof. intro H. destruct (named_port _ _ _ _ (so_named _ SD) H) as (nd & Hn & _ & Em & _). unfold owner. rewrite Hn. exact Em. Qed.
Lemma live_ws0 n : is_Some (w_nodes ws !! n) -> is_Some (w_nodes w0 !! n).
Proof. exact (gr_live _ _ _ _ (p_var _ _ _ _ _ _ _ _ _ _ _ _ _ _ P)). Qed.
Lemma live_02 n : is_Some (w_nodes w0 !! n) -> is_Some (w_nodes w2 !! n).
Proof. exact (gr_live _ _ _ _ (p_body _ _ _ _ _ _ _ _ _ _ _ _ _ _ P)). Qed.
Lemma old_X n : is_Some (w_nodes w0 !! n) -> n ∉ X.
Proof. intros (x & Hx) I. rewrite (p_free _ _ _ _ _ _ _ _ _ _ _ _ _ _ P n I) in Hx. discriminate. Qed.
Lemma var_not_v b : b ∈ ins -> b_var b <> v.
Proof.
  intros Hb E. destruct (p_vars _ _ _ _ _ _ _ _ _ _ _ _ _ _ P b Hb) as (Wb & x & A & _). apply (arg_solid _ _ _ _ _ _ A). rewrite E. left. exact (p_none _ _ _ _ _ _ _ _ _ _ _ _ _ _ P).
Qed.
Lemma v_none : has_op w2 v NONE.
Proof. apply (op_old _ _ _ _ _ (p_body _ _ _ _ _ _ _ _ _ _ _ _ _ _ P) live_v). exact (p_none _ _ _ _ _ _ _ _ _ _ _ _ _ _ P). Qed.
Lemma v_ops : operands w2 v = [].
Proof. rewrite (g_ops _ _ _ (p_body _ _ _ _ _ _ _ _ _ _ _ _ _ _ P) v live_v (old_X v live_v)). exact (p_vops _ _ _ _ _ _ _ _ _ _ _ _ _ _ P). Qed.
Lemma v_read : readers w2 v = [].
Proof. apply (g_unread _ _ _ (p_body _ _ _ _ _ _ _ _ _ _ _ _ _ _ P)); [left; exact (p_none _ _ _ _ _ _ _ _ _ _ _ _ _ _ P)|exact (old_X v live_v)|exact (p_vread _ _ _ _ _ _ _ _ _ _ _ _ _ _ P)]. Qed.
Lemma var_live b : b ∈ ins -> is_Some (w_nodes w0 !! b_var b).
Proof. intro Hb. destruct (p_vars _ _ _ _ _ _ _ _ _ _ _ _ _ _ P b Hb) as (Wb & x & A & _). exact (arg_live _ _ _ _ _ _ A). Qed.
Lemma in_port_IN b : b ∈ ins -> has_op w2 (b_port b) IN.
Proof. intro Hb. destruct (p_ports _ _ _ _ _ _ _ _ _ _ _ _ _ _ P b Hb) as (_ & (nd & H & E & _) & _). exists nd. auto. Qed.
Lemma op_one n o o' : has_op w2 n o -> has_op w2 n o' -> o = o'.
Proof. intros (a & Ha & Ea) (b & Hb & Eb). congruence. Qed.
(** ports by name *)
Lemma bound_port u s n : (u, s) ∈ bs -> port w2 k s n -> (exists b, b ∈ ins /\ b_var b = u /\ b_name b = s /\ n = b_port b /\ has_op w2 n IN) \/ u = v /\ s = so /\ n = out /\ has_op w2 n OUT.
Proof.
  intros H Pt. destruct (bound_cases u s H) as [(b & Hb & <- & <-)|[-> ->]].
  - left. exists b. pose proof (port_fun _ _ _ Pt (proj1 (p_ports _ _ _ _ _ _ _ _ _ _ _ _ _ _ P b Hb))) as ->. repeat split; auto. exact (in_port_IN b Hb).
  - right. pose proof (port_fun _ _ _ Pt (p_out _ _ _ _ _ _ _ _ _ _ _ _ _ _ P)) as ->. repeat split; auto. exact (p_outop _ _ _ _ _ _ _ _ _ _ _ _ _ _ P).
Qed.
Lemma parent_other : p <> k.
Proof. rewrite <- (p_vown _ _ _ _ _ _ _ _ _ _ _ _ _ _ P). apply (old_owner v live_v). Qed.
Lemma stack_some : w_stack w0 <> [].
Proof.
  destruct live_v as (nd & Hv). destruct (cs_owned _ (proj1 (p_w0 _ _ _ _ _ _ _ _ _ _ _ _ _ _ P)) v nd Hv) as (g & Hg & _). intro E.
  pose proof (st_stacked F T h w2 S) as ST. assert (I : n_meta nd ∈ w_stack w2) by (apply (sk_live _ ST), (p_kern _ _ _ _ _ _ _ _ _ _ _ _ _ _ P); left; eauto).
  rewrite (p_stack _ _ _ _ _ _ _ _ _ _ _ _ _ _ P), E in I. apply elem_of_list_singleton in I. rewrite I, (p_new _ _ _ _ _ _ _ _ _ _ _ _ _ _ P) in Hg. discriminate.
Qed.

Lemma placed_ok : instance_ok w2 p k bs.
Proof.
  destruct (stacked_instance w2 k (w_stack w0) (st_stacked F T h w2 S) (p_stack _ _ _ _ _ _ _ _ _ _ _ _ _ _ P) stack_some) as [KL KT].
  constructor; [constructor| | | | |].
  - exact parent_other.
  - unfold bound. rewrite map_app, map_map. exact (p_dup _ _ _ _ _ _ _ _ _ _ _ _ _ _ P).
  - intros u s H. destruct (bound_cases u s H) as [(b & Hb & <- & <-)|[-> ->]].
    + exists (b_port b). left. destruct (p_ports _ _ _ _ _ _ _ _ _ _ _ _ _ _ P b Hb) as (A & B & C). split; [exact A|]. split; [exact (in_port_IN b Hb)|]. split; [exact C|]. split; [exact (live_02 _ (var_live b Hb))|].
      destruct (p_vars _ _ _ _ _ _ _ _ _ _ _ _ _ _ P b Hb) as (Wb & x & _ & O & _). rewrite (proj1 (old_owner _ (var_live b Hb))). exact O.
    + exists out. right. split; [exact (p_out _ _ _ _ _ _ _ _ _ _ _ _ _ _ P)|]. split; [exact (p_outop _ _ _ _ _ _ _ _ _ _ _ _ _ _ P)|]. split; [exists d; exact (p_outops _ _ _ _ _ _ _ _ _ _ _ _ _ _ P)|]. split; [exact (p_outread _ _ _ _ _ _ _ _ _ _ _ _ _ _ P)|].
      split; [rewrite (proj1 (old_owner v live_v)); exact (p_vown _ _ _ _ _ _ _ _ _ _ _ _ _ _ P)|]. split; [left; exact v_none|exact v_ops].
  - intros i j u s u' s' Hi Hj N (n & Pn & On) ->. destruct (bound_port u' s n (elem_of_list_lookup_2 _ _ _ Hi) Pn) as [(b & Hb & _ & _ & _ & IN')|(-> & -> & -> & _)]; [pose proof (op_one _ _ _ On IN'); discriminate|].
    destruct (bound_cases v s' (elem_of_list_lookup_2 _ _ _ Hj)) as [(b & Hb & E & _)|[_ ->]]; [exact (var_not_v b Hb E)|].
    apply N. assert (ND : NoDup (map snd bs)) by (unfold bound; rewrite map_app, map_map; exact (p_dup _ _ _ _ _ _ _ _ _ _ _ _ _ _ P)).
    assert (Li : map snd bs !! i = Some so) by exact (eq_trans (list_lookup_fmap snd bs i) (f_equal (fmap snd) Hi)).
    assert (Lj : map snd bs !! j = Some so) by exact (eq_trans (list_lookup_fmap snd bs j) (f_equal (fmap snd) Hj)). exact (NoDup_lookup _ _ _ _ ND Li Lj).
  - apply (p_kern _ _ _ _ _ _ _ _ _ _ _ _ _ _ P). left. destruct live_v as (nd & Hv). destruct (cs_owned _ (proj1 (p_w0 _ _ _ _ _ _ _ _ _ _ _ _ _ _ P)) v nd Hv) as (g & Hg & _).
    pose proof (p_vown _ _ _ _ _ _ _ _ _ _ _ _ _ _ P) as E. unfold owner in E. rewrite Hv in E. rewrite <- E. eauto.
  - exact KL.
  - exact KT.
  - exists (w_stack w0). split; [exact (p_stack _ _ _ _ _ _ _ _ _ _ _ _ _ _ P)|exact stack_some].
  - intros n On Kn. assert (Nn : w_nodes w0 !! n = None) by (destruct (w_nodes w0 !! n) as [z|] eqn:E; [exfalso; destruct (old_owner n ltac:(eauto)) as [A B]; congruence|reflexivity]).
    destruct (decide (n ∈ X)) as [I|I]; [|destruct (g_new _ _ _ (p_body _ _ _ _ _ _ _ _ _ _ _ _ _ _ P) n Nn I) as [Q _]; contradiction].
    apply elem_of_cons in I as [->|I]; [pose proof (op_one _ _ _ On (p_outop _ _ _ _ _ _ _ _ _ _ _ _ _ _ P)); discriminate|]. apply elem_of_list_fmap in I as (b & -> & Hb).
    exists (b_var b), (b_name b). split; [exact (in_bound b Hb)|exact (proj1 (p_ports _ _ _ _ _ _ _ _ _ _ _ _ _ _ P b Hb))].
Qed.
Lemma placed_forward : feed_forward w2 k bs.
Proof.
  destruct (fw_rank _ (proj2 (st_sound F T h w2 S))) as (rank & RK).
  set (M := Datatypes.S (maxl rank (map fst (map_to_list (w_nodes w2))))).
  assert (MB : forall n, is_Some (w_nodes w2 !! n) -> rank n < M).
  { intros n (nd & H). unfold M. apply Nat.lt_succ_r. apply maxl_ge. apply elem_of_list_fmap. exists (n, nd). split; [reflexivity|]. apply elem_of_map_to_list, H. }
  exists (fun m => if decide (m = v) then 3 * M else if decide (owner w2 m = k) then M + rank m else rank m). split.
  - intros a b Hab. destruct (operands_live w2 b a (proj1 W2) Hab) as [La Lb]. pose proof (MB a La). pose proof (MB b Lb). pose proof (RK a b Hab).
    destruct (decide (b = v)) as [->|Nb]; [rewrite v_ops in Hab; inversion Hab|].
    destruct (decide (a = v)) as [->|Na]; [apply (readers_operands w2 v b (proj1 W2)) in Hab; rewrite v_read in Hab; inversion Hab|].
    destruct (so_local _ SD b a Hab) as [C|C].
    + rewrite (decide_False (P := owner w2 a = k)); [|exact (const_owner w2 p k bs W2 placed_ok a C)]. destruct (decide (owner w2 b = k)); lia.
    + rewrite C. destruct (decide (owner w2 b = k)); lia.
  - intros a b (u & s & n & H & Pt & [(On & -> & ->)|(On & -> & ->)]).
    + destruct (bound_port u s n H Pt) as [(b & Hb & <- & _ & -> & _)|(_ & _ & _ & O2)]; [|pose proof (op_one _ _ _ On O2); discriminate].
      rewrite (decide_False (P := b_var b = v)) by exact (var_not_v b Hb). destruct (old_owner _ (var_live b Hb)) as [A B]. rewrite (decide_False (P := owner w2 (b_var b) = k)) by congruence.
      pose proof (MB (b_var b) (live_02 _ (var_live b Hb))). destruct (decide (b_port b = v)) as [E|E]; [lia|]. rewrite decide_True by exact (port_own _ _ Pt). lia.
    + destruct (bound_port u s n H Pt) as [(b & Hb & _ & _ & _ & I2)|(-> & -> & -> & _)]; [pose proof (op_one _ _ _ On I2); discriminate|].
      rewrite (decide_True (P := v = v)) by reflexivity. destruct On as (nd & Hn & _). pose proof (MB out ltac:(eauto)).
      rewrite (decide_False (P := out = v)); [destruct (decide (owner w2 out = k)); lia|]. intro Eo. pose proof (p_free _ _ _ _ _ _ _ _ _ _ _ _ _ _ P out ltac:(constructor)). destruct live_v. congruence.
Qed.
Lemma placed_ordered : ordered w2 k bs.
Proof.
  intros i j u s u' s' n d' Hi Hj L Pn On _ _. destruct (bound_port u s n (elem_of_list_lookup_2 _ _ _ Hi) Pn) as [(b & _ & _ & _ & _ & IN')|(_ & -> & _)]; [pose proof (op_one _ _ _ On IN'); discriminate|].
  assert (ND : NoDup (map snd bs)) by (unfold bound; rewrite map_app, map_map; exact (p_dup _ _ _ _ _ _ _ _ _ _ _ _ _ _ P)).
  assert (Li : map snd bs !! i = Some so) by exact (eq_trans (list_lookup_fmap snd bs i) (f_equal (fmap snd) Hi)).
  assert (LL : map snd bs !! (length ins) = Some so).
  { refine (eq_trans (list_lookup_fmap snd bs _) _). unfold bound. rewrite lookup_app_r by (rewrite map_length; lia). rewrite map_length, Nat.sub_diag. reflexivity. }
  pose proof (NoDup_lookup _ _ _ _ ND Li LL) as ->. apply lookup_lt_Some in Hj. unfold bound in Hj. rewrite app_length, map_length in Hj. cbn in Hj. lia.
Qed.

Section After.
Context (w3 : world) (rs : list nat) (σ : nat -> nat).
Hypothesis H3 : instanced w2 p k bs w3 rs σ.
Lemma removed_cases m : removed w2 k bs m -> (exists b, b ∈ ins /\ m = b_port b) \/ m = out \/ m = v.
Proof.
  intros (u & s & n & H & Pt & Q). destruct (bound_port u s n H Pt) as [(b & Hb & <- & _ & -> & I2)|(-> & -> & -> & _)].
  - destruct Q as [->|(_ & O & _)]; [eauto|]. pose proof (op_one _ _ _ O I2). discriminate.
  - destruct Q as [->|(-> & _)]; auto.
Qed.
Lemma removed_v : removed w2 k bs v.
Proof. exists v, so, out. split; [exact out_bound|]. split; [exact (p_out _ _ _ _ _ _ _ _ _ _ _ _ _ _ P)|]. right. split; [reflexivity|]. split; [exact (p_outop _ _ _ _ _ _ _ _ _ _ _ _ _ _ P)|exact v_none]. Qed.
Lemma removed_port m : m ∈ X -> removed w2 k bs m.
Proof.
  intro I. apply elem_of_cons in I as [->|I]; [exists v, so, out; split; [exact out_bound|]; split; [exact (p_out _ _ _ _ _ _ _ _ _ _ _ _ _ _ P)|auto]|].
  apply elem_of_list_fmap in I as (b & -> & Hb). exists (b_var b), (b_name b), (b_port b). split; [exact (in_bound b Hb)|]. split; [exact (proj1 (p_ports _ _ _ _ _ _ _ _ _ _ _ _ _ _ P b Hb))|auto].
Qed.
Lemma kept_old m : is_Some (w_nodes w0 !! m) -> m <> v -> ~ removed w2 k bs m.
Proof.
  intros L N R. pose proof (old_X m L) as NX. destruct (removed_cases m R) as [(b & Hb & Em)|[Em|Em]]; [|apply NX; rewrite Em; constructor|contradiction]. apply NX. right. apply elem_of_list_fmap. eauto.
Qed.
Lemma not_v m : is_Some (w_nodes ws !! m) -> m <> v.
Proof. intros (x & Hx) ->. rewrite (p_fresh _ _ _ _ _ _ _ _ _ _ _ _ _ _ P) in Hx. discriminate. Qed.
Lemma no_out_link m : m <> v -> ~ (exists b, link w2 k bs m b /\ has_op w2 m OUT).
Proof.
  intros N (b & (u & s & n & H & Pt & [(On & -> & _)|(On & -> & _)]) & O); [pose proof (op_one _ _ _ On O); discriminate|].
  destruct (bound_port u s n H Pt) as [(b' & _ & _ & _ & _ & I2)|(-> & _)]; [pose proof (op_one _ _ _ On I2); discriminate|contradiction].
Qed.
Lemma after_node m nd2 : w_nodes w2 !! m = Some nd2 -> ~ removed w2 k bs m -> exists nd3, w_nodes w3 !! m = Some nd3 /\ n_op nd3 = n_op nd2 /\ n_ty nd3 = n_ty nd2 /\ n_vk nd3 = n_vk nd2 /\ n_name nd3 = n_name nd2 /\
  n_meta nd3 = (if decide (n_meta nd2 = k) then p else n_meta nd2).
Proof. exact (in_keep _ _ _ _ _ _ _ H3 m nd2). Qed.
Lemma old_same m nd : w_nodes ws !! m = Some nd -> exists nd3, w_nodes w3 !! m = Some nd3 /\ same_head nd nd3.
Proof.
  intro H. destruct (g_live _ _ _ (p_var _ _ _ _ _ _ _ _ _ _ _ _ _ _ P) m nd H) as (nd0 & H0 & A1 & A2 & A3 & A4 & A5). destruct (g_live _ _ _ (p_body _ _ _ _ _ _ _ _ _ _ _ _ _ _ P) m nd0 H0) as (nd2 & H2 & B1 & B2 & B3 & B4 & B5).
  destruct (after_node m nd2 H2) as (nd3 & H3' & C1 & C2 & C3 & C4 & C5); [apply kept_old; [eauto|apply not_v; eauto]|]. exists nd3. split; [exact H3'|].
  destruct (old_owner m ltac:(eauto)) as [_ O]. unfold owner in O. rewrite H0 in O. rewrite decide_False in C5 by congruence. repeat split; congruence.
Qed.
Lemma ops_after m : ~ removed w2 k bs m -> m <> v -> operands w3 m = map σ (operands w2 m).
Proof. intros R N. exact (in_op _ _ _ _ _ _ _ H3 m R (no_out_link m N)). Qed.
(** where the links of a read variable lead *)
Lemma var_end b c : b ∈ ins -> leads w2 (link w2 k bs) (b_var b) c -> c = b_var b.
Proof.
  intros Hb L. destruct (p_vars _ _ _ _ _ _ _ _ _ _ _ _ _ _ P b Hb) as (Wb & x & A & O & _). pose proof (var_live b Hb) as LV. destruct (old_owner _ LV) as [E1 E2]. destruct (leads_inv _ _ _ _ L) as [->|[(b0 & LK & _)|(b0 & HO & _)]].
  - reflexivity.
  - exfalso. destruct LK as (u & s & n & H & Pt & [(On & En & _)|(On & Eu & _)]).
    + apply E2. rewrite <- E1, En. exact (port_own s n Pt).
    + destruct (bound_port u s n H Pt) as [(b' & _ & _ & _ & _ & I2)|(-> & _)]; [pose proof (op_one _ _ _ On I2); discriminate|exact (var_not_v b Hb Eu)].
  - exfalso. destruct (arg_nohole _ _ _ _ _ _ A) as [_ N]. apply N. apply (op_old _ _ _ _ _ (p_body _ _ _ _ _ _ _ _ _ _ _ _ _ _ P) LV), HO.
Qed.
Lemma port_end b c : b ∈ ins -> leads w2 (link w2 k bs) (b_port b) c -> c = b_port b \/ c = b_var b.
Proof.
  intros Hb L. pose proof (in_port_IN b Hb) as I2. destruct (leads_inv _ _ _ _ L) as [->|[(b0 & LK & L')|(b0 & HO & _)]]; [auto| |pose proof (op_one _ _ _ I2 HO); discriminate].
  right. destruct LK as (u & s & n & H & Pt & [(On & En & Eu)|(On & Eu & _)]).
  - subst n. destruct (bound_port u s (b_port b) H Pt) as [(b' & Hb' & <- & <- & Ep & _)|(_ & _ & _ & O2)]; [|pose proof (op_one _ _ _ On O2); discriminate].
    assert (b_name b' = b_name b).
    { destruct (named_port _ _ _ _ (so_named _ SD) Pt) as (x1 & Hx1 & Ex1 & _). destruct (named_port _ _ _ _ (so_named _ SD) (proj1 (p_ports _ _ _ _ _ _ _ _ _ _ _ _ _ _ P b Hb))) as (x2 & Hx2 & Ex2 & _). congruence. }
    assert (b' = b) as ->.
    { apply elem_of_list_lookup in Hb as (i & Hi). apply elem_of_list_lookup in Hb' as (j & Hj). assert (ND : NoDup (map b_name ins)) by exact (proj1 (proj1 (NoDup_app _ _) (p_dup _ _ _ _ _ _ _ _ _ _ _ _ _ _ P))).
      assert (Li : map b_name ins !! i = Some (b_name b)) by exact (eq_trans (list_lookup_fmap b_name ins i) (f_equal (fmap b_name) Hi)).
      assert (Lj : map b_name ins !! j = Some (b_name b)) by (refine (eq_trans (list_lookup_fmap b_name ins j) _); rewrite Hj; cbn; congruence).
      pose proof (NoDup_lookup _ _ _ _ ND Li Lj). congruence. }
    subst b0. exact (var_end b c Hb L').
  - exfalso. destruct (bound_port u s n H Pt) as [(b' & _ & _ & _ & _ & I3)|(-> & _)]; [pose proof (op_one _ _ _ On I3); discriminate|]. pose proof (op_one _ _ _ I2 (eq_ind_r (fun z => has_op w2 z NONE) v_none Eu)). discriminate.
Qed.
Lemma v_end : σ v = d /\ ~ (exists b, b ∈ ins /\ b_port b = d) \/ exists b, b ∈ ins /\ b_port b = d /\ σ v = b_var b.
Proof.
  pose proof (in_leads _ _ _ _ _ _ _ H3 v) as L. assert (NR : ~ removed w2 k bs (σ v)).
  { destruct (in_live _ _ _ _ _ _ _ H3 v (live_02 v live_v)) as (x & Hx). destruct (in_back _ _ _ _ _ _ _ H3 _ x Hx) as (_ & _ & R & _). exact R. }
  destruct (leads_inv _ _ _ _ L) as [H0|[(b0 & LK & L1)|(b0 & HO & _)]].
  - exfalso. apply NR. rewrite H0. exact removed_v.
  - destruct LK as (u & s & n & H & Pt & [(On & En & _)|(On & Eu & En)]).
    + subst n. pose proof (op_one _ _ _ On v_none). discriminate.
    + subst u b0. destruct (bound_port v s n H Pt) as [(b & Hb & E & _)|(_ & _ & -> & _)]; [exfalso; exact (var_not_v b Hb E)|].
      assert (OK : owner w2 out = k) by exact (port_own _ _ (p_out _ _ _ _ _ _ _ _ _ _ _ _ _ _ P)).
      assert (OV : forall u s, (u, s) ∈ bs -> owner w2 u = p).
      { intros u s' Hu. destruct (bound_cases u s' Hu) as [(b & Hb & <- & _)|[-> _]].
        - destruct (p_vars _ _ _ _ _ _ _ _ _ _ _ _ _ _ P b Hb) as (Wb & x & _ & O & _). rewrite (proj1 (old_owner _ (var_live b Hb))). exact O.
        - rewrite (proj1 (old_owner v live_v)). exact (p_vown _ _ _ _ _ _ _ _ _ _ _ _ _ _ P). }
      destruct (leads_inv _ _ _ _ L1) as [H0|[(b1 & LK1 & L2)|(b1 & HO1 & OP1 & L2)]].
      * exfalso. apply NR. rewrite H0. apply removed_port. constructor.
      * exfalso. destruct LK1 as (u & s1 & n & H1 & Pt1 & [(On1 & En & _)|(On1 & Eu & _)]); [subst n; pose proof (op_one _ _ _ On1 On); discriminate|]. subst u. pose proof (OV _ _ H1). pose proof parent_other. congruence.
      * rewrite (p_outops _ _ _ _ _ _ _ _ _ _ _ _ _ _ P) in OP1. injection OP1 as <-. destruct (p_drv _ _ _ _ _ _ _ _ _ _ _ _ _ _ P) as (AD & ND & OD).
        destruct (decide (d ∈ map b_port ins)) as [I|I].
        { right. apply elem_of_list_fmap in I as (b & E & Hb). exists b. split; [exact Hb|]. split; [congruence|]. rewrite E in L2. destruct (port_end b (σ v) Hb L2) as [Q|Q]; [|exact Q]. exfalso. apply NR. rewrite Q. apply removed_port. right. apply elem_of_list_fmap. eauto. }
        left. split; [|intros (b & Hb & E); apply I, elem_of_list_fmap; eauto].
        destruct (leads_inv _ _ _ _ L2) as [H0|[(b2 & LK2 & L3)|(b2 & HO2 & _)]]; [exact H0| |].
        -- exfalso. destruct LK2 as (u & s2 & n & H2 & Pt2 & [(On2 & En & _)|(On2 & Eu & _)]).
           ++ subst n. destruct (bound_port u s2 d H2 Pt2) as [(b & Hb & _ & _ & E & _)|(_ & _ & _ & O2)]; [|pose proof (op_one _ _ _ On2 O2); discriminate]. apply I, elem_of_list_fmap. eauto.
           ++ subst u. pose proof (OV _ _ H2). pose proof parent_other. congruence.
        -- exfalso. apply (arg_nohole _ _ _ _ _ _ AD), HO2.
  - pose proof (op_one _ _ _ HO v_none). discriminate.
Qed.
Lemma old_ops m : is_Some (w_nodes ws !! m) -> operands w3 m = operands ws m.
Proof.
  intro L. pose proof (live_ws0 m L) as L0. pose proof (not_v m L) as NV. rewrite (ops_after m (kept_old m L0 NV) NV), (g_ops _ _ _ (p_body _ _ _ _ _ _ _ _ _ _ _ _ _ _ P) m L0 (old_X m L0)).
  rewrite (g_ops _ _ _ (p_var _ _ _ _ _ _ _ _ _ _ _ _ _ _ P) m L) by (intro I; apply elem_of_list_singleton in I; contradiction).
  assert (Q : forall a, a ∈ operands ws m -> σ a = a).
  { intros a Ha. destruct (operands_live ws m a (proj1 (p_ws _ _ _ _ _ _ _ _ _ _ _ _ _ _ P)) Ha) as [La _]. apply (in_id _ _ _ _ _ _ _ H3), kept_old; [exact (live_ws0 a La)|exact (not_v a La)]. }
  revert Q. induction (operands ws m) as [|a l IH]; intro Q; [reflexivity|]. cbn. rewrite (Q a) by constructor. f_equal. apply IH. intros b Hb. apply Q. right. exact Hb.
Qed.
Lemma placed_gr : gr [] ws w3.
Proof.
  pose proof (p_var _ _ _ _ _ _ _ _ _ _ _ _ _ _ P) as G1. pose proof (p_body _ _ _ _ _ _ _ _ _ _ _ _ _ _ P) as G2. constructor.
  - exact old_same.
  - intros n L _. exact (old_ops n L).
  - intros n I. inversion I.
  - intros t ty H. rewrite (in_types _ _ _ _ _ _ _ H3). exact (g_types _ _ _ G2 _ _ (g_types _ _ _ G1 _ _ H)).
  - intros n Nn _. destruct (w_nodes w3 !! n) as [x|] eqn:E; [|split; [intros (z & Hz & _); congruence|intros [(z & Hz & _)|[(z & Hz & _) _]]; congruence]].
    destruct (in_back _ _ _ _ _ _ _ H3 n x E) as (y2 & H2 & R & E1 & _).
    assert (NV : n <> v) by (intros ->; exact (R removed_v)).
    assert (Q : ~ has_op w2 n IN /\ ~ hole w2 n).
    { destruct (w_nodes w0 !! n) as [z|] eqn:E0.
      - destruct (g_new _ _ _ G1 n Nn) as [A B]; [intro I; apply elem_of_list_singleton in I; contradiction|]. rewrite (op_old _ _ _ n IN G2), (hole_old _ _ _ n G2); [auto|eauto|apply old_X; eauto|eauto].
      - apply (g_new _ _ _ G2 n E0). intro I. exact (R (removed_port n I)). }
    destruct Q as [Q1 Q2]. split; [intros (z & Hz & Ez); apply Q1; exists y2; split; [exact H2|congruence]|].
    intros [(z & Hz & Ez)|[(z & Hz & Ez) OE]]; apply Q2; [left; exists y2; split; [exact H2|congruence]|right]. split; [exists y2; split; [exact H2|congruence]|].
    rewrite (ops_after n R NV) in OE. destruct (operands w2 n); [reflexivity|discriminate].
  - intros n Hh _ R. assert (L : is_Some (w_nodes ws !! n)) by (destruct Hh as [(x & Hx & _)|[(x & Hx & _) _]]; eauto).
    pose proof (live_ws0 n L) as L0. pose proof (not_v n L) as NV.
    assert (H0 : hole w0 n) by (apply (hole_old _ _ _ n G1 L); [intro I; apply elem_of_list_singleton in I; contradiction|exact Hh]).
    assert (R2 : readers w2 n = []).
    { apply (g_unread _ _ _ G2 n H0 (old_X n L0)). apply (g_unread _ _ _ G1 n Hh); [intro I; apply elem_of_list_singleton in I; contradiction|exact R]. }
    assert (Z : forall m, m ∈ readers w3 n -> False).
    { intros m Hm. pose proof (in_WF _ _ _ _ _ _ _ H3) as W3. apply (readers_operands w3 n m (proj1 W3)) in Hm. destruct (operands_live w3 m n (proj1 W3) Hm) as [_ (x & Hx)].
      destruct (in_back _ _ _ _ _ _ _ H3 m x Hx) as (y2 & Hy2 & Rm & _). assert (m <> v) by (intros ->; exact (Rm removed_v)). rewrite (ops_after m Rm) in Hm by assumption.
      apply elem_of_list_fmap in Hm as (a & En & Ha). assert (RDa : m ∈ readers w2 a) by (apply (readers_operands w2 a m (proj1 W2)); exact Ha).
      destruct (decide (a = v)) as [->|Nav]; [rewrite v_read in RDa; inversion RDa|]. destruct (decide (a = out)) as [->|Nao]; [rewrite (p_outread _ _ _ _ _ _ _ _ _ _ _ _ _ _ P) in RDa; inversion RDa|].
      destruct (decide (a ∈ map b_port ins)) as [I|I].
      - apply elem_of_list_fmap in I as (b & -> & Hb). pose proof (in_leads _ _ _ _ _ _ _ H3 (b_port b)) as Ld. rewrite <- En in Ld. destruct (port_end b n Hb Ld) as [->| ->].
        + pose proof (old_X _ L0) as Q. apply Q. right. apply elem_of_list_fmap. eauto.
        + destruct (p_vars _ _ _ _ _ _ _ _ _ _ _ _ _ _ P b Hb) as (Wb & xx & A & _). exact (arg_solid _ _ _ _ _ _ A H0).
      - rewrite (in_id _ _ _ _ _ _ _ H3 a) in En; [subst a; rewrite R2 in RDa; inversion RDa|]. intro Ra. destruct (removed_cases a Ra) as [(b & Hb & ->)|[->| ->]]; [apply I, elem_of_list_fmap; eauto|contradiction|contradiction]. }
    destruct (readers w3 n) as [|m l] eqn:E; [reflexivity|]. exfalso. apply (Z m). constructor.
Qed.
Lemma ctl_sigma a : ctl w2 a -> is_Some (w_nodes w3 !! σ a) -> a <> out -> a <> v -> ctl w3 (σ a).
Proof.
  intros (x & Hx & Vx & Nx) LV NO NV. destruct (decide (a ∈ map b_port ins)) as [I|I].
  - apply elem_of_list_fmap in I as (b & -> & Hb). pose proof (in_leads _ _ _ _ _ _ _ H3 (b_port b)) as Ld.
    destruct (p_ports _ _ _ _ _ _ _ _ _ _ _ _ _ _ P b Hb) as (Pt & (nd & Hn & Ho & Hv) & _). assert (nd = x) as -> by congruence.
    destruct (named_port _ _ _ _ (so_named _ SD) Pt) as (z & Hz & En & _). assert (z = x) as -> by congruence. pose proof (p_ctl _ _ _ _ _ _ _ _ _ _ _ _ _ _ P b Hb) as PC. rewrite <- En in PC. specialize (PC (Nx Ho)).
    destruct (port_end b _ Hb Ld) as [E|E].
    + exfalso. rewrite E in LV. destruct LV as (y0 & Hy0). destruct (in_back _ _ _ _ _ _ _ H3 (b_port b) y0 Hy0) as (y2 & Hy2 & Rm & _). apply Rm. apply removed_port. right. apply elem_of_list_fmap. eauto.
    + rewrite E. pose proof (var_live b Hb) as LVb. pose proof (var_not_v b Hb) as NVb.
      destruct (ctl_gr _ _ _ _ (p_body _ _ _ _ _ _ _ _ _ _ _ _ _ _ P) PC) as (n2 & Hn2 & V2 & N2).
      destruct (after_node (b_var b) n2 Hn2 (kept_old _ LVb NVb)) as (n3 & Hn3 & C1 & C2 & C3 & C4 & C5). exists n3. split; [exact Hn3|]. split; [congruence|]. rewrite C1, C4. exact N2.
  - assert (NR : ~ removed w2 k bs a) by (intro Ra; destruct (removed_cases a Ra) as [(b & Hb & ->)|[->| ->]]; [apply I, elem_of_list_fmap; eauto|contradiction|contradiction]).
    rewrite (in_id _ _ _ _ _ _ _ H3 a NR). destruct (after_node a x Hx NR) as (n3 & Hn3 & C1 & C2 & C3 & C4 & C5). exists n3. split; [exact Hn3|]. split; [congruence|]. rewrite C1, C4. exact Nx.
Qed.
Lemma placed_tidy : T = true -> tidy ws -> tidy w3.
Proof.
  intros ET Tw. pose proof (TD ET Tw) as T2. pose proof (TM ET) as M2. pose proof (in_WF _ _ _ _ _ _ _ H3) as W3.
  assert (RD : forall m a, a ∈ operands w2 m -> a <> out /\ a <> v).
  { intros m a Ha. apply (readers_operands w2 a m (proj1 W2)) in Ha. split; intros ->; [rewrite (p_outread _ _ _ _ _ _ _ _ _ _ _ _ _ _ P) in Ha|rewrite v_read in Ha]; inversion Ha. }
  assert (KA : forall m a, a ∈ operands w2 m -> kind_at w3 (σ a) = kind_at w2 a).
  { intros m a Ha. apply (in_type _ _ _ _ _ _ _ H3 M2); [exact (proj1 (operands_live w2 m a (proj1 W2) Ha))|]. intros (u & s & Hu & Pt & O). destruct (bound_port u s a Hu Pt) as [(b & _ & _ & _ & _ & I2)|(_ & _ & -> & _)].
    - pose proof (op_one _ _ _ O I2). discriminate.
    - destruct (RD m out Ha) as [N _]. contradiction. }
  intros n nd Hn. destruct (in_back _ _ _ _ _ _ _ H3 n nd Hn) as (nd2 & Hn2 & R & E1 & E2 & E3 & E4 & E5).
  assert (NV : n <> v) by (intros ->; exact (R removed_v)).
  destruct (T2 n nd2 Hn2) as ((t & Ht & Pt & Fit) & Nn & On & Rn & Cn). pose proof (ops_after n R NV) as OPA. rewrite (ops_after n R NV), E1.
  assert (LT : forall a, a ∈ operands w2 n -> exists ta, type_of w2 a = Some ta /\ proper ta).
  { intros a Ha. destruct (proj1 (operands_live w2 n a (proj1 W2) Ha)) as (x & Hx). destruct (T2 a x Hx) as ((ta & Hta & Pa & _) & _). eauto. }
  assert (Q : forall l, (forall a, a ∈ l -> a ∈ operands w2 n) -> exists ts, Forall2 (fun a ta => type_of w2 a = Some ta) l ts /\ Forall proper ts /\
     forall ts3, Forall2 (fun a ta => type_of w3 a = Some ta) (map σ l) ts3 -> map kind ts = map kind ts3).
  { induction l as [|a l IH]; intro I.
    - exists []. split; [constructor|]. split; [constructor|]. intros ts3 F3. inversion F3. reflexivity.
    - destruct (LT a (I a ltac:(constructor))) as (ta & Hta & Pa). destruct IH as (ts & F2 & PS & KS); [intros b Hb; apply I; right; exact Hb|].
      exists (ta :: ts). split; [constructor; assumption|]. split; [constructor; assumption|]. intros ts3 F3. cbn in F3. apply Forall2_cons_inv_l in F3 as (t3 & ts3' & Ht3 & F3 & ->). cbn. f_equal; [|exact (KS _ F3)].
      pose proof (KA n a (I a ltac:(constructor))) as KK. unfold kind_at in KK. rewrite Hta, Ht3 in KK. cbn in KK. congruence. }
  destruct (Q (operands w2 n) (fun a Ha => Ha)) as (ts & F2 & PS & KS).
  split; [|split; [|split; [exact On|split]]].
  - exists t. split; [unfold type_of in Ht |- *; rewrite Hn2 in Ht; rewrite Hn, E2, (in_types _ _ _ _ _ _ _ H3); exact Ht|]. split; [exact Pt|].
    intros ts3 lat F3. exact (op_fits_kinds (n_op nd2) t ts ts3 lat (KS ts3 F3) PS (Fit ts lat F2)).
  - rewrite map_length. destruct Nn as [Nn|Nn]; [left; exact Nn|right]. intros a Ha.
    assert (exists a2, a2 ∈ tl (operands w2 n) /\ a = σ a2) as (a2 & Ha2 & ->).
    { destruct (operands w2 n) as [|c l]; [inversion Ha|]. cbn in Ha |- *. apply elem_of_list_fmap in Ha as (a2 & -> & Ha2). eauto. }
    destruct (Nn a2 Ha2) as (x & Hx & Kx). assert (NR : ~ removed w2 k bs a2).
    { intro Ra. destruct (removed_cases a2 Ra) as [(b & Hb & ->)|Ro].
      - destruct (p_ports _ _ _ _ _ _ _ _ _ _ _ _ _ _ P b Hb) as (_ & (z & Hz & Oz & Vz) & _). assert (z = x) as -> by congruence. destruct Kx as [(vv & Kx)|[_ Kx]]; congruence.
      - assert (I : a2 ∈ operands w2 n) by (destruct (operands w2 n); [inversion Ha2|right; exact Ha2]). destruct (RD n a2 I) as [N1 N2]. destruct Ro; contradiction. }
    rewrite (in_id _ _ _ _ _ _ _ H3 a2 NR). destruct (after_node a2 x Hx NR) as (x3 & Hx3 & C1 & _ & C3 & _). exists x3. split; [exact Hx3|]. rewrite C1, C3. exact Kx.
  - intro HO. pose proof (Rn HO) as R2. destruct (readers w3 n) as [|m l] eqn:E; [reflexivity|]. exfalso.
    assert (Hm : m ∈ readers w3 n) by (rewrite E; constructor). apply (readers_operands w3 n m (proj1 W3)) in Hm. destruct (operands_live w3 m n (proj1 W3) Hm) as [_ (x & Hx)].
    destruct (in_back _ _ _ _ _ _ _ H3 m x Hx) as (y2 & Hy2 & Rm & _). assert (m <> v) by (intros ->; exact (Rm removed_v)). rewrite (ops_after m Rm) in Hm by assumption.
    apply elem_of_list_fmap in Hm as (a & En & Ha). destruct (RD m a Ha) as [N1 N2].
    destruct (decide (a ∈ map b_port ins)) as [I|I].
    + apply elem_of_list_fmap in I as (b & -> & Hb). pose proof (in_leads _ _ _ _ _ _ _ H3 (b_port b)) as Ld. rewrite <- En in Ld. destruct (port_end b n Hb Ld) as [->| ->].
      * apply R. apply removed_port. right. apply elem_of_list_fmap. eauto.
      * destruct (p_vars _ _ _ _ _ _ _ _ _ _ _ _ _ _ P b Hb) as (Wb & xx & A & _). destruct (arg_nohole _ _ _ _ _ _ A) as [_ N]. apply N. apply (op_old _ _ _ _ _ (p_body _ _ _ _ _ _ _ _ _ _ _ _ _ _ P) (var_live b Hb)). exists nd2. auto.
    + rewrite (in_id _ _ _ _ _ _ _ H3 a) in En; [subst a|].
      * apply (readers_operands w2 n m (proj1 W2)) in Ha. rewrite R2 in Ha. inversion Ha.
      * intro Ra. destruct (removed_cases a Ra) as [(b & Hb & ->)|[->| ->]]; [apply I, elem_of_list_fmap; eauto|contradiction|contradiction].
  - destruct (n_op nd2); try exact Cn. intros c arms EA. destruct (operands w2 n) as [|c2 arms2] eqn:E2o; [discriminate EA|]. cbn in EA. injection EA as <- _.
    assert (I2 : c2 ∈ operands w2 n) by (rewrite E2o; left). destruct (RD n c2 I2) as [N1 N2].
    apply ctl_sigma; [exact (Cn c2 arms2 eq_refl)| |exact N1|exact N2].
    apply (operands_live w3 n (σ c2) (proj1 W3)). rewrite OPA. left.
Qed.
Lemma placed_fr : fr T ws w3.
Proof.
  constructor; [exact placed_gr| | |exact placed_tidy].
  - destruct (p_frame _ _ _ _ _ _ _ _ _ _ _ _ _ _ P) as (A1 & A2 & A3). split; [rewrite (in_stack _ _ _ _ _ _ _ H3), (p_stack _ _ _ _ _ _ _ _ _ _ _ _ _ _ P); exact A1|]. split; [rewrite (in_top _ _ _ _ _ _ _ H3), (p_top _ _ _ _ _ _ _ _ _ _ _ _ _ _ P); exact A2|].
    intro j. rewrite (in_kern _ _ _ _ _ _ _ H3), (p_kern _ _ _ _ _ _ _ _ _ _ _ _ _ _ P), <- A3. split; [intros [[A|A] B]; [exact A|contradiction]|]. intro A. split; [auto|]. intros ->. rewrite (p_new _ _ _ _ _ _ _ _ _ _ _ _ _ _ P) in A. destruct A. discriminate.
  - intro j. destruct (decide (j = k)) as [->|N].
    + assert (w_kern w3 !! k = None) as Q by (destruct (w_kern w3 !! k) eqn:E; [destruct (proj1 (in_kern _ _ _ _ _ _ _ H3 k) ltac:(eauto)); contradiction|reflexivity]).
      rewrite <- (p_names _ _ _ _ _ _ _ _ _ _ _ _ _ _ P). unfold names. rewrite Q, (p_new _ _ _ _ _ _ _ _ _ _ _ _ _ _ P). reflexivity.
    + rewrite (in_names _ _ _ _ _ _ _ H3 j N), (p_knames _ _ _ _ _ _ _ _ _ _ _ _ _ _ P j N). exact (p_names _ _ _ _ _ _ _ _ _ _ _ _ _ _ P j).
Qed.
Lemma placed_feeds : feeds w2 k bs (hw e) (hw e').
Proof.
  split; [reflexivity|]. split; [reflexivity|]. split; [reflexivity|]. intros u s n nd H Pt Hn Ho. destruct (bound_port u s n H Pt) as [(b & Hb & <- & <- & -> & _)|(_ & _ & _ & (z & Hz & Ez))]; [|congruence]. split.
  - intros _ j Hj. destruct (p_vars _ _ _ _ _ _ _ _ _ _ _ _ _ _ P b Hb) as (Wb & x & _ & _ & V). cbn. exact (gr_kval _ _ _ _ _ _ _ (p_body _ _ _ _ _ _ _ _ _ _ _ _ _ _ P) (proj1 (V j Hj))).
  - intro Nv. destruct (p_ports _ _ _ _ _ _ _ _ _ _ _ _ _ _ P b Hb) as (_ & (z & Hz & _ & Ez) & _). congruence.
Qed.
Lemma placed_value i x : kval (hw e') w2 d i x -> kval (hw e) w3 (σ v) i x.
Proof.
  intro K. apply (in_lval _ _ _ _ _ _ _ H3). apply (ru_link _ _ _ _ (lval_rules (hw e) (link w2 k bs) w2) v out).
  { exists v, so, out. split; [exact out_bound|]. split; [exact (p_out _ _ _ _ _ _ _ _ _ _ _ _ _ _ P)|]. right. split; [exact (p_outop _ _ _ _ _ _ _ _ _ _ _ _ _ _ P)|auto]. }
  apply (inner_lval w2 p k bs W2 (so_named _ SD) (so_local _ SD) placed_ok (hw e) (hw e')); [exact placed_feeds|left; exact (port_own _ _ (p_out _ _ _ _ _ _ _ _ _ _ _ _ _ _ P))|].
  destruct (p_outop _ _ _ _ _ _ _ _ _ _ _ _ _ _ P) as (nd & Hn & Ho). eapply kv_out; [exact Hn|exact Ho|exact (p_outops _ _ _ _ _ _ _ _ _ _ _ _ _ _ P)|exact K].
Qed.
Lemma placed_holds : holds e w3 p (σ v) W y.
Proof.
  destruct (p_drv _ _ _ _ _ _ _ _ _ _ _ _ _ _ P) as (AD & ND & OD). destruct (a_val _ _ _ _ _ _ AD) as (f & V).
  assert (HV : forall i, (0 <= i)%Z -> utype (f i) W /\ kval (hw e) w3 (σ v) i (f i, y i) /\ (0 <= y i < 2 ^ W)%Z) by (intros i Hi; destruct (V i Hi) as (U & K & R); split; [exact U|]; split; [exact (placed_value i _ K)|exact R]).
  destruct v_end as [[E NI]|(b & Hb & Ed & E)].
  - destruct (a_node _ _ _ _ _ _ AD) as (nd & Hd & NO & _). destruct (a_type _ _ _ _ _ _ AD) as (t & Ht & UT).
    assert (NR : ~ removed w2 k bs d).
    { intro R. destruct (removed_cases d R) as [(b & Hb & Eb)|[Eo|Eo]]; [apply NI; eauto| |].
      - apply (arg_nohole _ _ _ _ _ _ AD). rewrite Eo. exact (p_outop _ _ _ _ _ _ _ _ _ _ _ _ _ _ P).
      - apply (arg_solid _ _ _ _ _ _ AD). left. rewrite Eo. exact v_none. }
    destruct (after_node d nd Hd NR) as (nd3 & H3' & C1 & C2 & C3 & C4 & C5). unfold owner in OD. rewrite Hd in OD. rewrite decide_True in C5 by exact OD. rewrite E in HV |- *. split; [|split].
    + constructor; [exists nd3; split; [exact H3'|]; split; [congruence|auto]| |apply AD|exists f; exact HV].
      exists t. split; [|exact UT]. unfold type_of in Ht |- *. rewrite Hd in Ht. rewrite H3', C2, (in_types _ _ _ _ _ _ _ H3). exact Ht.
    + rewrite <- (in_id _ _ _ _ _ _ _ H3 d NR). apply ctl_sigma; [exact ND|rewrite (in_id _ _ _ _ _ _ _ H3 d NR); eauto| |]; intro EE; apply NR; rewrite EE; [apply removed_port; left|exact removed_v].
    + unfold owner. rewrite H3'. exact C5.
  - destruct (p_vars _ _ _ _ _ _ _ _ _ _ _ _ _ _ P b Hb) as (Wb & x & A & O & Q). pose proof (var_live b Hb) as LV. pose proof (var_not_v b Hb) as NV.
    assert (EW : Wb = W).
    { destruct (V 0%Z ltac:(lia)) as (U & K & _). destruct (Q 0%Z ltac:(lia)) as (_ & U'). destruct (p_ports _ _ _ _ _ _ _ _ _ _ _ _ _ _ P b Hb) as (Pt & (nd & Hn & Ho & Hv) & _). rewrite Ed in *.
      pose proof (kv_stream (hw e') w2 d nd 0%Z Hn Ho Hv ltac:(lia)) as K'. pose proof (kval_det _ _ _ _ _ K _ K') as EE. destruct (named_port _ _ _ _ (so_named _ SD) Pt) as (z & Hz & En & _). assert (z = nd) as -> by congruence. cbn in EE. rewrite En in EE. rewrite <- EE in U'. cbn in U'.
      pose proof (a_width _ _ _ _ _ _ A). pose proof (a_width _ _ _ _ _ _ AD). destruct (utype_facts _ _ U ltac:(lia)) as (_ & _ & T1 & _). destruct (utype_facts _ _ U' ltac:(lia)) as (_ & _ & T2 & _). congruence. }
    subst Wb. destruct LV as (n0 & Hn0). destruct (g_live _ _ _ (p_body _ _ _ _ _ _ _ _ _ _ _ _ _ _ P) _ n0 Hn0) as (n2 & Hn2 & B1 & B2 & B3 & B4 & B5).
    destruct (after_node (b_var b) n2 Hn2 (kept_old _ ltac:(eauto) NV)) as (n3 & Hn3 & C1 & C2 & C3 & C4 & C5).
    destruct (old_owner (b_var b) ltac:(eauto)) as [_ O2]. rewrite O in O2. unfold owner in O. rewrite Hn0 in O. rewrite decide_False in C5 by congruence. rewrite E in HV |- *. 
    destruct (a_node _ _ _ _ _ _ A) as (z & Hz & NO & _). assert (z = n0) as -> by congruence. destruct (a_type _ _ _ _ _ _ A) as (t & Ht & UT). split; [|split].
    + constructor; [exists n3; split; [exact Hn3|]; split; [congruence|right; congruence]| |apply AD|exists f; exact HV].
      exists t. split; [|exact UT]. pose proof (gr_type _ _ _ _ _ (p_body _ _ _ _ _ _ _ _ _ _ _ _ _ _ P) Ht) as Ht2. unfold type_of in Ht2 |- *. rewrite Hn2 in Ht2. rewrite Hn3, C2, (in_types _ _ _ _ _ _ _ H3). exact Ht2.
    + destruct (p_ports _ _ _ _ _ _ _ _ _ _ _ _ _ _ P b Hb) as (Pt & (nd & Hn & Ho & Hv) & _). destruct (named_port _ _ _ _ (so_named _ SD) Pt) as (z & Hz' & En & _). assert (z = nd) as -> by congruence.
      destruct ND as (z & Hz'' & _ & Nz). rewrite <- Ed in Hz''. assert (z = nd) as -> by congruence. specialize (Nz Ho). rewrite En in Nz.
      destruct (p_ctl _ _ _ _ _ _ _ _ _ _ _ _ _ _ P b Hb Nz) as (z & Hz0 & Vz & Mz). assert (z = n0) as -> by congruence. exists n3. split; [exact Hn3|]. split; [congruence|]. rewrite C1, C4, <- B1, <- B4. exact Mz.
    + unfold owner. rewrite Hn3. congruence.
Qed.
End After.

Lemma rule_instance : wp F T h w2 (bind_ports p k bs) (fun w3 rs => fr T ws w3 /\ holds e w3 p (List.last rs 0) W y).
Proof.
  destruct (instance_runs w2 p k bs W2 (so_named _ SD) (so_local _ SD) placed_ok) as (w3 & rs & σ & H3).
  assert (ES : istep F w2 (IInst p k bs) = Ok (w3, rs)) by exact (in_run _ _ _ _ _ _ _ H3).
  exists w3, rs, [IInst p k bs]. split; [unfold bind_ports, exec; rewrite ES; reflexivity|]. split.
  - pose proof S as [R D M B]. constructor; [exact (irun_snoc F _ _ _ _ _ _ R ES)|exact (disc_snoc F _ _ _ (IInst p k bs) R D (conj placed_ok placed_forward))| |intro ET; exact (typed_snoc F h _ w2 (IInst p k bs) R (B ET) (TM ET))].
    intros t Ht. apply elem_of_app in Ht as [Ht|Ht]; [exact (M t Ht)|]. apply elem_of_list_singleton in Ht. discriminate.
  - split; [exact (placed_fr w3 rs σ H3)|]. destruct (in_ret _ _ _ _ _ _ _ H3) as [LEN RET].
    assert (EL : rs !! length ins = Some (σ v)) by (apply (RET placed_ordered _ v so); unfold bound; rewrite lookup_app_r by (rewrite map_length; lia); rewrite map_length, Nat.sub_diag; reflexivity).
    assert (EQ : List.last rs 0 = σ v).
    { unfold bound in LEN. rewrite app_length, map_length in LEN. cbn in LEN. destruct (exists_last (l := rs)) as (l & z & ->); [intros ->; cbn in LEN; lia|]. rewrite app_length in LEN. cbn in LEN.
      rewrite List.last_last. rewrite lookup_app_r in EL by lia. replace (length ins - length l) with 0 in EL by lia. injection EL as <-. reflexivity. }
    rewrite EQ. exact (placed_holds w3 rs σ H3).
Qed.
End Place.
