(** * Derived rules: loops, tables, bit slices, sub-kernels (proofs). *)
From Coq Require Import ZArith Bool String Lia.
From stdpp Require Import gmap list.
From Verif Require Import Types Word Value OpSpec Graph GraphSpec TypesProofs BuilderProofs BuilderProofs2 BuilderTopo GraphFacts StreamSpec Dfcir DfcirBuild
     Verilog Stubs Naming Firrtl Lower RtlSpec KernelSpec KernelValues Instance InstanceSpec InstanceLoop InstanceMain InstanceStep InstanceFlow LifeProofs ProgTyping SliceFacts
     CryptoSpec GaloisFacts Prog ProgFrame ProgRules ProgCalls ProgMux ProgPorts ProgInstance StdKernels.
Local Open Scope Z_scope.

Definition consts (w : world) (W : Z) (rs : list nat) (l : list Z) : Prop := Forall2 (fun r c => const_of w r (TFixed false W 0) c) rs l.
Lemma consts_gr X w w' W rs l : gr X w w' -> consts w W rs l -> consts w' W rs l.
Proof. intros G H. unfold consts in *. induction H; constructor; [exact (gr_const _ _ _ _ _ _ G H)|assumption]. Qed.
Lemma top_frame w w' : frame w w' -> is_Some (w_top w) -> is_Some (w_top w').
Proof. intros (_ & E & _). rewrite E. auto. Qed.
Lemma kern_frame w w' k : frame w w' -> is_Some (w_kern w !! k) -> is_Some (w_kern w' !! k).
Proof. intros (_ & _ & E) H. apply E, H. Qed.

(** facts about [w] carried over to [w'] *)
Ltac carry G FM :=
  let g := fresh "g" in let fm := fresh "fm" in pose proof G as g; pose proof FM as fm;
  match type of g with gr ?X ?w ?w' =>
    repeat match goal with
    | H : holds ?e w ?k ?n ?W ?x |- _ => apply (holds_gr e X w w' k n W x g) in H
    | H : whold ?e w ?k ?n ?W ?x |- _ => apply (whold_gr e X w w' k n W x g) in H
    | H : arg ?e w ?k ?n ?W ?x |- _ => apply (arg_gr e X w w' k n W x g) in H
    | H : in_port w ?n |- _ => apply (in_port_gr X w w' n g) in H
    | H : type_of w ?n = Some ?t |- _ => apply (gr_type X w w' n t g) in H
    | H : const_of w ?n ?t ?c |- _ => apply (gr_const X w w' n t c g) in H
    | H : consts w ?W ?rs ?l |- _ => apply (consts_gr X w w' W rs l g) in H
    | H : w_types w !! ?ty = Some ?t |- _ => apply (g_types X w w' g) in H
    | H : is_Some (w_top w) |- _ => apply (top_frame w w' fm) in H
    | H : is_Some (w_kern w !! ?k) |- _ => apply (kern_frame w w' k fm) in H
    end
  end; clear g fm.
Ltac cfr FR := carry (f_gr _ _ _ FR) (f_frame _ _ _ FR).

Section Lib.
Variable F : fltops.

Lemma rule_bind {A B} T h w (p : prog A) (f : A -> prog B) (P : world -> A -> Prop) Q : wp F T h w p P -> (forall h' w' a, st F T h' w' -> P w' a -> wp F T h' w' (f a) Q) -> wp F T h w (pbind p f) Q.
Proof. intros HP HQ. apply wp_bind. eapply wp_conseq; [exact HP|]. cbn beta. intros w' a H h' S. exact (HQ h' w' a S H). Qed.
Lemma rule_fold {A B} T (f : B -> A -> prog B) (Inv : list A -> world -> B -> Prop) : (forall a l h w b, st F T h w -> Inv (a :: l) w b -> wp F T h w (f b a) (fun w' b' => Inv l w' b')) ->
  forall l h w b, st F T h w -> Inv l w b -> wp F T h w (pfold f b l) (fun w' b' => Inv [] w' b').
Proof.
  intro Hs. induction l as [|a l IH]; intros h w b S HI; cbn [pfold]; [apply wp_ret; assumption|]. eapply rule_bind; [exact (Hs a l h w b S HI)|]. cbn beta. intros h' w' b' S' HI'. exact (IH _ _ _ S' HI').
Qed.

Lemma uint_wf W : 0 < W < 65536 -> wf_type (mkFixed false W 0).
Proof. intro H. cbn. unfold u16. rewrite !Z.mod_small by lia. split; split; lia. Qed.
Lemma rule_dfUInt T h w W : st F T h w -> 0 < W < 65536 -> wp F T h w (dfUInt W) (fun w' ty => fr T w w' /\ w_types w' !! ty = Some (TFixed false W 0)).
Proof.
  intros S HW. unfold dfUInt. assert (E : mkFixed false W 0 = TFixed false W 0) by (unfold mkFixed, u16; rewrite (Z.mod_small W), (Z.mod_small 0) by lia; reflexivity).
  rewrite <- E. apply rule_type; [exact S|exact (uint_wf W HW)].
Qed.
Lemma rule_consts T ty W : 0 < W < 65536 -> forall l h w, st F T h w -> w_types w !! ty = Some (TFixed false W 0) -> Forall (fun c => 0 <= c < 2 ^ 64) l -> is_Some (w_top w) ->
  wp F T h w (const_vars ty l) (fun w' rs => fr T w w' /\ consts w' W rs l).
Proof.
  intro HW. induction l as [|c l IH]; intros h w S Ht Hl Top; unfold const_vars; cbn [pmap].
  - apply wp_ret; [exact S|]. split; [apply fr_refl|constructor].
  - inversion Hl as [|? ? Hc Hl']; subst. eapply rule_bind; [exact (rule_const F T h w ty W c S Ht HW Hc Top)|]. cbn beta. intros h1 w1 r S1 (F1 & C1). cfr F1.
    eapply rule_bind; [exact (IH h1 w1 S1 Ht Hl' Top)|]. cbn beta. intros h2 w2 rs S2 (F2 & C2). cfr F2. apply wp_ret; [exact S2|]. split; [exact (fr_trans _ _ _ _ F1 F2)|constructor; assumption].
Qed.
Lemma consts_type w W rs l : consts w W rs l -> Forall (fun a => type_of w a = Some (TFixed false W 0)) rs.
Proof. intro H. induction H as [|r c rs l (nd & Hn & _ & _ & Ht) H IH]; constructor; [unfold type_of; rewrite Hn; exact Ht|exact IH]. Qed.
Lemma consts_length w W rs l : consts w W rs l -> length rs = length l.
Proof. exact (Forall2_length _ _ _). Qed.
Lemma consts_nth w W rs l j : consts w W rs l -> (j < length l)%nat -> const_of w (nth j rs 0%nat) (TFixed false W 0) (nth j l 0).
Proof. intro H. revert j. induction H as [|r c rs l Hc H IH]; intros j Hj; cbn in Hj; [lia|]. destruct j; [exact Hc|cbn; apply IH; lia]. Qed.
Lemma consts_constant w W rs l a : consts w W rs l -> a ∈ rs -> is_constant_node w a.
Proof. intros H I. apply elem_of_list_lookup in I as (j & Hj). destruct (Forall2_lookup_l _ _ _ _ _ H Hj) as (c & _ & nd & Hn & _ & Ho & _). exists nd. split; [exact Hn|left; eauto]. Qed.
(** the arms are constants *)
Lemma rule_table e T h w k c Wc xc arms W l : st F T h w -> holds e w k c Wc xc -> consts w W arms l -> 0 < W < 65536 -> Forall (fun c => 0 <= c < 2 ^ W /\ c < 2 ^ 64) l -> 2 ^ Wc <= Z.of_nat (length l) ->
  wp F T h w (control_mux k c arms) (fun w' s => fr T w w' /\ holds e w' k s W (fun i => nth (Z.to_nat (xc i)) l 0) /\ type_of w' s = Some (TFixed false W 0)).
Proof.
  intros S C CS HW HL LW. pose proof (consts_length _ _ _ _ CS) as EL.
  assert (F2 : Forall2 (fun a y => arg e w k a W y) arms (map (fun c _ => c) l)).
  { clear - CS HW HL. unfold consts in CS. revert HL. induction CS as [|r c rs l Hc H IH]; intro HL; [constructor|]. inversion HL as [|? ? [A B] HL']; subst. cbn. constructor; [exact (const_arg e w k r W c Hc HW A B)|exact (IH HL')]. }
  eapply wp_conseq; [apply (rule_mux F e T h w k c Wc xc arms W _ S C F2); [rewrite EL; exact LW|intro ET; exists (TFixed false W 0); split; [exact (consts_type _ _ _ _ CS)|right; intros a Ha; exact (consts_constant _ _ _ _ _ CS Ha)]]|].
  cbn beta. intros w' s (A & B & TY). split; [exact A|]. split; [|destruct arms as [|a0 arms]; [assert (0 < 2 ^ Wc) by (apply Z.pow_pos_nonneg; [lia|]; pose proof (a_width _ _ _ _ _ _ (proj1 C)); lia); cbn in EL; lia|]; rewrite (TY a0 eq_refl); pose proof (consts_type _ _ _ _ CS) as CT; inversion CT; assumption]. eapply holds_ext; [|exact B]. intros i _. cbn beta. rewrite (map_nth (fun (c _ : Z) => c) l 0). reflexivity.
Qed.
Lemma rule_bits_w e T h w k a W x l r n : st F T h w -> whold e w k a W x -> 0 <= r <= l -> l < W -> l - r + 1 = n ->
  wp F T h w (bits a l r) (fun w' s => fr T w w' /\ holds e w' k s n (fun i => (x i / 2 ^ r) mod 2 ^ n)).
Proof. intros S H A B <-. exact (rule_slice_w F e T h w k a W x l r S H A B). Qed.
Lemma rule_bits e T h w k a W x l r n : st F T h w -> holds e w k a W x -> 0 <= r <= l -> l < W -> l - r + 1 = n ->
  wp F T h w (bits a l r) (fun w' s => fr T w w' /\ holds e w' k s n (fun i => (x i / 2 ^ r) mod 2 ^ n)).
Proof. intros S H A B <-. exact (rule_slice F e T h w k a W x l r S H A B). Qed.
Lemma arg_range e w k n W x i : arg e w k n W x -> 0 <= i -> 0 <= x i < 2 ^ W.
Proof. intros A Hi. destruct (a_val _ _ _ _ _ _ A) as (f & V). apply (V i Hi). Qed.
Lemma holds_range e w k n W x i : holds e w k n W x -> 0 <= i -> 0 <= x i < 2 ^ W.
Proof. intros [A _]. exact (arg_range e w k n W x i A). Qed.
Lemma rule_xor e T h w k a b W x y : st F T h w -> arg e w k a W x -> arg e w k b W y -> holds e w k a W x \/ holds e w k b W y ->
  wp F T h w (xor a b) (fun w' s => fr T w w' /\ holds e w' k s W (fun i => Z.lxor (x i) (y i)) /\ w_nodes w !! s = None /\ type_of w' s = type_of w a).
Proof.
  intros S A B O. eapply wp_conseq; [exact (rule_bin F e T h w k XOR a b W x y S (or_introl eq_refl) A B O)|]. cbn beta. intros w' s (C & D & New). split; [exact C|]. split; [|exact New]. eapply holds_ext; [|exact D]. intros i Hi. cbn beta.
  pose proof (a_width _ _ _ _ _ _ A). pose proof (lxor_lt W (x i) (y i) ltac:(lia) (arg_range _ _ _ _ _ _ _ A Hi) (arg_range _ _ _ _ _ _ _ B Hi)). unfold bin_fun. cbn. apply Z.mod_small. lia.
Qed.
(** two arms *)
Lemma rule_mux2 e T h w k c xc a b W x y : st F T h w -> holds e w k c 1 xc -> arg e w k a W x -> arg e w k b W y -> (T = true -> exists t, type_of w a = Some t /\ type_of w b = Some t) ->
  wp F T h w (control_mux k c [a; b]) (fun w' s => fr T w w' /\ holds e w' k s W (fun i => if Z.odd (xc i) then y i else x i)).
Proof.
  intros S C A B TT. eapply wp_conseq; [apply (rule_mux F e T h w k c 1 xc [a; b] W [x; y] S C)|].
  - constructor; [exact A|]. constructor; [exact B|]. constructor.
  - cbn. lia.
  - intro ET. destruct (TT ET) as (t & Ha & Hb). exists t. split; [constructor; [exact Ha|]; constructor; [exact Hb|]; constructor|left; cbn; lia].
  - cbn beta. intros w' s (D & E & _). split; [exact D|]. eapply holds_ext; [|exact E]. intros i Hi. cbn beta. pose proof (holds_range _ _ _ _ _ _ i C Hi) as R. change (2 ^ 1) with 2 in R.
    assert (Q : xc i = 0 \/ xc i = 1) by lia. destruct Q as [-> | ->]; reflexivity.
Qed.

(** ** Sub-kernels *)
(** [v] is the variable created for the output of a sub-kernel: between [ws] and [w0] *)
Record slot (T : bool) (ws w0 : world) (p v : nat) : Prop := {
  sl_ws : WF ws; sl_gr : gr [v] ws w0; sl_fresh : w_nodes ws !! v = None; sl_frame : frame ws w0; sl_names : forall j, names w0 j = names ws j;
  sl_none : has_op w0 v NONE; sl_ops : operands w0 v = []; sl_read : readers w0 v = []; sl_own : owner w0 v = p; sl_tidy : T = true -> tidy ws -> tidy w0
}.
Lemma rule_newStream T h w p ty t : st F T h w -> w_types w !! ty = Some t -> proper t -> is_Some (w_kern w !! p) -> wp F T h w (io_newStream p ty) (fun w' v => slot T w w' p v /\ type_of w' v = Some t).
Proof.
  intros S Ht PT Hp. eapply wp_conseq; [apply (rule_var F T h w (CNewVar p false ty) NONE p EmptyString ty t S); [right; right; auto|exact Ht|exact PT|exact Hp]|].
  cbn beta. intros w' r (X & Fr & Op & Rd & (nd & Hr & Er & _ & _ & Em) & Tr & Nm). split; [|exact Tr]. constructor; auto.
  - exact (st_WF F T h w S).
  - apply X.
  - apply X.
  - intro j. rewrite Nm. rewrite decide_False; [reflexivity|]. intros [_ N]. apply N. reflexivity.
  - exists nd. auto.
  - unfold owner. rewrite Hr. exact Em.
  - apply X.
Qed.
Lemma slot_fr T ws w0 w1 p v : slot T ws w0 p v -> fr T w0 w1 -> slot T ws w1 p v.
Proof.
  intros [A1 A2 A3 A4 A5 A6 A7 A8 A9 A10] [B1 B2 B3 B4]. assert (L : is_Some (w_nodes w0 !! v)) by (destruct A6 as (nd & H & _); eauto). constructor; auto.
  - pose proof (gr_trans _ _ _ _ _ A2 B1) as G. rewrite app_nil_r in G. exact G.
  - exact (frame_trans _ _ _ A4 B2).
  - intro j. rewrite B3. apply A5.
  - apply (op_old _ _ _ _ _ B1 L), A6.
  - rewrite (g_ops _ _ _ B1 v L); [exact A7|intro I; inversion I].
  - apply (g_unread _ _ _ B1); [left; exact A6|intro I; inversion I|exact A8].
  - rewrite (gr_owner _ _ _ _ B1 L). exact A9.
Qed.
(** what the constructor of a sub-kernel [k] does: [ports] are its inputs named [ss], [out] is
    its output named [so], driven by [d], which holds [y] *)
Record child (T : bool) (e' : env) (w1 w2 : world) (k : nat) (ss : list string) (Ws : list Z) (ports : list nat) (so : string) (out d : nat) (W : Z) (y : Z -> Z) : Prop := {
  ch_ext : ext T (out :: ports) w1 w2; ch_free : forall n, n ∈ out :: ports -> w_nodes w1 !! n = None;
  ch_names : forall j, j <> k -> names w2 j = names w1 j;
  ch_ins : Forall2 (fun s n => port w2 k s n /\ in_port w2 n) ss ports;
  ch_types : Forall2 (fun V n => type_of w2 n = Some (TFixed false V 0)) Ws ports; ch_otype : type_of w2 out = Some (TFixed false W 0);
  ch_out : port w2 k so out; ch_op : has_op w2 out OUT; ch_ops : operands w2 out = [d]; ch_read : readers w2 out = []; ch_drv : holds e' w2 k d W y
}.
Lemma rule_child T e e' h ws w0 p v body (ins : list (nat * string)) so W y : st F T h w0 -> slot T ws w0 p v -> (exists t, type_of w0 v = Some t /\ utype t W) -> w_stack w0 <> [] -> NoDup (map snd ins ++ [so]) ->
  (forall u s, (u, s) ∈ ins -> exists Wb x, arg e w0 p u Wb x /\ owner w0 u = p /\ forall i, 0 <= i -> kval (hw e) w0 u i (e_stream e' s i) /\ utype (fst (e_stream e' s i)) Wb) ->
  (forall u s, (u, s) ∈ ins -> s <> "left"%string -> ctl w0 u) ->
  (forall k h1 w1, st F T h1 w1 -> is_Some (w_kern w1 !! k) -> is_Some (w_top w1) -> names w1 k = [] ->
     wp F T h1 w1 (body k) (fun w2 _ => exists Ws ports out d, child T e' w1 w2 k (map snd ins) Ws ports so out d W y /\ (T = true -> Forall2 (fun us V => exists x, arg e w0 p (fst us) V x) ins Ws))) ->
  wp F T h w0 (instance p body (ins ++ [(v, so)])) (fun w3 r => fr T ws w3 /\ holds e w3 p r W y).
Proof.
  intros S SL SV NS ND VA VC BO. unfold instance. eapply rule_bind; [exact (rule_kernel F T h w0 S)|]. cbn beta.
  intros h1 w1 k S1 (G1 & K1 & N1 & N1' & K1' & K1'' & St1 & T1 & _ & E1 & Ti1).
  assert (TP : is_Some (w_top w1)) by (pose proof (sk_top _ (st_stacked F T h1 w1 S1)) as X; rewrite X; apply last_is_Some; rewrite St1; discriminate).
  eapply rule_bind; [exact (BO k h1 w1 S1 K1' TP N1)|]. cbn beta. intros h2 w2 [] S2 (Ws & ports & out & d & CH & TA). destruct CH as [[C1 C2 Ti2] C3 C4 C5 CT _ C6 C7 C8 C9 C10].
  set (bs := zip_with (fun (b : nat * string) (n : nat) => (fst b, snd b, n)) ins ports).
  assert (LP : length ins = length ports) by (rewrite <- (map_length snd ins); exact (Forall2_length _ _ _ C5)).
  assert (B1 : map (fun b => (b_var b, b_name b)) bs = ins) by (unfold bs; clear - LP; revert ports LP; induction ins as [|[u s] ins IH]; intros [|q ports] LP; try discriminate; [reflexivity|]; cbn in *; f_equal; apply IH; lia).
  assert (B2 : map b_port bs = ports) by (unfold bs; clear - LP; revert ports LP; induction ins as [|[u s] ins IH]; intros [|q ports] LP; try discriminate; [reflexivity|]; cbn in *; f_equal; apply IH; lia).
  assert (B3 : map b_name bs = map snd ins) by (rewrite <- B1, map_map; reflexivity).
  assert (BI : forall b, b ∈ bs -> (b_var b, b_name b) ∈ ins) by (intros b Hb; rewrite <- B1; apply elem_of_list_fmap; eauto).
  assert (BP : forall b, b ∈ bs -> b_port b ∈ ports) by (intros b Hb; rewrite <- B2; apply elem_of_list_fmap; eauto).
  assert (EB : ins ++ [(v, so)] = bound bs v so) by (unfold bound; rewrite B1; reflexivity). rewrite EB.
  assert (PL : placed e e' ws w0 w2 p k bs v so out d W y).
  { destruct SL as [A1 A2 A3 A4 A5 A6 A7 A8 A9 A10]. constructor; auto.
    - exact (st_WF F T h w0 S).
    - rewrite B2. exact (gr_trans _ _ _ _ _ G1 C1).
    - rewrite B2. intros n Hn. rewrite <- E1. exact (C3 n Hn).
    - intro j. destruct C2 as (_ & _ & C2). rewrite C2. apply K1''.
    - destruct C2 as (C2 & _). rewrite C2. exact St1.
    - destruct C2 as (_ & C2 & _). rewrite C2. exact (T1 NS).
    - intros j Nj. rewrite (C4 j Nj). apply N1'.
    - intros b Hb. unfold bs in Hb. apply elem_of_lookup_zip_with in Hb as (j & [u s] & q & -> & H1 & H2). cbn.
      assert (H1' : map snd ins !! j = Some s) by (exact (eq_trans (list_lookup_fmap snd ins j) (f_equal (fmap snd) H1))).
      exact (Forall2_lookup_lr _ _ _ _ _ _ C5 H1' H2).
    - rewrite B3. exact ND.
    - intros b Hb NL. exact (VC _ _ (BI b Hb) NL). }
  assert (G2 : gr (out :: ports) w0 w2) by exact (gr_trans _ _ _ _ _ G1 C1).
  assert (KU : forall n t V, type_of w2 n = Some t -> utype t V -> kind_at w2 n = Some (TFixed false V 0)) by (intros n t V Hn [-> | ->]; unfold kind_at; rewrite Hn; reflexivity).
  assert (TM : T = true -> types_match w2 k (bound bs v so)).
  { intros ET u s n Hu Pn. split.
    - intro IN'. destruct (bound_port e e' ws w0 w2 p k bs v so out d W y PL u s n Hu Pn) as [(b & Hb & <- & <- & -> & _)|(_ & _ & _ & O2)].
      2:{ destruct IN' as (z & Hz & Ez), O2 as (z' & Hz' & Ez'). congruence. }
      unfold bs in Hb. apply elem_of_lookup_zip_with in Hb as (j & [u s] & q & -> & H1 & H2). cbn [b_var b_port fst snd].
      destruct (Forall2_lookup_l _ _ _ _ _ (TA ET) H1) as (V & HV & (x & A)). cbn in A. pose proof (Forall2_lookup_lr _ _ _ _ _ _ CT HV H2) as Hq. destruct (a_type _ _ _ _ _ _ A) as (t & Ht & UT).
      rewrite (KU u t V (gr_type _ _ _ _ _ G2 Ht) UT), (KU q _ V Hq); [reflexivity|left; reflexivity].
    - intros O _ d' Ed. destruct (bound_port e e' ws w0 w2 p k bs v so out d W y PL u s n Hu Pn) as [(b & _ & _ & _ & _ & I2)|(-> & -> & -> & _)].
      { destruct I2 as (z & Hz & Ez), O as (z' & Hz' & Ez'). congruence. }
      assert (d' = d) as -> by congruence. destruct SV as (t & Ht & UT). destruct (a_type _ _ _ _ _ _ (proj1 C10)) as (t' & Ht' & UT').
      rewrite (KU v t W (gr_type _ _ _ _ _ G2 Ht) UT), (KU d t' W Ht' UT'). reflexivity. }
  assert (TD : T = true -> tidy ws -> tidy w2) by (intros ET Ty; apply (Ti2 ET), (Ti1 ET), (sl_tidy _ _ _ _ _ SL ET), Ty).
  eapply rule_bind; [exact (rule_instance F e e' ws w0 w2 p k bs v so out d W y T h2 PL S2 TM TD)|]. cbn beta. intros h3 w3 rs S3 H3. apply wp_ret; [exact S3|exact H3].
Qed.
End Lib.
