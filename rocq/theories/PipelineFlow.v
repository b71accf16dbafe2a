(** From construction calls to the pipelined circuit (proofs). *)
From Coq Require Import ZArith Bool Lia String QArith.
From stdpp Require Import gmap list.
From Verif Require Import Instance InstanceSpec Types Word Value Graph GraphSpec BuilderProofs BuilderProofs2 BuilderTopo GraphFacts
     KernelSort TopSort Dfcir StreamSpec Sched SchedSpec DfcirProofs SchedProofs SchedStream SchedMain SchedFinal DfcirBuild KernelSpec KernelFlow
     Pipeline PipelineSpec PipelineProofs PipelineMain.
Local Open Scope Z_scope.
Local Arguments nearest : simpl never.

Lemma comb_schedulable w : combinational w -> schedulable w.
Proof. intros [A B C]. constructor; [|exact C|left; exact B]. intros n nd k H Ho. exfalso. exact (A n nd k H Ho). Qed.

Section Flow.
Variables (F : fltops) (h : list icmd) (w : world) (order : list nat).
Hypothesis R : irun F init_world h = Ok w.
Hypothesis D : idisciplined F init_world h.
Context {kern : nat}.
Hypothesis K1 : only_kernel w kern.
Hypothesis C : complete w kern.
Hypothesis S : sorts w kern order.
Variable P : program.
Hypothesis EP : build w order = Ok P.
Hypothesis CO : combinational w.

Lemma prog_facts : no_offsets P /\ outputs_unread P /\ has_operands P /\
  (forall r o k t l a, Def r o k t l a ∈ P -> is_oper o = true -> forall x, x ∈ a <-> x ∈ operands w r) /\
  (forall d s, Con d s ∈ P -> operands w d = [s]) /\
  (forall r x, x ∈ operands w r -> Con r x ∈ P \/ exists o k t l a, Def r o k t l a ∈ P /\ is_oper o = true /\ x ∈ a).
Proof.
  destruct (flow_facts F h w order R D K1 C S) as (W & DR & ND & LV & TO & NP). destruct CO as [C1 C2 C3].
  destruct (build_spec w order W DR ND LV TO NP) as (P' & E' & ED & WP & CB & DD & DC). rewrite EP in E'. injection E' as <-.
  assert (AR : forall r o k t l a, Def r o k t l a ∈ P -> is_oper o = true -> a <> [] /\ forall x, x ∈ a <-> x ∈ operands w r).
  { intros r o k t l a H Ho. apply DD in H as (_ & (nd & H & _ & _ & T) & _). destruct (ops_shape w W DR NP r nd H) as [(Eo & _)|(No & _ & A)].
    { unfold translate_op in T. rewrite Eo in T. injection T as <- <-. discriminate Ho. }
    unfold translate_op in T. destruct (n_op nd) eqn:Eo; try discriminate T; cbn in A;
      try (injection T as <- <-; discriminate Ho);
      destruct (operands w r) as [|p [|q rest]] eqn:Ea; cbn in A; try discriminate T; try lia; injection T as <- <-; try discriminate Ho;
      (split; [discriminate|]); intro x; try reflexivity.
    - rewrite !elem_of_cons. cbn [rev]. rewrite elem_of_app, elem_of_list_singleton.
      assert (X : forall l : list nat, x ∈ rev l <-> x ∈ l) by (intro l0; rewrite !elem_of_list_In; symmetry; apply in_rev). rewrite X. tauto.
    - destruct rest; [reflexivity|cbn in A; lia].
    - destruct rest; [reflexivity|cbn in A; lia]. }
  assert (CN : forall d s, Con d s ∈ P -> operands w d = [s]).
  { intros d s H. apply DC in H as [Hd Hg]. destruct (proj1 (LV d) Hd) as (nr & Hr).
    destruct (ops_shape w W DR NP d nr Hr) as [(_ & s2 & Es & Ec)|(_ & Ec & _)]; [|congruence]. rewrite Es. f_equal. congruence. }
  split.
  { intros v d k t l a H. apply DD in H as (_ & (nd & H & _ & _ & T) & _).
    unfold translate_op in T. destruct (n_op nd) eqn:Eo; try (destruct (operands w v) as [|p [|q r]]; discriminate T); try discriminate T.
    eapply C1; eassumption. }
  split.
  { intros d s Hc (st & Hst & Hrd). destruct (wp_con P WP _ _ Hc) as (sc & nm & k & t & l & a & Hd).
    apply DD in Hd as (_ & (nd & H & _ & _ & T) & _).
    assert (Ho : n_op nd = OUT).
    { unfold translate_op in T. destruct (n_op nd); try reflexivity; try discriminate T; destruct (operands w d) as [|p [|q r]]; discriminate T. }
    pose proof (C2 d nd H Ho) as Rd.
    assert (exists y, d ∈ operands w y) as (y & Hy).
    { destruct st as [r' o' k' t' l' a'|d' s']; cbn in Hrd.
      - apply DD in Hst as (_ & (nr & Hr & _ & _ & T') & _). destruct (translate_op_total w W DR NP r' nr Hr) as (o'' & a'' & T'' & Sub).
        rewrite T' in T''. injection T'' as <- <-. exists r'. apply Sub. exact Hrd.
      - apply elem_of_list_singleton in Hrd as ->. exists d'. rewrite (CN _ _ Hst). left. }
    apply (readers_operands w d y (proj1 W)) in Hy. rewrite Rd in Hy. inversion Hy. }
  split; [intros r o k t l a H Ho; apply (AR _ _ _ _ _ _ H Ho)|]. split; [intros r o k t l a H Ho; apply (AR _ _ _ _ _ _ H Ho)|].
  split; [exact CN|].
  intros r x Hx. destruct (operands_live w r x (proj1 W) Hx) as [_ (nd & Hr)].
  destruct (ops_shape w W DR NP r nd Hr) as [(Eo & s & Es & Ec)|(No & _ & A)].
  - left. rewrite Es in Hx. apply elem_of_list_singleton in Hx as ->. apply DC. split; [apply LV; eauto|exact Ec].
  - right. destruct (translate_op_total w W DR NP r nd Hr) as (o & a & T & _). destruct (result_typed w W r nd a Hr) as (t & Ht).
    assert (Hd : Def r o (n_vk (result_var w nd a)) t (-1) a ∈ P). { apply DD. split; [apply LV; eauto|]. split; [|reflexivity]. exists nd. auto. }
    assert (Io : is_oper o = true).
    { unfold translate_op in T. destruct (n_op nd) eqn:Eo; cbn in A; try discriminate T; try (exfalso; apply length_zero_iff_nil in A; rewrite A in Hx; inversion Hx; fail);
        try congruence; destruct (operands w r) as [|p [|q rest]]; try discriminate T; injection T as <- <-; try reflexivity;
        exfalso; eapply C1; eassumption. }
    exists o, (n_vk (result_var w nd a)), t, (-1), a. split; [exact Hd|]. split; [exact Io|]. apply (AR _ _ _ _ _ _ Hd Io). exact Hx.
Qed.

(** channels are operand references *)
Lemma chan_operands ns cs : cgraph (apply_config cfg0 P) = Some (ns, cs) ->
  forall a b, (exists c, c ∈ cs /\ sc_src c = a /\ sc_tgt c = b) <-> a ∈ operands w b.
Proof.
  intro E1. destruct prog_facts as (NO & UR & HO & AR & CN & OP).
  destruct (kernel_schedulable F h w order R D K1 C S P (comb_schedulable w CO) EP) as (W & CB & _).
  set (P1 := apply_config cfg0 P) in *. assert (W1 := cfg_wfp cfg0 P W). fold P1 in W1.
  assert (EG := cgraph_sgraph P1 W1 (cfg0_lat P) ns cs E1).
  destruct (construct_spec P1 W1 P1 [] ns cs ltac:(auto) EG) as (_ & _ & C3 & C4 & C5 & _).
  assert (Nr : forall v, is_read P1 v -> nearest P1 v = Some (v, 0)) by (intros v H; apply (nearest1 P NO UR v H)).
  intros a b. split.
  - intros (c & Hc & <- & <-). destruct (C3 c Hc) as (st & Hst & Hco).
    destruct Hco as [r o k ty l args i x Ho Ha Hn Ht Hi|d v sc nm Hop Hn Ht Hi].
    + rewrite Nr in Hn by (eexists; split; [exact Hst|eapply elem_of_list_lookup_2; exact Ha]). injection Hn as <- _.
      apply cfg_def_inv in Hst as (l' & Hst). rewrite Ht. apply (AR _ _ _ _ _ _ Hst Ho). eapply elem_of_list_lookup_2. exact Ha.
    + rewrite Nr in Hn by (eexists; split; [exact Hst|left]). injection Hn as <- _. apply cfg_con_inv in Hst. rewrite Ht, (CN _ _ Hst). left.
  - intro H. destruct (OP b a H) as [Hc|(o & k & t & l & args & Hd & Ho & Ha)].
    + apply (cfg_con cfg0) in Hc. fold P1 in Hc. destruct (C5 b a Hc) as (s & off & Hn & Hin).
      { rewrite (con_of_con P1 b a (wp_dests P1 W1) Hc). eauto. }
      rewrite Nr in Hn by (eexists; split; [exact Hc|left]). injection Hn as <- <-. eexists. split; [exact Hin|]. auto.
    + apply (cfg_def cfg0) in Hd as (l' & Hd). fold P1 in Hd. apply elem_of_list_lookup in Ha as (i & Hi).
      destruct (C4 _ _ _ _ _ _ _ _ Hd Ho Hi) as (s & off & Hn & Hin).
      rewrite Nr in Hn by (eexists; split; [exact Hd|eapply elem_of_list_lookup_2; exact Hi]). injection Hn as <- <-. eexists. split; [exact Hin|]. auto.
Qed.
Lemma chain_ops ns cs : cgraph (apply_config cfg0 P) = Some (ns, cs) ->
  forall a b z, chain cs a b z <-> op_chain w a b z.
Proof.
  intros E1 a b z. pose proof (chan_operands ns cs E1) as X. split; intro H.
  - induction H as [|z c H IH Hc]; [constructor|]. eapply oc_snoc; [exact IH|]. apply X. eauto.
  - induction H as [|b c z H IH Hc]; [constructor|]. apply X in Hc as (ch & Hc & <- & <-). apply chain_snoc; assumption.
Qed.
Lemma deepest_cs ns cs d : cgraph (apply_config cfg0 P) = Some (ns, cs) -> deepest_node w d -> deepest cs d.
Proof.
  intros E1 H z [_ Hz] u y [(a & _ & Ha) _]. apply (chain_ops ns cs E1) in Ha. destruct (H a u y Ha) as (a' & y' & Ha' & Le).
  apply (chain_ops ns cs E1) in Ha'. specialize (Hz a' y' Ha'). lia.
Qed.

Theorem kernel_pipelined rnd eps n perm Q : (forall bs, perm bs ≡ₚ bs) -> 0 < n < 2 ^ 31 ->
  comb_pass rnd eps n perm P = Some Q ->
  exists Dl : nat -> Z,
    (forall d, 0 <= Dl d <= n) /\
    (forall d nd, w_nodes w !! d = Some nd -> n_op nd = OUT -> deepest_node w d -> Dl d = n) /\
    forall V (I : interp V) sig, circuit I Q sig ->
      forall d nd i x, w_nodes w !! d = Some nd -> n_op nd = OUT -> 0 <= i -> kval I w d i x -> sig d (i + Dl d) = x.
Proof.
  intros PM NB E. destruct prog_facts as (NO & UR & HO & AR & CN & OP).
  destruct (kernel_schedulable F h w order R D K1 C S P (comb_schedulable w CO) EP) as (W & CB & SO & NR & OS & OC & OD).
  destruct (comb_pass_stream rnd eps n perm P Q W NR CB PM NB E SO UR) as (ns & cs & Dl & E1 & D1 & D2 & D3).
  exists Dl. split; [exact D1|]. split.
  - intros d nd H Ho Hd. apply D2; [|exact (deepest_cs ns cs d E1 Hd)]. intro Sc. destruct (OC d nd H Ho) as (s & Hs).
    apply CN in Hs. assert (X : s ∈ operands w d) by (rewrite Hs; left). apply (chan_operands ns cs E1) in X as (c & Hc & _ & Et). exact (Sc c Hc Et).
  - intros V I sig Ci d nd i x H Ho Hi Kv. destruct (OC d nd H Ho) as (s & Hs). eapply D3; [exact Ci|exact Hs|exact Hi|].
    destruct (kernel_translates F h w order R D K1 C S) as (P' & E' & _ & _ & KD). rewrite EP in E'. injection E' as <-.
    apply KD; [eauto|exact Kv].
Qed.
Theorem kernel_pipeline_completes rnd eps n perm : rounding rnd -> (0 < eps)%Q -> (forall bs, perm bs ≡ₚ bs) -> 0 <= n < 2 ^ 31 ->
  Z.of_nat (length P) < 2 ^ 31 -> exists Q, comb_pass rnd eps n perm P = Some Q.
Proof.
  intros RD Ep PM NB SZ. destruct prog_facts as (NO & UR & HO & AR & CN & OP).
  destruct (kernel_schedulable F h w order R D K1 C S P (comb_schedulable w CO) EP) as (W & CB & SO & NR & OS & OC & OD).
  destruct (Z.eq_dec n 0) as [->|N0]; [eexists; reflexivity|]. apply comb_pass_completes; try assumption; lia.
Qed.
End Flow.

(** ** Without registers *)
Lemma unpipelined {V} (I : interp V) P sig : no_offsets P -> (forall r o k t l a, Def r o k t l a ∈ P -> l <= 0) ->
  circuit I P sig -> forall v i x, dval I P v i x -> 0 <= i -> sig v i = x.
Proof.
  intros NO L0 Ci.
  apply (dval_ind' I P (fun v i x => 0 <= i -> sig v i = x)); [intros v name k t l a i H H0 Hi|intros v name k t l a i H Hi|intros v c k t l a i H Hi|intros v d k t l s i x H Dv IHD|intros v sc name k t l a s i x H H0 Dv IHD Hi|intros v o k t l args i xs x H H0 H1 H2 H3 Hi].
  - exact (Ci _ H i Hi).
  - exact (Ci _ H i Hi).
  - exact (Ci _ H i Hi).
  - exfalso. exact (NO _ _ _ _ _ _ H).
  - rewrite (Ci _ H0 i Hi). apply IHD. exact Hi.
  - assert (E : map (fun a => sig a i) args = xs).
    { clear - H2 Hi. induction H2 as [|a y l1 l2 [_ Hy] _ IH]; [reflexivity|]. cbn. f_equal; [apply Hy; exact Hi|exact IH]. }
    assert (Dz : delay o l = 0) by (unfold delay; pose proof (L0 _ _ _ _ _ _ H); destruct (is_scheduled o); lia).
    pose proof (Ci _ H) as X. rewrite <- (Z.add_0_r i), <- Dz. destruct o; try discriminate H0; cbn [stmt_holds] in X; apply X; try lia; rewrite E; exact H3.
Qed.
