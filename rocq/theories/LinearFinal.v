(** The linear pass as a whole (proofs). *)
From Coq Require Import ZArith Bool QArith Lia String.
From stdpp Require Import gmap list.
From Verif Require Import Instance InstanceSpec Types Value Graph Dfcir StreamSpec Sched SchedSpec SchedProofs DfcirProofs SchedStream SchedMain SchedFinal
     GraphSpec BuilderTopo TopSort KernelSort KernelSpec KernelFlow Linear LinearSpec LinearProofs LinearMain.
Local Open Scope Z_scope.
Local Arguments nearest : simpl never.

Lemma dist_lt t t' (k : list schan) c0 :
  (forall c, c ∈ k -> t (sc_tgt c) - t (sc_src c) <= t' (sc_tgt c) - t' (sc_src c)) ->
  c0 ∈ k -> t (sc_tgt c0) - t (sc_src c0) < t' (sc_tgt c0) - t' (sc_src c0) -> total_distance k t < total_distance k t'.
Proof.
  assert (G : forall k, (forall c, c ∈ k -> t (sc_tgt c) - t (sc_src c) <= t' (sc_tgt c) - t' (sc_src c)) -> total_distance k t <= total_distance k t').
  { clear. induction k as [|c k IH]; intro H; cbn; [lia|]. specialize (IH ltac:(intros; apply H; right; assumption)). pose proof (H c ltac:(left)). unfold total_distance in IH. lia. }
  induction k as [|c k IH]; intros H H0 H1; [inversion H0|]. cbn. pose proof (H c ltac:(left)) as Hc.
  apply elem_of_cons in H0 as [->|H0].
  - pose proof (G k ltac:(intros; apply H; right; assumption)) as X. unfold total_distance in X. lia.
  - specialize (IH ltac:(intros; apply H; right; assumption) H0 H1). unfold total_distance in IH. lia.
Qed.

(** latencies are asserted non-negative while the columns are made *)
Lemma lp_nodes_lat : forall ns col r, lp_nodes ns col = Some r -> forall n, n ∈ ns -> 0 <= s_lat n.
Proof.
  induction ns as [|n0 ns IH]; intros col r E n H; [inversion H|]. cbn in E.
  destruct (Z.ltb_spec (s_lat n0) 0); [discriminate|]. destruct (lp_nodes ns (S col)) as [[[nm k] c']|] eqn:E1; [|discriminate].
  apply elem_of_cons in H as [->|H]; [assumption|]. eapply IH; eassumption.
Qed.
Lemma lp_build_lat ns cs r : lp_build ns cs = Some r -> forall n, n ∈ ns -> 0 <= s_lat n.
Proof.
  unfold lp_build. destruct (lp_nodes ns 1) as [[[nm k] c']|] eqn:E1; [|discriminate]. intros _. eapply lp_nodes_lat; eassumption.
Qed.

(** a schedule of minimal total distance starts an output as soon as its value is there *)
Lemma minimal_outputs P ns cs t : wfp P -> small_offsets P -> sgraph P = Some (ns, cs) -> connects_back P ->
  (forall n, n ∈ ns -> 0 <= s_lat n) ->
  (forall v d k t' l a, Def v (DOffset d) k t' l a ∈ P -> 0 <= d) ->
  lp_schedule_of ns cs t -> (forall t', lp_schedule_of ns cs t' -> total_distance cs t <= total_distance cs t') ->
  forall d v c, Con d v ∈ P -> c ∈ cs -> sc_tgt c = d -> t d = t (sc_src c) + chan_delay ns c.
Proof.
  intros W SM EG CB L0 OF ((F1 & F2) & F3 & F4) Mn d v c Hd Hc Et.
  assert (NS := back_no_self P ns cs W CB EG). assert (OD := sgraph_ordered P W ns cs EG).
  destruct (construct_spec P W P [] ns cs ltac:(auto) EG) as (_ & C2 & C3 & _).
  pose proof (F2 c Hc) as Lo. rewrite Et in Lo. destruct (Z.eq_dec (t d) (t (sc_src c) + chan_delay ns c)) as [|Ne]; [assumption|exfalso].
  (* the only channel into the output *)
  assert (Un : forall c', c' ∈ cs -> sc_tgt c' = d -> sc_src c' = sc_src c /\ sc_off c' = sc_off c).
  { intros c' Hc' Et'. destruct (C3 c Hc) as (st & Hst & Hco). destruct (C3 c' Hc') as (st' & Hst' & Hco').
    destruct Hco as [r o k ty l args i a Ho Ha Hn Ht Hi|d1 v1 sc nm Hop Hn Ht Hi].
    { exfalso. eapply (def_not_con P W); [exact Hst|exact Ho|]. rewrite <- Ht, Et. exact Hd. }
    destruct Hco' as [r o k ty l args i a Ho Ha Hn' Ht' Hi'|d2 v2 sc' nm' Hop' Hn' Ht' Hi'].
    { exfalso. eapply (def_not_con P W); [exact Hst'|exact Ho|]. rewrite <- Ht', Et'. exact Hd. }
    assert (v1 = v) as -> by (eapply con_unique; [apply (wp_dests P W)|exact Hst|rewrite <- Ht, Et; exact Hd]).
    assert (v2 = v) as -> by (eapply con_unique; [apply (wp_dests P W)|exact Hst'|rewrite <- Ht', Et'; exact Hd]).
    rewrite Hn in Hn'. injection Hn' as -> ->. auto. }
  (* nothing reads the output node itself *)
  assert (So : forall c', c' ∈ cs -> sc_src c' <> d).
  { intros c' Hc' Es. destruct (C3 c' Hc') as (st' & Hst' & Hco').
    assert (exists a, nearest P a = Some (sc_src c', sc_off c')) as (a & Hn) by (inversion Hco'; eauto).
    destruct (nearest_hops P W _ _ _ Hn) as [[Fi _] _]. rewrite Es in Fi. rewrite (con_of_con P d v (wp_dests P W) Hd) in Fi. discriminate. }
  assert (W0 : 0 <= chan_delay ns c).
  { unfold chan_delay. pose proof (od_src _ _ OD _ Hc) as X. apply elem_of_list_fmap in X as (n & -> & Hn').
    rewrite (node_lat_in ns n (od_nd _ _ OD) Hn'). pose proof (L0 n Hn').
    destruct (C3 c Hc) as (st' & Hst' & Hco').
    assert (exists a, nearest P a = Some (sc_src c, sc_off c)) as (a & Hn) by (inversion Hco'; eauto).
    destruct (nearest_hops P W _ _ _ Hn) as [_ Hh]. pose proof (hops_nonneg P SM OF _ _ _ Hh). lia. }
  set (t' := fun x => if Nat.eqb x d then t (sc_src c) + chan_delay ns c else t x).
  assert (Td : t' d = t (sc_src c) + chan_delay ns c) by (unfold t'; rewrite Nat.eqb_refl; reflexivity).
  assert (To : forall x, x <> d -> t' x = t x) by (intros x Hx; unfold t'; destruct (Nat.eqb_spec x d); [contradiction|reflexivity]).
  assert (Ts : forall c', c' ∈ cs -> t' (sc_src c') = t (sc_src c')) by (intros c' Hc'; apply To, So, Hc').
  assert (St : lp_schedule_of ns cs t').
  { split; [split|split].
    - intro x. destruct (Nat.eq_dec x d) as [->|Hx]; [rewrite Td; specialize (F1 (sc_src c)); lia|rewrite To by assumption; apply F1].
    - intros c' Hc'. rewrite Ts by assumption. destruct (Nat.eq_dec (sc_tgt c') d) as [E|Hx].
      + rewrite E, Td. destruct (Un c' Hc' E) as [E1 E2]. unfold chan_delay. rewrite E1, E2. lia.
      + rewrite To by assumption. apply F2. assumption.
    - intros n Hn Hi. rewrite To; [apply F3; assumption|]. intro E. destruct (C2 n Hn) as (k & ty & l & a & Dn & _).
      destruct (wp_con P W _ _ Hd) as (sc & nm & k' & ty' & l' & a' & Dd). rewrite E in Dn.
      pose proof (def_unique _ _ _ _ _ _ _ _ _ _ _ _ (wp_defs P W) Dd Dn) as Y. injection Y as Y _ _ _ _. rewrite Y in Hi. discriminate.
    - intros c' Hc'. rewrite Ts by assumption. destruct (Nat.eq_dec (sc_tgt c') d) as [E|Hx].
      + rewrite E, Td. destruct (Un c' Hc' E) as [E1 E2]. rewrite E1. lia.
      + rewrite To by assumption. apply F4. assumption. }
  specialize (Mn t' St). enough (total_distance cs t' < total_distance cs t) by lia.
  apply (dist_lt _ _ _ c); [|assumption|rewrite Et, Td, Ts by assumption; lia].
  intros c' Hc'. rewrite Ts by assumption. destruct (Nat.eq_dec (sc_tgt c') d) as [E|Hx].
  - rewrite E, Td. destruct (Un c' Hc' E) as [E1 E2]. rewrite E1. lia.
  - rewrite To by assumption. lia.
Qed.

Theorem linear_pass_stream solve cfg order P Q L :
  trusted_solver solve cfg P ->
  wfp P -> small_offsets P -> narrow P -> outputs_safe P -> connects_back P ->
  (forall bs, order bs ≡ₚ bs) ->
  linear_pass solve cfg order P = Some (Q, L) ->
  exists D : nat -> Z,
    (exists ns cs, sgraph (apply_config cfg P) = Some (ns, cs) /\ lp_schedule_of ns cs D /\
       (forall t, lp_schedule_of ns cs t -> total_distance cs D <= total_distance cs t) /\
       exists bs, lp_schedule solve ns cs = Some bs /\ realises ns cs D bs /\ (forall c z, (c, z) ∈ bs -> 0 < z)) /\
    forall V (I : interp V) h, circuit I Q h ->
      forall d s i x, Con d s ∈ P -> 0 <= i -> dval I P d i x -> h d (i + D d) = x.
Proof.
  intros TS W SM NR OS CB PM E. unfold linear_pass in E.
  set (P1 := apply_config cfg P) in *.
  assert (W1 := cfg_wfp cfg P W). fold P1 in W1.
  assert (NR1 := cfg_narrow cfg P NR). assert (SM1 := cfg_small cfg P SM). assert (CB1 := cfg_back cfg P CB).
  destruct (sgraph P1) as [[ns cs]|] eqn:EG; [|discriminate].
  destruct (lp_schedule solve ns cs) as [bs|] eqn:EL; [|discriminate].
  destruct (insert_buffers P1 (order bs) (fresh P1)) as [P2|] eqn:EI; [|discriminate].
  injection E as <- <-. pose proof EL as EL0. unfold lp_schedule in EL.
  destruct (lp_build ns cs) as [[[p nm] l]|] eqn:EB; [|discriminate].
  destruct (TS ns cs p nm l EG EB) as [SS CSo].
  assert (OD := sgraph_ordered P1 W1 ns cs EG).
  assert (exists x, solve p = (Solved, x)) as (x & Es).
  { destruct (lp_feasible P1 W1 ns cs EG CB1) as (t & Ht).
    pose proof (pt_point ns cs OD p nm l EB _ (schedule_inj ns cs t Ht)) as Pt. apply CSo in Pt.
    destruct (solve p) as [st x]. cbn in Pt. subst st. eauto. }
  rewrite Es in EL. destruct (SS _ Es) as [HV0 HO]. assert (HV := vertex_integer ns cs OD p nm l EB x HV0).
  assert (St := start_schedule P1 W1 ns cs EG p nm l EB x HV).
  destruct (lp_realises P1 W1 NR1 ns cs EG p nm l EB x HV bs EL) as [RL0 BD0].
  assert (Ps := lp_positive P1 W1 ns cs EG p nm l EB x HV bs EL).
  assert (Mn := start_optimal P1 W1 ns cs EG p nm l EB x HV HO).
  set (m := start ns nm x) in *.
  assert (L0 := lp_build_lat _ _ _ EB).
  assert (RL : realises ns cs m (order bs)).
  { destruct RL0 as [A B]. split; [intros c z H; rewrite PM in H; eauto|]. intros c Hc Hk.
    destruct (B c Hc Hk) as [X|[X Y]]; [left; rewrite PM; exact X|right]. split; [exact X|]. intros y Hy. rewrite PM in Hy. exact (Y y Hy). }
  assert (BD : NoDup (map fst (order bs))) by (rewrite (PM bs); exact BD0).
  exists m. split; [exists ns, cs; eauto 10|].
  intros V I h C d s i y Hc Hi Dv.
  eapply (scheduled_stream cfg P ns cs m (order bs) P2 W SM NR EG (proj1 (proj1 St)) L0); [|exact RL|exact BD|exact EI| |exact C|exact Hc|exact Hi|exact Dv].
  - intros v name k t l' a H. apply (cfg_def cfg) in H as (l2 & H).
    pose proof (node_in P1 W1 ns cs EG _ _ _ _ _ _ H ltac:(discriminate)) as X. exact (proj1 (proj2 St) _ X eq_refl).
  - intros d' v' H Hr. destruct OS as [O|O]; [exfalso; eapply O; eassumption|].
    apply (cfg_con cfg) in H. fold P1 in H.
    destruct (construct_spec P1 W1 P1 [] ns cs ltac:(auto) EG) as (_ & _ & _ & _ & C5 & _).
    destruct (B_con P1 W1 NR1 ns cs m (order bs) EG RL BD d' v' H) as (s' & off & _ & _ & EBc).
    destruct (C5 d' v' H) as (s2 & off2 & Hn & Hch). { rewrite (con_of_con P1 d' v' (wp_dests P1 W1) H). eauto. }
    destruct (node_is_const ns s2) eqn:Ek.
    + apply (B_const ns cs m (order bs) RL). intros c Hcc Ht Hix.
      destruct (construct_spec P1 W1 P1 [] ns cs ltac:(auto) EG) as (_ & _ & C3 & _). destruct (C3 c Hcc) as (st & Hst & Hco).
      destruct Hco as [r o k ty l' args i' a Ho Ha Hn' Ht' Hi'|d1 v1 sc nm' Hop Hn' Ht' Hi'].
      { exfalso. eapply (def_not_con P1 W1); [exact Hst|exact Ho|]. rewrite <- Ht', Ht. exact H. }
      assert (v1 = v') as -> by (eapply con_unique; [apply (wp_dests P1 W1)|exact Hst|rewrite <- Ht', Ht; exact H]). congruence.
    + pose proof (B_chan P1 W1 NR1 ns cs m (order bs) EG RL BD _ Hch Ek) as X. cbn [sc_tgt sc_ind] in X. rewrite X.
      assert (X2 := minimal_outputs P1 ns cs m W1 SM1 EG CB1 L0).
      rewrite (X2 ltac:(intros v e k t l' a Hd; apply cfg_def_inv in Hd as (l2 & Hd); eapply O; exact Hd) St Mn d' v' _ H Hch eq_refl). cbn. lia.
Qed.

(** ** Balance *)
Lemma realises_balanced ns cs m bs buf : realises ns cs m bs -> NoDup (map fst bs) ->
  (forall c, c ∈ cs -> node_is_const ns (sc_src c) = false -> buf_of bs c (buf c)) ->
  forall a b z, bpath ns cs buf a b z -> z = m b - m a.
Proof.
  intros [B1 B2] ND HB a b z Hp. induction Hp as [|b z c Hp IH Hc Es Nc]; [lia|].
  rewrite <- Es in Nc. pose proof (HB c Hc Nc) as Hb. pose proof (B2 c Hc Nc) as Hb'.
  assert (U : forall (l : list (schan * Z)) u v, NoDup (map fst l) -> (c, u) ∈ l -> (c, v) ∈ l -> u = v).
  { clear. induction l as [|[c' y] l IH]; intros u v ND H1 H2; [inversion H1|]. cbn in ND. apply NoDup_cons in ND as [N1 N2].
    apply elem_of_cons in H1 as [H1|H1], H2 as [H2|H2].
    - congruence.
    - injection H1 as -> ->. exfalso. apply N1. apply elem_of_list_fmap. exists (c', v). auto.
    - injection H2 as -> ->. exfalso. apply N1. apply elem_of_list_fmap. exists (c', u). auto.
    - eauto. }
  assert (buf c = m (sc_tgt c) - (m (sc_src c) + chan_delay ns c)) as E.
  { destruct Hb as [Hb|[Z0 Hb]], Hb' as [Hb'|[Z1 Hb']].
    - eapply U; eassumption.
    - exfalso. exact (Hb' _ Hb).
    - exfalso. exact (Hb _ Hb').
    - rewrite Z0. lia. }
  rewrite E, Es, IH. lia.
Qed.

Theorem lp_solution_balanced P ns cs p nm l x bs : wfp P -> narrow P -> sgraph P = Some (ns, cs) ->
  lp_build ns cs = Some (p, nm, l) -> lp_integral p x -> lp_buffers ns (results p x) l = Some bs ->
  (forall c z, (c, z) ∈ bs -> 0 < z) /\
  forall buf, (forall c, c ∈ cs -> node_is_const ns (sc_src c) = false -> buf_of bs c (buf c)) ->
  forall a a' b z z', bpath ns cs buf a b z -> bpath ns cs buf a' b z' ->
    (a = a' \/ forall n, n ∈ [a; a'] -> exists nd, nd ∈ ns /\ s_id nd = n /\ is_input (s_op nd) = true) -> z = z'.
Proof.
  intros W NR EG EB HV EL. split; [exact (lp_positive P W ns cs EG p nm l EB x HV bs EL)|].
  destruct (lp_realises P W NR ns cs EG p nm l EB x HV bs EL) as [RL BD].
  intros buf HB a a' b z z' H H' Ha.
  apply (realises_balanced _ _ _ _ _ RL BD HB) in H. apply (realises_balanced _ _ _ _ _ RL BD HB) in H'.
  enough (start ns nm x a = start ns nm x a') by lia. destruct Ha as [->|Ha]; [reflexivity|].
  destruct (start_schedule P W ns cs EG p nm l EB x HV) as (_ & Hi & _).
  destruct (Ha a ltac:(left)) as (n1 & N1 & <- & I1). destruct (Ha a' ltac:(right; left)) as (n2 & N2 & <- & I2).
  rewrite (Hi n1 N1 I1), (Hi n2 N2 I2). reflexivity.
Qed.

(** the objective of the program is the total distance *)
Theorem lp_objective P ns cs p nm l x : wfp P -> sgraph P = Some (ns, cs) -> lp_build ns cs = Some (p, nm, l) -> lp_integral p x ->
  exists t, lp_schedule_of ns cs t /\ (forall n, n ∈ ns -> (x (col_of nm (s_id n)) == inject_Z (t (s_id n)))%Q) /\
    (lp_value p x == inject_Z (total_distance cs t))%Q.
Proof.
  intros W EG EB HV. exists (start ns nm x). assert (OD := sgraph_ordered P W ns cs EG).
  split; [exact (start_schedule P W ns cs EG p nm l EB x HV)|].
  split.
  - intros n Hn. eapply start_eq; [exact W|exact EG|exact EB|exact HV|]. apply elem_of_list_fmap. eauto.
  - rewrite (value_pt ns cs p nm l EB x (proj1 HV)).
    rewrite <- (dist_perm _ _ _ (oc_perm P W ns cs EG)), <- sumq_z. apply sumq_ext.
    intros c Hc. rewrite (oc_perm P W ns cs EG) in Hc. split; (eapply start_eq; [exact W|exact EG|exact EB|exact HV|]); [apply (od_tgt _ _ OD)|apply (od_src _ _ OD)]; exact Hc.
Qed.

(** a trusted solver is never asked to solve the impossible *)
Theorem lp_solved P ns cs p nm l s : wfp P -> connects_back P -> sgraph P = Some (ns, cs) -> lp_build ns cs = Some (p, nm, l) ->
  (exists x, lp_point p x) /\ (complete_on s p -> fst (s p) = Solved).
Proof.
  intros W CB EG EB. assert (OD := sgraph_ordered P W ns cs EG).
  destruct (lp_feasible P W ns cs EG CB) as (t & Ht).
  pose proof (pt_point ns cs OD p nm l EB _ (schedule_inj ns cs t Ht)) as Pt. split; [eauto|]. intro C. eapply C; exact Pt.
Qed.

Section Flow.
Variables (F : fltops) (h : list icmd) (w : world) (order : list nat).
Hypothesis R : irun F init_world h = Ok w.
Hypothesis D : idisciplined F init_world h.
Context {kern : nat}.
Hypothesis K : only_kernel w kern.
Hypothesis C : complete w kern.
Hypothesis S : sorts w kern order.
Theorem kernel_linear solve cfg perm P Q L :
  schedulable w -> build w order = Ok P -> trusted_solver solve cfg P -> (forall bs, perm bs ≡ₚ bs) ->
  linear_pass solve cfg perm P = Some (Q, L) ->
  exists Dl : nat -> Z,
    (exists ns cs, sgraph (apply_config cfg P) = Some (ns, cs) /\ lp_schedule_of ns cs Dl /\
       forall t, lp_schedule_of ns cs t -> total_distance cs Dl <= total_distance cs t) /\
    forall V (I : interp V) sig, circuit I Q sig ->
      forall d nd i x, w_nodes w !! d = Some nd -> n_op nd = OUT -> 0 <= i -> kval I w d i x -> sig d (i + Dl d) = x.
Proof.
  intros SK E TS PM A. destruct (kernel_schedulable F h w order R D K C S P SK E) as (WP & CB & SO & NR & OS & OC & OD).
  destruct (linear_pass_stream solve cfg perm P Q L TS WP SO NR OS CB PM A) as (Dl & (ns & cs & D1 & D2 & D3 & _) & D4).
  destruct (kernel_translates F h w order R D K C S) as (P' & E' & _ & _ & KD). rewrite E in E'. injection E' as <-.
  exists Dl. split; [eauto 10|].
  intros V I sig Ci d nd i x H Ho Hi Kv. destruct (OC d nd H Ho) as (s & Hs). eapply D4; [exact Ci|exact Hs|exact Hi|].
  apply KD; [eauto|exact Kv].
Qed.
End Flow.
