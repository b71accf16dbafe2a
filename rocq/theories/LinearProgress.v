(** The linear scheduler completes on every well-formed program of bounded size (proofs). *)
From Coq Require Import ZArith Bool QArith Qround Lqa Lia String.
From stdpp Require Import list list_numbers.
From Verif Require Import Types Value Graph Dfcir StreamSpec Sched SchedSpec SchedProofs DfcirProofs SchedStream SchedMain SchedFinal SchedProgress
     Linear LinearSpec LinearProofs LinearMain LinearFinal.
Local Open Scope Z_scope.
Local Arguments nearest : simpl never.

Lemma lp_nodes_progress : forall ns col, (forall n, n ∈ ns -> 0 <= s_lat n) -> exists r, lp_nodes ns col = Some r.
Proof.
  induction ns as [|n ns IH]; intros col H; cbn; [eauto|]. destruct (Z.ltb_spec (s_lat n) 0) as [X|_]; [pose proof (H n ltac:(left)); lia|].
  destruct (IH (S col)) as ([[nm k] col'] & ->); [intros; apply H; right; assumption|]. eauto.
Qed.
Lemma lp_chans_progress ns nm : forall cs col, (forall c, c ∈ cs -> - 2 ^ 31 <= chan_delay ns c < 2 ^ 31) -> exists r, lp_chans ns nm cs col = Some r.
Proof.
  induction cs as [|c cs IH]; intros col H; cbn; [eauto|]. pose proof (H c ltac:(left)) as X. unfold chan_delay in X. rewrite i32_ok by exact X.
  destruct (IH (S (S col))) as ([[l k] col'] & ->); [intros; apply H; right; assumption|]. eauto.
Qed.
Lemma trunc_ok q z : (q == inject_Z z)%Q -> - 2 ^ 31 <= z < 2 ^ 31 -> trunc q = Some z.
Proof.
  intros H R. unfold trunc. unfold Qeq in H. cbn in H. rewrite Z.mul_1_r in H. rewrite H. rewrite Z.quot_mul by lia. apply i32_ok, R.
Qed.

Section Lp.
Variable P : program.
Hypothesis WF : wfp P.
Variables (ns : list snode) (cs : list schan).
Hypothesis EG : sgraph P = Some (ns, cs).
Let OD := sgraph_ordered P WF ns cs EG.
Variables (p : lp) (nm : list (nat * nat)) (l : list (schan * nat * nat)).
Hypothesis EB : lp_build ns cs = Some (p, nm, l).
Variable x : nat -> Q.
Hypothesis HV : lp_vertex p x.
Let HI := vertex_integer ns cs OD p nm l EB x HV.
Let t := start ns nm x.
Variable M : Z.
Hypothesis M0 : 0 <= M.
Hypothesis HM : forall c, c ∈ cs -> chan_delay ns c <= M.

(** ** A corner has no wide gap between start times *)
Lemma no_gap a : - M <= a -> (forall n, n ∈ ns -> t (s_id n) <= a \/ a + M < t (s_id n)) -> forall n, n ∈ ns -> t (s_id n) <= a.
Proof.
  intros Ha G n0 Hn0. destruct (G n0 Hn0) as [|U]; [assumption|exfalso].
  pose proof (start_schedule P WF ns cs EG p nm l EB x HI) as ((T0 & TC) & TI & TM). fold t in T0, TC, TI, TM.
  set (chi := fun v => if a + M <? t v then 1 else 0).
  assert (G' : forall v, v ∈ map s_id ns -> t v <= a /\ chi v = 0 \/ a + M < t v /\ chi v = 1).
  { intros v Hv. apply elem_of_list_fmap in Hv as (n & -> & Hn). unfold chi. destruct (Z.ltb_spec (a + M) (t (s_id n))); [auto|]. destruct (G n Hn); [auto|lia]. }
  assert (HS : forall s, s = 1 \/ s = -1 -> lp_schedule_of ns cs (fun v => t v + s * chi v)).
  { intros s Hs. split; [split|split].
    - intro v. pose proof (T0 v). unfold chi. destruct (Z.ltb_spec (a + M) (t v)); destruct Hs as [-> | ->]; lia.
    - intros c Hc. pose proof (TC c Hc). pose proof (HM c Hc). pose proof (TM c Hc). destruct (G' _ (od_tgt _ _ OD c Hc)) as [[A B]|[A B]], (G' _ (od_src _ _ OD c Hc)) as [[A' B']|[A' B']]; rewrite B, B'; destruct Hs as [-> | ->]; lia.
    - intros n Hn Hi. pose proof (TI n Hn Hi). unfold chi. destruct (Z.ltb_spec (a + M) (t (s_id n))); lia.
    - intros c Hc. pose proof (TM c Hc). destruct (G' _ (od_tgt _ _ OD c Hc)) as [[A B]|[A B]], (G' _ (od_src _ _ OD c Hc)) as [[A' B']|[A' B']]; rewrite B, B'; destruct Hs as [-> | ->]; lia. }
  pose proof (pt_point ns cs OD p nm l EB _ (schedule_inj ns cs _ (HS 1 ltac:(auto)))) as P1.
  pose proof (pt_point ns cs OD p nm l EB _ (schedule_inj ns cs _ (HS (-1) ltac:(auto)))) as P2.
  destruct (point_schedule ns cs OD p nm l EB x (proj1 HV)) as [_ SP].
  assert (ST : forall v, v ∈ map s_id ns -> (x (col_of nm v) == inject_Z (t v))%Q) by exact (start_eq P WF ns cs EG p nm l EB x HI).
  apply elem_of_list_lookup in Hn0 as (i0 & Hi0).
  assert (Ri : (1 <= S i0 <= lp_cols p)%nat).
  { destruct (build_spec ns cs p nm l EB) as (_ & _ & -> & _). apply lookup_lt_Some in Hi0. lia. }
  assert (AV : forall i, (1 <= i <= lp_cols p)%nat -> (x i == (pt ns cs (fun v => inject_Z (t v + 1 * chi v)) i + pt ns cs (fun v => inject_Z (t v + -1 * chi v)) i) / 2)%Q).
  { intros i Hi. rewrite (SP i Hi). destruct (col_cases ns cs p nm l EB i Hi) as [(k & n & En & ->)|(j & c & Ec & [->| ->])].
    - rewrite !(pt_node ns cs _ _ _ En). rewrite ST by (apply elem_of_list_fmap; exists n; split; [reflexivity|eapply elem_of_list_lookup_2; exact En]). rewrite !inject_Z_plus, !inject_Z_mult. change (inject_Z 1) with 1%Q. change (inject_Z (-1)) with (-1)%Q. field.
    - assert (Hc : c ∈ cs) by (apply (oc_elem ns cs OD); eapply elem_of_list_lookup_2; exact Ec).
      rewrite !(pt_delta ns cs _ _ _ Ec), !ST by (apply (od_src _ _ OD) + apply (od_tgt _ _ OD); assumption). rewrite !inject_Z_plus, !inject_Z_mult. change (inject_Z 1) with 1%Q. change (inject_Z (-1)) with (-1)%Q. field.
    - assert (Hc : c ∈ cs) by (apply (oc_elem ns cs OD); eapply elem_of_list_lookup_2; exact Ec).
      rewrite !(pt_buf ns cs _ _ _ Ec), !ST by (apply (od_src _ _ OD) + apply (od_tgt _ _ OD); assumption). rewrite !(inject_Z_plus (t _)), !inject_Z_mult. change (inject_Z 1) with 1%Q. change (inject_Z (-1)) with (-1)%Q. field. }
  pose proof (proj2 HV _ _ P1 P2 AV (S i0) Ri) as V. rewrite (SP _ Ri), !(pt_node ns cs _ _ _ Hi0) in V.
  rewrite ST in V by (apply elem_of_list_fmap; exists n0; split; [reflexivity|eapply elem_of_list_lookup_2; exact Hi0]).
  rewrite inject_Z_injective in V. unfold chi in V. destruct (Z.ltb_spec (a + M) (t (s_id n0))); lia.
Qed.

(** so start times grow by at most [M] per node *)
Definition low (a : Z) : list snode := List.filter (fun n => t (s_id n) <=? a) ns.
Lemma low_mono (f g : snode -> bool) (k : list snode) n : (forall n, f n = true -> g n = true) -> n ∈ k -> f n = false -> g n = true ->
  (length (List.filter f k) < length (List.filter g k))%nat.
Proof.
  intros FG. assert (LE : forall k, (length (List.filter f k) <= length (List.filter g k))%nat).
  { intro k0. induction k0 as [|m k' IH]; cbn [List.filter length]; [apply le_n|]. destruct (f m) eqn:Em; [rewrite (FG m Em); cbn [length]; lia|]. destruct (g m); cbn [length]; lia. }
  induction k as [|m k IH]; intros H Fn Gn; [inversion H|]. apply elem_of_cons in H as [<-|H].
  - cbn. rewrite Fn, Gn. cbn. pose proof (LE k). lia.
  - specialize (IH H Fn Gn). cbn. destruct (f m) eqn:Em; [rewrite (FG m Em); cbn; lia|]. destruct (g m); cbn; lia.
Qed.
Lemma low_count : forall k n, n ∈ ns -> (Z.of_nat k - 1) * M < t (s_id n) -> (k <= length (low ((Z.of_nat k - 1) * M)))%nat.
Proof.
  induction k as [|k IH]; intros n Hn Ht; [lia|].
  assert (E : (Z.of_nat (S k) - 1) * M = (Z.of_nat k - 1) * M + M) by lia. rewrite E in *.
  specialize (IH n Hn ltac:(lia)). set (a := (Z.of_nat k - 1) * M) in *.
  destruct (List.existsb (fun m => negb (t (s_id m) <=? a) && (t (s_id m) <=? a + M)) ns) eqn:EX.
  - apply List.existsb_exists in EX as (m & Hm & Em). apply elem_of_list_In in Hm. apply andb_true_iff in Em as [E1 E2]. apply negb_true_iff in E1.
    pose proof (low_mono (fun n => t (s_id n) <=? a) (fun n => t (s_id n) <=? a + M) ns m ltac:(intros y Hy; apply Z.leb_le in Hy; apply Z.leb_le; lia) Hm E1 E2). unfold low in *. lia.
  - exfalso. assert (X : t (s_id n) <= a); [|lia]. apply (no_gap a); [unfold a; nia| |exact Hn]. intros m Hm. destruct (Z.leb_spec (t (s_id m)) a); [auto|]. right.
    destruct (Z.leb_spec (t (s_id m)) (a + M)); [|assumption]. exfalso. assert (Y : List.existsb (fun m => negb (t (s_id m) <=? a) && (t (s_id m) <=? a + M)) ns = true); [|congruence].
    apply List.existsb_exists. exists m. split; [apply elem_of_list_In; exact Hm|]. apply andb_true_iff. split; [apply negb_true_iff, Z.leb_gt; assumption|apply Z.leb_le; assumption].
Qed.
Lemma corner_bounded n : n ∈ ns -> t (s_id n) <= (Z.of_nat (length ns) - 1) * M.
Proof.
  intro Hn. destruct (Z.le_gt_cases (t (s_id n)) ((Z.of_nat (length ns) - 1) * M)) as [|H]; [assumption|exfalso].
  pose proof (low_count _ n Hn H) as L. set (a := (Z.of_nat (length ns) - 1) * M) in *.
  pose proof (low_mono (fun n => t (s_id n) <=? a) (fun _ => true) ns n ltac:(auto) Hn ltac:(apply Z.leb_gt; exact H) eq_refl) as X.
  assert (Y : forall k : list snode, length (List.filter (fun _ => true) k) = length k) by (induction k; cbn; auto). rewrite Y in X. unfold low in L. lia.
Qed.

Lemma lp_buffers_progress B : (forall c, c ∈ cs -> - B <= chan_delay ns c) -> 0 <= B -> (Z.of_nat (length ns) - 1) * M + B < 2 ^ 31 -> exists bs, lp_buffers ns (results p x) l = Some bs.
Proof.
  intros HB B0 FIT. destruct (build_spec ns cs p nm l EB) as (_ & _ & Ec & Ll & Hl & _ & HC).
  destruct (proj1 HV) as [P1 P2]. apply HC in P2 as [_ P2]. set (oc := lp_order ns cs) in *.
  pose proof (start_schedule P WF ns cs EG p nm l EB x HI) as ((T0 & TC) & TI & TM). fold t in T0, TC, TI, TM.
  assert (ST : forall v, v ∈ map s_id ns -> (x (col_of nm v) == inject_Z (t v))%Q) by exact (start_eq P WF ns cs EG p nm l EB x HI).
  assert (V : forall c d b, (c, d, b) ∈ l -> (1 <= b <= lp_cols p)%nat /\ exists z, trunc (x b) = Some z).
  { intros c d b H. apply elem_of_list_lookup in H as (j & H).
    destruct (lookup_lt_is_Some_2 oc j) as (c' & E'); [apply lookup_lt_Some in H; lia|].
    pose proof (Hl _ _ E') as H'. rewrite H in H'. injection H' as <- -> ->. apply lookup_lt_Some in E' as L'. split; [unfold oc in *; lia|].
    destruct (P2 j c E' _ _ eq_refl eq_refl) as (_ & _ & A & _).
    assert (Hc : c ∈ cs) by (apply (oc_elem ns cs OD); eapply elem_of_list_lookup_2; exact E').
    exists (t (sc_tgt c) - (t (sc_src c) + chan_delay ns c)). apply trunc_ok.
    - rewrite A. rewrite !ST by (apply (od_src _ _ OD) + apply (od_tgt _ _ OD); assumption).
      unfold Qminus. rewrite <- !inject_Z_opp, <- !inject_Z_plus. unfold chan_delay. apply inject_Z_injective. lia.
    - pose proof (TC c Hc). pose proof (T0 (sc_src c)). pose proof (HB c Hc). pose proof (od_tgt _ _ OD c Hc) as Hg. apply elem_of_list_fmap in Hg as (n & En & Hn). pose proof (corner_bounded n Hn). rewrite <- En in *. lia. }
  assert (G : forall r, (forall e, e ∈ r -> e ∈ l) -> exists bs, lp_buffers ns (results p x) r = Some bs).
  { induction r as [|[[c d] b] r IH]; intro Hr; cbn [lp_buffers]; [eauto|]. destruct (V c d b (Hr _ ltac:(left))) as (Rb & z & Ez).
    assert (RA : results p x !! (b - 1)%nat = Some (x b)) by (unfold results; rewrite list_lookup_fmap, lookup_seq_lt by lia; cbn; do 2 f_equal; lia).
    rewrite RA, Ez. destruct IH as (bs & ->); [intros; apply Hr; right; assumption|]. destruct (_ && _); eauto. }
  apply G. auto.
Qed.
End Lp.

(** every requested buffer names an existing operand or connect *)
Lemma chan_good P ns cs c : wfp P -> narrow P -> sgraph P = Some (ns, cs) -> c ∈ cs -> node_is_const ns (sc_src c) = false ->
  (sc_tgt c < fresh P)%nat /\ (forall d k t l a, Def (sc_tgt c) (DOffset d) k t l a ∉ P) /\
     ((0 <= sc_ind c /\ exists o k t l a, Def (sc_tgt c) o k t l a ∈ P /\ (Z.to_nat (sc_ind c) < length a)%nat) \/
      (sc_ind c = -1 /\ exists v, Con (sc_tgt c) v ∈ P)).
Proof.
  intros WF NR EG Hc Nc.
  assert (Hfr : forall o k t l a, Def (sc_tgt c) o k t l a ∈ P -> (sc_tgt c < fresh P)%nat).
  { intros. apply (fresh_spec P). eexists. split; [eassumption|]. left. }
  destruct (construct_spec P WF P [] ns cs ltac:(auto) EG) as (_ & _ & C3 & _).
  destruct (C3 c Hc) as (st & Hst & Hco).
  destruct Hco as [r o k t l args i a Ho Ha Hn Ht Hi|d v sc nm Hop Hn Ht Hi].
  - subst r. split; [eapply Hfr; exact Hst|]. split.
    { intros d k' t' l' a' X. pose proof (def_unique _ _ _ _ _ _ _ _ _ _ _ _ (wp_defs P WF) Hst X) as Y. injection Y as <- _ _ _ _. discriminate. }
    left. pose proof (narrow' P WF NR ns cs EG _ _ _ _ _ _ _ _ _ _ Hst Ho Ha Hn Nc) as L. rewrite Hi, wrap8_small by exact L.
    split; [lia|]. exists o, k, t, l, args. split; [exact Hst|]. rewrite Nat2Z.id. eapply lookup_lt_Some. exact Ha.
  - subst d. destruct (wp_con P WF _ _ Hst) as (sc' & nm' & k & t & l & a & HD). split; [eapply Hfr; exact HD|]. split.
    { eapply not_off_con; [exact WF|exact Hst]. }
    right. eauto.
Qed.

Theorem linear_pass_completes solve cfg order P Lm M :
  trusted_solver solve cfg P -> wfp P -> connects_back P -> narrow P -> bounded cfg P Lm M -> (forall bs, order bs ≡ₚ bs) ->
  exists Q, linear_pass solve cfg order P = Some (Q, 0).
Proof.
  intros TS WF CB NR [B1 B2 B3 B4 B5] PM. unfold linear_pass. unfold trusted_solver in TS. set (P1 := apply_config cfg P) in *.
  assert (WF1 := cfg_wfp cfg P WF). assert (CB1 := cfg_back cfg P CB). assert (NR1 := cfg_narrow cfg P NR).
  fold P1 in WF1, CB1, NR1.
  assert (O1 : forall v d k t l a, Def v (DOffset d) k t l a ∈ P1 -> - M <= d <= M).
  { intros v d k t l a H. apply cfg_def_inv in H as (l' & H). eauto. }
  assert (A1 : forall v o k t l a, Def v o k t l a ∈ P1 -> is_scheduled o = true -> 0 <= l <= Lm).
  { intros v o k t l a H Hs. unfold P1, apply_config in H. apply elem_of_list_fmap in H as (st & E & H). destruct st as [r o' k' t' l' a'|]; [|discriminate].
    injection E as -> -> -> -> -> ->. rewrite Hs. unfold config_latency. destruct (cfg (op_class o' t')) as [x|] eqn:Ex; [eapply B1; exact Ex|lia]. }
  assert (Fit : Z.of_nat (length P1) * (Lm + Z.of_nat (length P1) * M) < 2 ^ 31).
  { unfold P1, apply_config. rewrite map_length. exact B5. }
  destruct (sgraph_progress P1 WF1 CB1 M Lm B4 B2 O1 Fit) as (ns & cs & EG). rewrite EG.
  pose proof (sgraph_ordered P1 WF1 ns cs EG) as OD.
  assert (LT : forall n, n ∈ ns -> 0 <= s_lat n <= Lm) by (intros n Hn; apply (nodes_lat P1 WF1 M Lm B2 A1 ns cs EG n Hn)).
  set (N := Z.of_nat (length P1)) in *.
  assert (NM0 : 0 <= N * M) by (apply Z.mul_nonneg_nonneg; [unfold N; lia|assumption]).
  assert (CD : forall c, c ∈ cs -> - (N * M) <= chan_delay ns c <= Lm + N * M).
  { intros c Hc. destruct (chan_fwd P1 WF1 CB1 M Lm B4 B2 O1 Fit ns cs EG c Hc) as (_ & _ & _ & X).
    unfold chan_delay, node_lat. destruct (List.find _ ns) as [n|] eqn:En; [apply List.find_some in En as [En _]; apply elem_of_list_In in En; pose proof (LT n En)|]; fold N in X; lia. }
  assert (LN : (length ns <= length P1)%nat).
  { pose proof (od_nd _ _ OD) as ND. transitivity (length (defs P1)); [|exact (defs_length P1 0 0 P1)]. rewrite <- (map_length s_id ns).
    apply submseteq_length. apply NoDup_submseteq; [exact ND|]. intros v Hv. apply elem_of_list_fmap in Hv as (n & -> & Hn). exact (proj2 (nodes_lat P1 WF1 M Lm B2 A1 ns cs EG n Hn)). }
  unfold lp_schedule.
  assert (EBX : exists p nm l, lp_build ns cs = Some (p, nm, l)).
  { unfold lp_build. destruct (lp_nodes_progress ns 1) as ([[nm k1] col] & ->); [intros n Hn; apply LT, Hn|].
    destruct (lp_chans_progress ns nm (lp_order ns cs) col) as ([[l k2] col'] & ->); [|eauto].
    intros c Hc. apply (oc_elem ns cs OD) in Hc. pose proof (CD c Hc).
    assert (1 <= N). { pose proof (od_tgt _ _ OD c Hc) as Hg. apply elem_of_list_fmap in Hg as (n & _ & Hn). destruct ns; [inversion Hn|]. cbn in LN. unfold N. lia. } nia. }
  destruct EBX as (p & nm & l & EB). rewrite EB. destruct (TS ns cs p nm l EG EB) as [SS CS].
  assert (exists x, solve p = (Solved, x)) as (x & Es).
  { pose proof (proj2 (lp_solved P1 ns cs p nm l solve WF1 CB1 EG EB) CS) as X. destruct (solve p) as [st x]. cbn in X. subst st. eauto. }
  rewrite Es. destruct (SS _ Es) as [HV _]. assert (HI := vertex_integer ns cs OD p nm l EB x HV).
  destruct (lp_buffers_progress P1 WF1 ns cs EG p nm l EB x HV (Lm + N * M) ltac:(lia) ltac:(intros c Hc; apply CD, Hc) (N * M) ltac:(intros c Hc; pose proof (CD c Hc); lia) NM0) as (bs & EBs).
  { assert (Z.of_nat (length ns) <= N) by (unfold N; lia). destruct (Z.eq_dec N 0) as [Z0|Z0]; [rewrite Z0 in *; nia|]. nia. }
  rewrite EBs. destruct (lp_realises P1 WF1 NR1 ns cs EG p nm l EB x HI bs EBs) as [RL BD].
  pose proof (lp_positive P1 WF1 ns cs EG p nm l EB x HI bs EBs) as Ps.
  assert (RL' : realises ns cs (start ns nm x) (order bs)).
  { destruct RL as [A B]. split; [intros c z H; rewrite PM in H; eauto|]. intros c Hc Hk.
    destruct (B c Hc Hk) as [X|[X Y]]; [left; rewrite PM; exact X|right]. split; [exact X|]. intros y Hy. rewrite PM in Hy. exact (Y y Hy). }
  assert (BD' : NoDup (map fst (order bs))) by (rewrite (PM bs); exact BD).
  destruct (insert_progress P1 (fresh P1) (order bs) (fun _ _ => 0) P1 (fresh P1)) as (P2 & E2).
  { apply buffered0; [exact WF1|]. apply fresh_defs. }
  { eapply bs_keys; [exact WF1|exact NR1|exact EG|exact RL'|exact BD']. }
  { intros c z Hc. rewrite PM in Hc. pose proof (Ps c z Hc) as X1. destruct (proj1 RL c z Hc) as [X5 X6].
    destruct (chan_good P1 ns cs c WF1 NR1 EG X5 X6) as (X2 & X3 & X4). auto. }
  rewrite E2. eauto.
Qed.
