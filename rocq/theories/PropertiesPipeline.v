(** * Property theorems: combinational pipelining. *)
From Coq Require Import ZArith Bool String QArith Lia.
From stdpp Require Import gmap list.
From Verif Require Import Instance InstanceSpec Types Word Value Graph GraphSpec GraphFacts BuilderTopo KernelSort TopSort
     Dfcir StreamSpec Sched SchedSpec SchedProofs DfcirProofs SchedStream SchedMain SchedFinal KernelSpec KernelFlow SchedProgress SchedFacts
     Pipeline PipelineSpec PipelineProofs PipelineMain PipelineFlow PipelineFacts PropertiesSched.
Local Open Scope Z_scope.

(** ** C27 *)
(** the layer of a node is the length of the longest chain of operands behind it *)
Theorem C27_layers :
  forall F h w order P ns cs m mx, built F h w order -> combinational w -> build w order = Ok P ->
  cgraph (apply_config cfg0 P) = Some (ns, cs) -> comb_layers ns cs = (m, mx) ->
  (forall v, (exists a, op_chain w a v (m v)) /\ forall a y, op_chain w a v y -> y <= m v) /\
  (forall a b, a ∈ operands w b -> m a < m b) /\
  (forall v, m v <= mx) /\ (mx = 0 \/ exists v, m v = mx).
Proof.
  intros F h w order P ns cs m mx (kern & R & D & K & C & S) CO EB EG EL.
  destruct (kernel_schedulable F h w order R D K C S P (comb_schedulable w CO) EB) as (W & CB & _).
  assert (W1 := cfg_wfp cfg0 P W). assert (EG' := cgraph_sgraph _ W1 (cfg0_lat P) ns cs EG).
  destruct (layers_spec ns cs (sgraph_ordered _ W1 ns cs EG') (back_no_self _ ns cs W1 (cfg_back cfg0 P CB) EG') m mx EL) as (A1 & A2 & A3 & A4).
  pose proof (chain_ops F h w order R D K C S P EB CO ns cs EG) as CH.
  split; [|split; [|split]].
  - intro v. destruct (A1 v) as [(a & _ & Ha) Hb]. split; [exists a; apply CH; exact Ha|]. intros a' y Hy. apply CH in Hy. exact (Hb a' y Hy).
  - intros a b H. apply (chan_operands F h w order R D K C S P EB CO ns cs EG) in H as (c & Hc & <- & <-). specialize (A2 c Hc). lia.
  - intro v. apply A3.
  - exact A4.
Qed.

(** the same for any graph the pass builds, in terms of its channels *)
Theorem C27_graphs :
  forall P ns cs m mx, wfp P -> connects_back P -> cgraph (apply_config cfg0 P) = Some (ns, cs) -> comb_layers ns cs = (m, mx) ->
  (forall v, depth cs v (m v)) /\ (forall c, c ∈ cs -> m (sc_src c) < m (sc_tgt c)).
Proof.
  intros P ns cs m mx W CB EG EL.
  assert (W1 := cfg_wfp cfg0 P W). assert (EG' := cgraph_sgraph _ W1 (cfg0_lat P) ns cs EG).
  destruct (layers_spec ns cs (sgraph_ordered _ W1 ns cs EG') (back_no_self _ ns cs W1 (cfg_back cfg0 P CB) EG') m mx EL) as (A1 & A2 & _).
  split; [exact A1|]. intros c Hc. specialize (A2 c Hc). lia.
Qed.

Example C27_case : exists w order ns cs m, built noflt0 (calls shl_h) w order /\ combinational w /\ build w order = Ok shl_P /\
  cgraph (apply_config cfg0 shl_P) = Some (ns, cs) /\ comb_layers ns cs = (m, 2) /\ m 7%nat = 2 /\ m 2%nat = 1 /\ m 1%nat = 0.
Proof.
  destruct (flow_check _ _ _ _ shl_flow) as (w & o & R & Di & K & C & S & B & Ou).
  apply andb_true_iff in Ou as [_ Co]. apply combinationalb_sound in Co.
  exists w, o. eexists _, _, _. split; [exact (ex_intro _ 0%nat (conj R (conj Di (conj K (conj C S)))))|]. split; [exact Co|]. split; [exact B|].
  split; [vm_compute; reflexivity|]. split; [cbv -[Z.add Z.ltb upd]; reflexivity|]. repeat split.
Qed.

(** ** C28 *)
(** whatever the rounding does, the cascade numbers are monotone in the layer, lie in
    [0 .. n-1], start at 0 and end at n-1 *)
Theorem C28_cascades :
  forall rnd eps n ls ks, cascades rnd eps n ls = Some ks ->
  length ks = length ls /\
  (forall i z, ks !! i = Some z -> 0 <= z <= n - 1) /\
  (forall i j z z', (i <= j)%nat -> ks !! i = Some z -> ks !! j = Some z' -> z <= z') /\
  ((2 <= length ls)%nat -> ks !! 0%nat = Some 0) /\
  ks !! (length ls - 1)%nat = Some (n - 1).
Proof. intros rnd eps n ls ks E. destruct (cascades_spec rnd eps n ls ks E) as (A & _ & B). exact (conj A B). Qed.

(** and the division completes if the first layer has weight 0 *)
Theorem C28_completes :
  forall rnd eps n ls, rounding rnd -> (0 < eps)%Q -> 0 < n -> ls <> [] -> (forall l, l ∈ ls -> (0 <= l)%Q) ->
  (forall l, ls !! 0%nat = Some l -> (l == 0)%Q) -> exists ks, cascades rnd eps n ls = Some ks.
Proof. intros rnd eps n ls RD EP. exact (cascades_complete rnd eps RD EP n ls). Qed.

(** 7 layers in 3 stages *)
Example C28_case : cascades exact_q feps 3 [0; 1; 1; 1; 1; 1; 0]%Q = Some [0; 0; 0; 1; 1; 2; 2].
Proof. vm_compute. reflexivity. Qed.

(** ** C29 *)
(** the pipelined circuit computes the kernel; a deepest output is late by exactly the
    number of stages *)
Theorem C29_circuit :
  forall F h w order rnd eps n perm P Q, built F h w order -> combinational w -> build w order = Ok P ->
  (forall bs, perm bs ≡ₚ bs) -> 0 < n < 2 ^ 31 -> comb_pass rnd eps n perm P = Some Q ->
  exists delay_of : nat -> Z,
    (forall d, 0 <= delay_of d <= n) /\
    (forall d nd, w_nodes w !! d = Some nd -> n_op nd = OUT -> deepest_node w d -> delay_of d = n) /\
    forall V (I : interp V) sig, circuit I Q sig ->
      forall d nd i x, w_nodes w !! d = Some nd -> n_op nd = OUT -> 0 <= i ->
        kval I w d i x -> sig d (i + delay_of d) = x.
Proof.
  intros F h w order rnd eps n perm P Q (kern & R & D & K & C & S) CO EB PM NB E.
  exact (kernel_pipelined F h w order R D K C S P EB CO rnd eps n perm Q PM NB E).
Qed.

(** all paths between two nodes cross the same number of registers, and paths from an
    operation that reads nothing to one on the last layer cross exactly [n] *)
Theorem C29_registers :
  forall rnd eps n perm P Q, wfp P -> narrow P -> connects_back P -> 0 < n < 2 ^ 31 ->
  comb_pass rnd eps n perm P = Some Q ->
  exists ns cs bs, cgraph (apply_config cfg0 P) = Some (ns, cs) /\
    insert_buffers (apply_config cfg0 P) (perm bs) (fresh (apply_config cfg0 P)) = Some Q /\
    (forall c z, (c, z) ∈ bs -> 0 < z) /\
    forall buf, (forall c, c ∈ cs -> node_is_const ns (sc_src c) = false -> buf_of bs c (buf c)) ->
    (forall a b z z', bpath ns cs buf a b z -> bpath ns cs buf a b z' -> z = z') /\
    (forall a b z, source cs a -> ~ source cs b -> deepest cs b -> bpath ns cs buf a b z -> z = n).
Proof. intros rnd eps n perm P Q W NR CB NB E. exact (comb_pass_paths rnd eps n perm P Q W NR CB NB E). Qed.

(** 0 stages: the program is unchanged and combinational *)
Theorem C29_zero_stages :
  forall F h w order rnd eps perm P, built F h w order -> combinational w -> build w order = Ok P ->
  comb_pass rnd eps 0 perm P = Some P /\
  forall V (I : interp V) sig, circuit I P sig ->
    forall d nd i x, w_nodes w !! d = Some nd -> n_op nd = OUT -> 0 <= i -> kval I w d i x -> sig d i = x.
Proof.
  intros F h w order rnd eps perm P (kern & R & D & K & C & S) CO EB. split; [reflexivity|].
  intros V I sig Ci d nd i x H Ho Hi Kv. destruct (kernel_translates F h w order R D K C S) as (P' & E' & _ & _ & KD). rewrite EB in E'. injection E' as <-.
  destruct (prog_facts F h w order R D K C S P EB CO) as (NO & _).
  eapply unpipelined; [exact NO| |exact Ci|apply KD; [eauto|exact Kv]|exact Hi].
  intros r o k t l a Hd. destruct (flow_facts F h w order R D K C S) as (W & DR & ND & LV & TO & NP).
  destruct (DfcirBuild.build_spec w order W DR ND LV TO NP) as (P' & E' & ED & WP & CB & DD & DC). rewrite EB in E'. injection E' as <-.
  apply DD in Hd as (_ & _ & ->). lia.
Qed.

Example C29_case : exists w order Q, built noflt0 (calls shl_h) w order /\ combinational w /\ build w order = Ok shl_P /\
  comb_pass exact_q feps 2 (fun b => b) shl_P = Some Q /\ Def 8 DLatency VStream (TFixed false 8 0) 2 [4%nat] ∈ Q.
Proof.
  destruct (flow_check _ _ _ _ shl_flow) as (w & o & R & Di & K & C & S & B & Ou).
  apply andb_true_iff in Ou as [_ Co]. apply combinationalb_sound in Co.
  exists w, o, shl_Q. split; [exact (ex_intro _ 0%nat (conj R (conj Di (conj K (conj C S)))))|]. split; [exact Co|]. split; [exact B|].
  split; [exact shl_pass|]. unfold shl_Q. rewrite !elem_of_cons. auto 10.
Qed.

(** ** C30 *)
(** two stages, a.connect(x); b.connect(x + x): [a] is not delayed at all *)
Theorem C30_refuted : exists F h w order P Q, built F h w order /\ combinational w /\ build w order = Ok P /\
  comb_pass exact_q feps 2 (fun b => b) P = Some Q /\
  exists (I : interp Z) sig d nd, circuit I Q sig /\ w_nodes w !! d = Some nd /\ n_op nd = OUT /\
    ~ (forall i x, 0 <= i -> kval I w d i x -> sig d (i + 2) = x).
Proof.
  destruct (flow_check _ _ _ _ shl_flow) as (w & o & R & Di & K & C & S & B & Ou).
  apply andb_true_iff in Ou as [Ou Co]. apply combinationalb_sound in Co. apply andb_true_iff in Ou as [Ou _]. apply out_at_sound in Ou as (nd & Hn & Ho).
  exists noflt0, (calls shl_h), w, o, shl_P, shl_Q. split; [exact (ex_intro _ 0%nat (conj R (conj Di (conj K (conj C S)))))|]. split; [exact Co|]. split; [exact B|].
  split; [exact shl_pass|]. exists sumI, shl_sig, 2%nat, nd. split; [exact shl_circuit|]. split; [exact Hn|]. split; [exact Ho|].
  intro H. destruct (kernel_translates noflt0 (calls shl_h) w o R Di K C S) as (P & B' & _ & _ & KD). rewrite B in B'. injection B' as <-.
  pose proof (H 0 0 ltac:(lia) ltac:(apply KD; [eauto|exact (shl_dval 0 ltac:(lia))])) as X. discriminate X.
Qed.

(** missing: outputs on a layer before the last one.  They are late by at most [n], by the
    same number of cycles in every cycle (C29_circuit). *)
Theorem C30_partial :
  forall F h w order rnd eps n perm P Q, built F h w order -> combinational w -> build w order = Ok P ->
  (forall bs, perm bs ≡ₚ bs) -> 0 < n < 2 ^ 31 -> comb_pass rnd eps n perm P = Some Q ->
  forall V (I : interp V) sig, circuit I Q sig ->
    forall d nd i x, w_nodes w !! d = Some nd -> n_op nd = OUT -> deepest_node w d -> 0 <= i ->
      kval I w d i x -> sig d (i + n) = x.
Proof.
  intros F h w order rnd eps n perm P Q B CO EB PM NB E V I sig Ci d nd i x H Ho Hd Hi Kv.
  destruct (C29_circuit F h w order rnd eps n perm P Q B CO EB PM NB E) as (Dl & _ & D2 & D3).
  rewrite <- (D2 d nd H Ho Hd). eapply D3; eassumption.
Qed.

(** ** C47 Combinational pipelining completes *)
(** a.connect(x); b.connect(a + x): the pass does not complete for any number of stages *)
Theorem C47_refuted : exists F h w order P, built F h w order /\ schedulable w /\ build w order = Ok P /\
  forall rnd eps n perm, 0 < n -> comb_pass rnd eps n perm P = None.
Proof.
  destruct (flow_check _ _ _ _ rdo_flow) as (w & o & R & Di & K & C & S & B & Sc). apply schedulableb_sound in Sc.
  exists noflt0, (calls rdo_h), w, o, rdo_P. split; [exact (ex_intro _ 0%nat (conj R (conj Di (conj K (conj C S)))))|]. split; [exact Sc|]. split; [exact B|].
  intros rnd eps n perm Hn. unfold comb_pass. destruct (Z.eqb_spec n 0); [lia|]. fold cfg0. rewrite rdo_graph. reflexivity.
Qed.

(** missing: kernels with offsets, or that read output variables *)
Theorem C47_partial :
  forall F h w order rnd eps n perm P, built F h w order -> combinational w -> build w order = Ok P ->
  rounding rnd -> (0 < eps)%Q -> (forall bs, perm bs ≡ₚ bs) -> 0 <= n < 2 ^ 31 -> Z.of_nat (length P) < 2 ^ 31 ->
  exists Q, comb_pass rnd eps n perm P = Some Q.
Proof.
  intros F h w order rnd eps n perm P (kern & R & D & K & C & S) CO EB. exact (kernel_pipeline_completes F h w order R D K C S P EB CO rnd eps n perm).
Qed.

(** one report for all theorems of this file *)
Definition PropertiesPipeline_theorems :=
  (C27_layers,
   C27_graphs,
   C28_cascades,
   C28_completes,
   C29_circuit,
   C29_registers,
   C29_zero_stages,
   C30_refuted,
   C30_partial,
   C47_refuted,
   C47_partial).
Print Assumptions PropertiesPipeline_theorems.
