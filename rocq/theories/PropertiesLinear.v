(** * Property theorems: the linear scheduler. *)
From Coq Require Import ZArith Bool String QArith Lia.
From stdpp Require Import gmap list.
From Verif Require Import Instance InstanceSpec Types Word Value Graph GraphSpec GraphFacts BuilderTopo KernelSort TopSort
     Dfcir StreamSpec Sched SchedSpec SchedProofs DfcirProofs SchedStream SchedMain SchedFinal KernelSpec KernelFlow SchedProgress SchedFacts SchedGraph
     Linear LinearSpec LinearProofs LinearMain LinearFinal LinearProgress LinearFacts PropertiesSched.
Local Open Scope Z_scope.

(** ** C24 *)
(** every corner of the solution set, which is what the simplex method returns, is integral *)
Theorem C24_corners_integral :
  forall P ns cs p nm l, wfp P -> sgraph P = Some (ns, cs) -> lp_build ns cs = Some (p, nm, l) ->
  forall x, lp_vertex p x -> lp_integral p x.
Proof. intros P ns cs p nm l W EG EB x. exact (vertex_integer ns cs (sgraph_ordered P W ns cs EG) p nm l EB x). Qed.

(** the buffers taken from an integral solution are positive and synchronise all operands *)
Theorem C24_synchronised :
  forall P ns cs p nm l x bs, wfp P -> narrow P -> sgraph P = Some (ns, cs) ->
  lp_build ns cs = Some (p, nm, l) -> lp_integral p x -> lp_buffers ns (results p x) l = Some bs ->
  (forall c z, (c, z) ∈ bs -> 0 < z) /\
  forall buf, (forall c, c ∈ cs -> node_is_const ns (sc_src c) = false -> buf_of bs c (buf c)) ->
  forall a a' b z z', bpath ns cs buf a b z -> bpath ns cs buf a' b z' ->
    (a = a' \/ forall n, n ∈ [a; a'] -> exists nd, nd ∈ ns /\ s_id nd = n /\ is_input (s_op nd) = true) -> z = z'.
Proof. exact lp_solution_balanced. Qed.

(** an integral solution is a schedule, and its value is the sum of the channel distances *)
Theorem C24_objective :
  forall P ns cs p nm l x, wfp P -> sgraph P = Some (ns, cs) -> lp_build ns cs = Some (p, nm, l) -> lp_integral p x ->
  exists t, lp_schedule_of ns cs t /\ (forall n, n ∈ ns -> (x (col_of nm (s_id n)) == inject_Z (t (s_id n)))%Q) /\
    (lp_value p x == inject_Z (total_distance cs t))%Q.
Proof. exact lp_objective. Qed.

(** there is always a solution, whatever the signs of the path weights *)
Theorem C24_feasible :
  forall P ns cs p nm l, wfp P -> connects_back P -> sgraph P = Some (ns, cs) -> lp_build ns cs = Some (p, nm, l) ->
  exists x, lp_point p x.
Proof. intros P ns cs p nm l W CB EG EB. exact (proj1 (lp_solved P ns cs p nm l (fun _ => (Failed, fun _ => 0%Q)) W CB EG EB)). Qed.

(** the circuit computes the kernel, each output delayed by its start time, and the start
    times have the least total distance of all schedules *)
Theorem C24_circuit :
  forall F h w order solve cfg perm P Q L, built F h w order -> schedulable w ->
  build w order = Ok P -> trusted_solver solve cfg P -> (forall bs, perm bs ≡ₚ bs) ->
  linear_pass solve cfg perm P = Some (Q, L) ->
  exists delay_of : nat -> Z,
    (exists ns cs, sgraph (apply_config cfg P) = Some (ns, cs) /\ lp_schedule_of ns cs delay_of /\
       forall t, lp_schedule_of ns cs t -> total_distance cs delay_of <= total_distance cs t) /\
    forall V (I : interp V) sig, circuit I Q sig ->
      forall d nd i x, w_nodes w !! d = Some nd -> n_op nd = OUT -> 0 <= i ->
        kval I w d i x -> sig d (i + delay_of d) = x.
Proof.
  intros F h w order solve cfg perm P Q L (kern & R & D & K & C & S) Sc B TS PM A.
  exact (kernel_linear F h w order R D K C S solve cfg perm P Q L Sc B TS PM A).
Qed.

(** and the pass ends with a circuit: no assertion fails and no value leaves the range of its
    type (start times of a corner grow by at most one channel weight per node), for the same
    sizes as ASAP *)
Theorem C24_completes :
  forall F h w order solve cfg perm P maxlat maxoff, built F h w order -> schedulable w ->
  build w order = Ok P -> trusted_solver solve cfg P -> bounded cfg P maxlat maxoff -> (forall bs, perm bs ≡ₚ bs) ->
  exists Q, linear_pass solve cfg perm P = Some (Q, 0).
Proof.
  intros F h w order solve cfg perm P ml mo B Sc E TS BD PM. destruct (C19_kernels_qualify F h w order P B Sc E) as (A1 & A2 & A3).
  exact (linear_pass_completes solve cfg perm P ml mo TS A1 A2 A3 BD PM).
Qed.
(** start times of a corner *)
Theorem C24_corners_bounded :
  forall P ns cs p nm l x M, wfp P -> sgraph P = Some (ns, cs) -> lp_build ns cs = Some (p, nm, l) -> lp_vertex p x -> 0 <= M ->
  (forall c, c ∈ cs -> chan_delay ns c <= M) ->
  forall n, n ∈ ns -> (x (col_of nm (s_id n)) <= inject_Z ((Z.of_nat (length ns) - 1) * M))%Q.
Proof.
  intros P ns cs p nm l x M W EG EB HV M0 HM n Hn. pose proof (corner_bounded P W ns cs EG p nm l EB x HV M M0 HM n Hn) as X.
  pose proof (vertex_integer ns cs (sgraph_ordered P W ns cs EG) p nm l EB x HV) as HI.
  rewrite (start_eq P W ns cs EG p nm l EB x HI) by (apply elem_of_list_fmap; eauto). rewrite <- Zle_Qle. exact X.
Qed.

Lemma unb_bounded : bounded unb_cfg unb_P 3 0.
Proof.
  constructor; try lia; [| |vm_compute; reflexivity].
  - intros c l H. unfold unb_cfg in H. destruct c; try discriminate H. repeat match type of H with context [match ?x with _ => _ end] => destruct x; try discriminate H end; injection H as <-; lia.
  - intros v d k t l a H. unfold unb_P in H. repeat (apply elem_of_cons in H as [H|H]; [discriminate H|]). inversion H.
Qed.
(** o.connect(x*x + x) with a multiplication of 3 cycles: the solution is an optimal corner,
    and the pass puts a buffer of 3 in front of the second operand of the addition *)
Example C24_case : exists w order Q, built noflt0 (calls unb) w order /\ schedulable w /\ build w order = Ok unb_P /\
  trusted_solver unb_solver unb_cfg unb_P /\ bounded unb_cfg unb_P 3 0 /\ linear_pass unb_solver unb_cfg (fun b => b) unb_P = Some (Q, 0) /\
  Def 9 DLatency VStream (TFixed false 8 0) 3 [1%nat] ∈ Q /\ Def 5 (DBin ADD) VStream (TFixed false 8 0) 1 [2%nat; 9%nat] ∈ Q.
Proof.
  destruct (flow_check _ _ _ _ unb_flow) as (w & o & R & Di & K & C & S & B & Ou).
  apply andb_true_iff in Ou as [_ Sc]. apply schedulableb_sound in Sc.
  pose proof unb_solved as U. destruct (linear_pass unb_solver unb_cfg (fun b => b) unb_P) as [[Q L]|] eqn:E; [|discriminate].
  apply andb_true_iff in U as [U1 U2]. apply bool_decide_eq_true in U1. apply Z.eqb_eq in U2. subst L.
  exists w, o, Q. split; [exact (ex_intro _ 0%nat (conj R (conj Di (conj K (conj C S)))))|]. split; [exact Sc|]. split; [exact B|]. split; [exact unb_trusted|]. split; [exact unb_bounded|].
  split; [reflexivity|]. rewrite U1, !elem_of_cons. auto 10.
Qed.

(** ** C25 *)
(** the pass emits a circuit although the solver reported failure, and the circuit is wrong
    for every delay *)
Theorem C25_refuted : exists F h w order solve P Q L, built F h w order /\ schedulable w /\ build w order = Ok P /\
  (forall p, fst (solve p) = Failed) /\ linear_pass solve (fun _ => None) (fun b => b) P = Some (Q, L) /\
  exists (I : interp Z) sig d nd, circuit I Q sig /\ w_nodes w !! d = Some nd /\ n_op nd = OUT /\
    forall D, ~ (forall i x, 0 <= i -> kval I w d i x -> sig d (i + D) = x).
Proof.
  destruct (flow_check _ _ _ _ unb_flow) as (w & o & R & Di & K & C & S & B & Ou).
  apply andb_true_iff in Ou as [Ou Sc]. apply schedulableb_sound in Sc. apply out_at_sound in Ou as (nd & Hn & Ho).
  exists noflt0, (calls unb), w, o, give_up, unb_P, unb_Q, 0. split; [exact (ex_intro _ 0%nat (conj R (conj Di (conj K (conj C S)))))|].
  split; [exact Sc|]. split; [exact B|]. split; [reflexivity|]. split; [exact unb_pass|].
  exists sumI, unb_sig, 8%nat, nd. split; [exact unb_circuit|]. split; [exact Hn|]. split; [exact Ho|].
  intros D H. destruct (kernel_translates noflt0 (calls unb) w o R Di K C S) as (P & B' & _ & _ & KD). rewrite B in B'. injection B' as <-.
  pose proof (H 0 0 ltac:(lia) ltac:(apply KD; [eauto|exact (unb_dval 0 ltac:(lia))])) as X. cbn in X. lia.
Qed.

(** but a solver that solves what has a solution never fails on a kernel: missing is the
    reporting of failures for other reasons (time, memory, numerical trouble) *)
Theorem C25_partial :
  forall F h w order solve cfg P ns cs p nm l, built F h w order -> schedulable w -> build w order = Ok P ->
  sgraph (apply_config cfg P) = Some (ns, cs) -> lp_build ns cs = Some (p, nm, l) ->
  complete_on solve p -> fst (solve p) = Solved.
Proof.
  intros F h w order solve cfg P ns cs p nm l (kern & R & D & K & C & S) Sc B EG EB.
  destruct (kernel_schedulable F h w order R D K C S P Sc B) as (W & CB & _).
  exact (proj2 (lp_solved _ ns cs p nm l solve (cfg_wfp cfg P W) (cfg_back cfg P CB) EG EB)).
Qed.

(** ** C46 The latency the compiler reports is that of the slowest output *)
(** ASAP: C22_partial bounds every delay by the reported latency and attains it; the linear
    scheduler reports 0 although this output is late by 4 cycles *)
Theorem C46_refuted : exists F h w order solve cfg P Q, built F h w order /\ schedulable w /\ build w order = Ok P /\
  trusted_solver solve cfg P /\ linear_pass solve cfg (fun b => b) P = Some (Q, 0) /\
  exists d nd, w_nodes w !! d = Some nd /\ n_op nd = OUT /\
    forall delay_of : nat -> Z, (exists ns cs, sgraph (apply_config cfg P) = Some (ns, cs) /\ lp_schedule_of ns cs delay_of) ->
      4 <= delay_of d.
Proof.
  destruct C24_case as (w & o & Q & Bu & Sc & B & T & _ & E & _).
  assert (Hn : exists nd, w_nodes w !! 8%nat = Some nd /\ n_op nd = OUT).
  { destruct (flow_check _ _ _ _ unb_flow) as (w' & o' & R' & _ & _ & _ & _ & _ & Ou). destruct Bu as (kern & R & _). rewrite R in R'. injection R' as <-.
    apply andb_true_iff in Ou as [Ou _]. apply out_at_sound. exact Ou. }
  destruct Hn as (nd & Hn & Ho).
  exists noflt0, (calls unb), w, o, unb_solver, unb_cfg, unb_P, Q. split; [exact Bu|]. split; [exact Sc|]. split; [exact B|]. split; [exact T|]. split; [exact E|].
  exists 8%nat, nd. split; [exact Hn|]. split; [exact Ho|]. intros D (ns & cs & EG & (A0 & A) & _).
  vm_compute in EG. injection EG as <- <-.
  pose proof (A (mkSChan 2 5 0 0) ltac:(rewrite !elem_of_cons; auto 10)) as A1. pose proof (A (mkSChan 5 8 (-1) 0) ltac:(rewrite !elem_of_cons; auto 10)) as A2.
  pose proof (A0 2%nat). unfold chan_delay in *. cbn in A1, A2. lia.
Qed.

Theorem C46_partial :
  forall F h w order cfg perm P Q L, built F h w order -> schedulable w ->
  build w order = Ok P -> (forall bs, perm bs ≡ₚ bs) -> asap_pass cfg perm P = Some (Q, L) ->
  exists delay_of : nat -> Z,
    (forall d nd, w_nodes w !! d = Some nd -> n_op nd = OUT -> 0 <= delay_of d <= L) /\
    ((exists d nd, w_nodes w !! d = Some nd /\ n_op nd = OUT) -> exists d nd, w_nodes w !! d = Some nd /\ n_op nd = OUT /\ delay_of d = L) /\
    forall V (I : interp V) sig, circuit I Q sig ->
      forall d nd i x, w_nodes w !! d = Some nd -> n_op nd = OUT -> 0 <= i ->
        kval I w d i x -> sig d (i + delay_of d) = x.
Proof.
  intros F h w order cfg perm P Q L B Sc E PM A.
  destruct (C22_partial F h w order cfg perm P Q L B Sc E PM A) as (Dl & D1 & D2 & D3). exists Dl. split; [exact D1|]. split; [|exact D3].
  intros (d & nd & Hn & Ho). destruct D2 as [->|X]; [|exact X]. exists d, nd. split; [exact Hn|]. split; [exact Ho|].
  pose proof (D1 d nd Hn Ho). lia.
Qed.

(** one report for all theorems of this file *)
Definition PropertiesLinear_theorems :=
  (C24_corners_integral,
   C24_synchronised,
   C24_objective,
   C24_feasible,
   C24_circuit,
   C24_completes,
   C24_corners_bounded,
   C25_refuted,
   C25_partial,
   C46_refuted,
   C46_partial).
Print Assumptions PropertiesLinear_theorems.
