(** * Property theorems: the verifier of the DFCIR dialect (C54). *)
From Coq Require Import ZArith Bool String Lia.
From stdpp Require Import gmap list.
From Verif Require Import TypingSpec Instance InstanceSpec Types Word Value OpSpec Graph GraphSpec GraphFacts KernelSort TopSort Dfcir Sched SchedSpec SchedFinal SchedFacts KernelSpec KernelFlow
     Linear LinearSpec Pipeline PipelineSpec PipelineFacts RtlSpec RtlFacts Verify VerifySpec VerifyProofs VerifyFlow PropertiesSched PropertiesRtl.
Local Open Scope Z_scope.

(** ** C54: what a scheduler emits is valid DFCIR exactly for the kernels that [acceptable]
    describes, whatever the scheduler, the latencies and the order of buffer insertion *)
Theorem C54_partial : forall F h w order P, built F h w order -> build w order = Ok P -> offsets_plain w ->
  (forall cfg perm Q L, asap_pass cfg perm P = Some (Q, L) -> (verified Q <-> acceptable w)) /\
  (forall solve cfg perm Q L, linear_pass solve cfg perm P = Some (Q, L) -> (verified Q <-> acceptable w)) /\
  (forall rnd eps n perm Q, comb_pass rnd eps n perm P = Some Q -> (verified Q <-> acceptable w)) /\
  (verified P <-> acceptable w).
Proof.
  intros F h w order P (kern & R & D & K & C & S) EB OP. split; [|split; [|split]].
  - intros cfg perm Q L E. exact (asap_verified F h w order R D K C S P EB OP cfg perm Q L E).
  - intros solve cfg perm Q L E. exact (linear_verified F h w order R D K C S P EB OP solve cfg perm Q L E).
  - intros rnd eps n perm Q E. exact (comb_verified F h w order R D K C S P EB OP rnd eps n perm Q E).
  - exact (unscheduled_verified F h w order R D K C S P EB OP).
Qed.
(** for a kernel without instances: exactly when [-], [~] and the controls of the muxes are
    applied to streams *)
Theorem C54_flat : forall F h w order, built F (calls h) w order -> offsets_plain w /\ (acceptable w <-> stream_operands w).
Proof.
  intros F h w order (kern & R & D & K & C & S). split; [exact (flat_plain F (KNew :: h) w order R D K C S)|exact (flat_acceptable F (KNew :: h) w order R D K C S)].
Qed.

(** [check()] accepts kernels the verifier rejects.  [~s] with a scalar [s], and a mux
    controlled by a scalar: both are circuits the lowering could make *)
Definition rejected (h : list cmd) : Prop := exists w order P, built noflt0 (calls h) w order /\ build w order = Ok P /\
  check w 0 = Ok true /\ schedulable w /\ combinational w /\ realizable w no_latency /\
  (exists Q L, asap_pass rt_cfg (fun b => b) P = Some (Q, L)) /\ (forall rnd eps perm, comb_pass rnd eps 0 perm P = Some P) /\
  (forall cfg perm Q L, asap_pass cfg perm P = Some (Q, L) -> ~ verified Q) /\
  (forall solve cfg perm Q L, linear_pass solve cfg perm P = Some (Q, L) -> ~ verified Q) /\
  (forall rnd eps n perm Q, comb_pass rnd eps n perm P = Some Q -> ~ verified Q).
Definition not_scalar : list cmd :=
  [ CType (TFixed false 8 0); CInput 0 true "s" 0; CUn NOT 1; COutput 0 false "o" 0; CConnect 4 2 ].
Definition mux_scalar : list cmd :=
  [ CType (TFixed false 8 0); CType (TFixed false 1 0); CInput 0 true "c" 1; CInput 0 false "x" 0; CInput 0 false "y" 0;
    CMux 0 1 [2; 3]%nat; COutput 0 false "o" 0; CConnect 8 4 ].

Definition bad_at (n : nat) (w : world) : bool :=
  match w_nodes w !! n with
  | Some nd => match n_op nd, operands w n with
               | (UN _ | MUX), a :: _ => match w_nodes w !! a with Some na => match n_vk na with VStream => false | _ => true end | None => false end
               | _, _ => false
               end
  | None => false
  end.
Lemma bad_at_sound n w : bad_at n w = true -> ~ stream_operands w.
Proof.
  unfold bad_at. destruct (w_nodes w !! n) as [nd|] eqn:Hn; [|discriminate]. intros B SO. specialize (SO n nd Hn).
  destruct (n_op nd); try discriminate B; destruct SO as (a & rest & na & E & Ha & K); rewrite E, Ha, K in B; discriminate B.
Qed.
Lemma rejects h P n :
  flow_ok noflt0 h P (fun w => bad_at n w && match check w 0 with Ok b => b | _ => false end && schedulableb w && combinationalb w && realizableb no_latency w) = true ->
  (exists Q L, asap_pass rt_cfg (fun b => b) P = Some (Q, L)) -> rejected h.
Proof.
  intros Fl A. destruct (flow_check _ _ _ _ Fl) as (w & o & R & D & K & C & S & B & X). rewrite !andb_true_iff in X. destruct X as [[[[X1 X2] X3] X4] X5].
  assert (Bu : built noflt0 (calls h) w o) by exact (ex_intro _ 0%nat (conj R (conj D (conj K (conj C S))))).
  apply bad_at_sound in X1. apply schedulableb_sound in X3. apply combinationalb_sound in X4. apply realizableb_sound in X5.
  destruct (C54_flat noflt0 h w o Bu) as [OP AC]. destruct (C54_partial noflt0 (calls h) w o P Bu B OP) as (V1 & V2 & V3 & _).
  assert (NA : ~ acceptable w) by (rewrite AC; exact X1).
  exists w, o, P. split; [exact Bu|]. split; [exact B|]. split; [destruct (check w 0) as [[]| | |]; congruence|]. do 3 (split; [assumption|]). split; [exact A|].
  split; [reflexivity|]. split; [|split].
  - intros cfg perm Q L E. rewrite (V1 _ _ _ _ E). exact NA.
  - intros solve cfg perm Q L E. rewrite (V2 _ _ _ _ _ E). exact NA.
  - intros rnd eps m perm Q E. rewrite (V3 _ _ _ _ _ E). exact NA.
Qed.
Theorem C54_refuted : rejected not_scalar /\ rejected mux_scalar.
Proof.
  split.
  - eapply (rejects _ [ Def 1 (DIn true "s") VScalar (TFixed false 8 0) (-1) []; Def 2 (DUn NOT) VStream (TFixed false 8 0) (-1) [1%nat];
      Def 4 (DOut false "o") VStream (TFixed false 8 0) (-1) []; Con 4 2 ] 2%nat); [vm_compute; reflexivity|]. vm_compute. eauto.
  - eapply (rejects _ [ Def 3 (DIn false "y") VStream (TFixed false 8 0) (-1) []; Def 2 (DIn false "x") VStream (TFixed false 8 0) (-1) [];
      Def 1 (DIn true "c") VScalar (TFixed false 1 0) (-1) []; Def 4 DMux VStream (TFixed false 8 0) (-1) [1%nat; 3%nat; 2%nat];
      Def 8 (DOut false "o") VStream (TFixed false 8 0) (-1) []; Con 8 4 ] 4%nat); [vm_compute; reflexivity|]. vm_compute. eauto.
Qed.
(** a kernel with an offset, a mux and a constant is accepted *)
Definition streamsb (w : world) : bool := forallb (fun p : nat * node => match n_op (snd p) with
     | UN _ | MUX => match operands w (fst p) with
               | a :: _ => match w_nodes w !! a with Some na => match n_vk na with VStream => true | _ => false end | None => false end
               | _ => false
               end
     | _ => true end) (map_to_list (w_nodes w)).
Lemma streamsb_sound w : streamsb w = true -> stream_operands w.
Proof.
  intros H n nd Hn. pose proof (map_forallb w _ H n nd Hn) as X. cbn [fst snd] in X.
  destruct (n_op nd); try exact Logic.I; (destruct (operands w n) as [|a rest]; [discriminate|]); (destruct (w_nodes w !! a) as [na|] eqn:Ha; [|discriminate]); exists a, rest, na; (split; [reflexivity|]); (split; [exact Ha|]); destruct (n_vk na); congruence.
Qed.
Example C54_case : exists w order Q L, built noflt0 (calls rt_h) w order /\ build w order = Ok rt_P /\ offsets_plain w /\ acceptable w /\
  asap_pass rt_cfg (fun b => b) rt_P = Some (Q, L) /\ verified Q.
Proof.
  assert (Fl : flow_ok noflt0 rt_h rt_P streamsb = true) by (vm_compute; reflexivity).
  destruct (flow_check _ _ _ _ Fl) as (w & o & R & D & K & C & S & B & X). apply streamsb_sound in X.
  assert (Bu : built noflt0 (calls rt_h) w o) by exact (ex_intro _ 0%nat (conj R (conj D (conj K (conj C S))))).
  destruct (C54_flat noflt0 rt_h w o Bu) as [OP AC]. destruct (C54_partial noflt0 (calls rt_h) w o rt_P Bu B OP) as (V1 & _).
  assert (A : match asap_pass rt_cfg (fun b => b) rt_P with Some _ => true | None => false end = true) by (vm_compute; reflexivity).
  destruct (asap_pass rt_cfg (fun b => b) rt_P) as [[Q L]|] eqn:E; [|discriminate]. clear A.
  exists w, o, Q, L. split; [exact Bu|]. split; [exact B|]. split; [exact OP|]. split; [apply AC; exact X|]. split; [reflexivity|]. apply (V1 _ _ _ _ E). apply AC. exact X.
Qed.

Definition PropertiesVerify_theorems := (C54_partial, C54_flat, C54_refuted, C54_case).
Print Assumptions PropertiesVerify_theorems.
