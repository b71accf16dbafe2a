(** * What it means for a kernel with signed streams to compute a function (specification).

    As StdSpec.v, for kernels all of whose inputs are signed integers of one width and all of
    whose outputs are signed integers of one width, and for the two schedulers that give
    arithmetic a latency (signed arithmetic without a latency has no implementation in the
    library, C32).  Streams are streams of bit patterns. *)
From Coq Require Import ZArith Bool String Permutation.
From stdpp Require Import gmap list.
From Verif Require Import Types Word Value Graph GraphSpec StreamSpec Dfcir DfcirBuild RtlSpec StubsSpec Sched Linear LinearSpec Latency Instance InstanceSpec KernelSort TopSort Verify PropertiesSched Prog StdSpec.
Local Open Scope Z_scope.

Definition sint (W : Z) : dftype := TFixed true (W - 1) 0.
(** the stream of [W]-bit patterns [x] is applied to the signed input [s] *)
Definition sfed (e : env) (s : string) (W : Z) (x : Z -> Z) : Prop := forall i, 0 <= i -> e_stream e s i = (sint W, x i) /\ 0 <= x i < 2 ^ W.
(** the code [p] runs without fault; it leaves a kernel that sorts, in whatever order its
    start nodes are met, with the inputs [ins] of [Wi] bits and the outputs [outs] of [Wo]
    bits, which are the variables [os] *)
Record sstands (F : fltops) {A} (p : prog A) (ins : list string) (Wi : Z) (outs : list string) (Wo : Z) (h : list icmd) (w : world) (os : list nat) : Prop := {
  ss_exec : exists a, exec F init_world p = Ok (w, a, h);
  ss_built : exists k, forall hash, (forall l, Permutation (hash l) l) -> exists order P, sort_by hash w k = Some (TSOk order) /\ built F h w order /\ build w order = Ok P;
  ss_ins : forall n nd, w_nodes w !! n = Some nd -> n_op nd = IN -> n_vk nd = VStream /\ n_name nd ∈ ins /\ type_of w n = Some (sint Wi);
  ss_ports : forall s, s ∈ ins -> exists n nd, w_nodes w !! n = Some nd /\ n_op nd = IN /\ n_name nd = s;
  ss_outs : Forall2 (fun s o => exists nd, w_nodes w !! o = Some nd /\ n_op nd = OUT /\ n_name nd = s /\ type_of w o = Some (sint Wo)) outs os
}.
(** sums, differences and products of integers have a latency of at least one cycle (one is
    the default when the configuration does not mention them) *)
Definition delayed (cfg : latcfg) : Prop := forall o, is_arith o = true -> forall l, cfg (OBin o false) = Some l -> 0 < l.
(** [Q] is what ASAP scheduling or linear programming makes of the kernel *)
Definition sscheduled (F : fltops) (h : list icmd) (w : world) (Q : program) : Prop :=
  exists order P, built F h w order /\ build w order = Ok P /\
  ((exists cfg perm L, delayed cfg /\ (forall bs, perm bs ≡ₚ bs) /\ asap_pass (processor_cfg cfg) perm P = Some (Q, L)) \/
   (exists solve cfg perm L, delayed cfg /\ trusted_solver solve (processor_cfg cfg) P /\ (forall bs, perm bs ≡ₚ bs) /\ linear_pass solve (processor_cfg cfg) perm P = Some (Q, L))).
(** neither fails, if its 32-bit numbers are large enough for the program [P] and latencies
    up to [m] *)
Definition sschedules (P : program) : Prop :=
  forall cfg perm m, (forall bs, perm bs ≡ₚ bs) -> (forall c l, cfg c = Some l -> 0 <= l <= m) -> 1 <= m -> Z.of_nat (length P) * m < 2 ^ 31 ->
     (exists Q L, asap_pass (processor_cfg cfg) perm P = Some (Q, L)) /\
     forall solve, trusted_solver solve (processor_cfg cfg) P -> exists Q L, linear_pass solve (processor_cfg cfg) perm P = Some (Q, L).
(** the circuits: each output has a delay, the same for all streams; what a scheduler
    emits passes the verifier of the dialect *)
Definition scompiles (F : fltops) (h : list icmd) (w : world) (os : list nat) (meets : env -> list (Z -> Z) -> Prop) : Prop :=
  (forall order P, built F h w order -> build w order = Ok P -> sschedules P) /\
  forall Q, sscheduled F h w Q -> verified Q /\
    exists delay_of : nat -> Z, (forall o, o ∈ os -> 0 <= delay_of o) /\
      forall e ys, meets e ys -> Forall2 (fun o y => displays e Q o (delay_of o) y) os ys.
