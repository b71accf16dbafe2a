(** * What it means for the code of a kernel to compute a function (specification).

    Used by the properties of the kernels of the standard library.  All types are unsigned
    integers; the specification of the functions themselves is CryptoSpec.v. *)
From Coq Require Import ZArith QArith Bool String Permutation.
From stdpp Require Import gmap list.
From Verif Require Import Types Word Value Graph GraphSpec StreamSpec Dfcir DfcirBuild RtlSpec Sched Linear LinearSpec Pipeline PipelineSpec Instance InstanceSpec KernelSort TopSort Verify PropertiesSched Prog.
Local Open Scope Z_scope.

Definition uint (W : Z) : dftype := TFixed false W 0.
(** the stream of [W]-bit words [x] is applied to the input [s] *)
Definition fed (e : env) (s : string) (W : Z) (x : Z -> Z) : Prop := forall i, 0 <= i -> e_stream e s i = (uint W, x i) /\ 0 <= x i < 2 ^ W.
(** the code [p] runs without fault; it leaves a kernel that sorts,
    in whatever order its start nodes are met, whose inputs are the
    streams [ins] (name and width) and whose variable [out] is the output stream [o] *)
Record stands (F : fltops) {A} (p : prog A) (ins : list (string * Z)) (o : string) (W : Z) (h : list icmd) (w : world) (out : nat) : Prop := {
  sd_exec : exists a, exec F init_world p = Ok (w, a, h);
  sd_built : exists k, forall hash, (forall l, Permutation (hash l) l) -> exists order, sort_by hash w k = Some (TSOk order) /\ built F h w order;
  sd_ins : forall n nd, w_nodes w !! n = Some nd -> n_op nd = IN -> n_vk nd = VStream /\ exists V, (n_name nd, V) ∈ ins /\ type_of w n = Some (uint V);
  sd_ports : forall s V, (s, V) ∈ ins -> exists n nd, w_nodes w !! n = Some nd /\ n_op nd = IN /\ n_name nd = s;
  sd_out : exists nd, w_nodes w !! out = Some nd /\ n_op nd = OUT /\ n_name nd = o /\ type_of w out = Some (uint W)
}.
(** the value of [n] on the streams of [e] is the stream of [W]-bit words [y] *)
Definition yields (e : env) (w : world) (n : nat) (W : Z) (y : Z -> Z) : Prop :=
  forall i, 0 <= i -> 0 <= y i < 2 ^ W /\ exists t, is_signed t = false /\ total_bits t = W /\ kval (hw e) w n i (t, y i).
(** the circuit [Q] runs on the streams of [e], and whatever it does the port [out] shows
    the words [y], [delay] cycles late *)
Definition displays (e : env) (Q : program) (out : nat) (delay : Z) (y : Z -> Z) : Prop :=
  (exists sig, rtl Q e sig) /\ forall sig, rtl Q e sig -> forall i, 0 <= i -> sig out (i + delay) = y i.

(** ** What the kernel is for: [meets e y] says that the words [y] are expected at the
    output when the streams of [e] are applied *)
(** the code makes a kernel whose output is what is expected *)
Definition computes (F : fltops) {A} (p : prog A) (ins : list (string * Z)) (o : string) (W : Z) (meets : env -> (Z -> Z) -> Prop) (h : list icmd) (w : world) (out : nat) : Prop :=
  stands F p ins o W h w out /\ forall e y, meets e y -> yields e w out W y.
(** [Q] is what one of the schedulers makes of the kernel *)
Definition scheduled (F : fltops) (h : list icmd) (w : world) (Q : program) : Prop :=
  exists order P, built F h w order /\ build w order = Ok P /\
  ((exists rnd eps perm, comb_pass rnd eps 0 perm P = Some Q) \/
   (exists cfg perm L, (forall bs, perm bs ≡ₚ bs) /\ asap_pass cfg perm P = Some (Q, L)) \/
   (exists solve cfg perm L, trusted_solver solve cfg P /\ (forall bs, perm bs ≡ₚ bs) /\ linear_pass solve cfg perm P = Some (Q, L)) \/
   (exists rnd eps n perm, (forall bs, perm bs ≡ₚ bs) /\ 0 < n < 2 ^ 31 /\ comb_pass rnd eps n perm P = Some Q)).
(** no scheduler fails, if its 32-bit numbers are large enough for the program [P] and
    latencies up to [m] *)
Definition schedules (P : program) : Prop :=
  (forall cfg perm m, (forall bs, perm bs ≡ₚ bs) -> (forall c l, cfg c = Some l -> 0 <= l <= m) -> 1 <= m -> Z.of_nat (length P) * m < 2 ^ 31 ->
     (exists Q L, asap_pass cfg perm P = Some (Q, L)) /\
     forall solve, trusted_solver solve cfg P -> exists Q L, linear_pass solve cfg perm P = Some (Q, L)) /\
  (forall rnd eps n perm, rounding rnd -> (0 < eps)%Q -> (forall bs, perm bs ≡ₚ bs) -> 0 <= n < 2 ^ 31 -> Z.of_nat (length P) < 2 ^ 31 ->
     exists Q, comb_pass rnd eps n perm P = Some Q).
(** so does the circuit, whichever scheduler is used: without registers (the default), with
    ASAP scheduling, with linear programming, and pipelined; [Q] is the scheduled program,
    [perm] the order in which buffers are inserted, [rnd] and [eps] the arithmetic of the
    pipeliner; what a scheduler emits passes the verifier of the dialect *)
Definition compiles (F : fltops) (h : list icmd) (w : world) (out : nat) (meets : env -> (Z -> Z) -> Prop) : Prop :=
  (exists k, forall hash, (forall l, Permutation (hash l) l) -> exists order P, sort_by hash w k = Some (TSOk order) /\ built F h w order /\ build w order = Ok P) /\
  (forall Q, scheduled F h w Q -> verified Q) /\
  forall order P, built F h w order -> build w order = Ok P -> schedules P /\
  (forall rnd eps perm, exists Q, comb_pass rnd eps 0 perm P = Some Q /\ forall e y, meets e y -> displays e Q out 0 y) /\
  (forall cfg perm Q L, (forall bs, perm bs ≡ₚ bs) -> asap_pass cfg perm P = Some (Q, L) ->
     exists d, 0 <= d <= L /\ forall e y, meets e y -> displays e Q out d y) /\
  (forall solve cfg perm Q L, trusted_solver solve cfg P -> (forall bs, perm bs ≡ₚ bs) -> linear_pass solve cfg perm P = Some (Q, L) ->
     exists d, 0 <= d /\ forall e y, meets e y -> displays e Q out d y) /\
  (forall rnd eps n perm Q, (forall bs, perm bs ≡ₚ bs) -> 0 < n < 2 ^ 31 -> comb_pass rnd eps n perm P = Some Q ->
     exists d, 0 <= d <= n /\ forall e y, meets e y -> displays e Q out d y).
