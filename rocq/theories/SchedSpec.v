(** * What a schedule is (specification side). *)
From Coq Require Import ZArith Bool.
From stdpp Require Import list.
From Verif Require Import Types Value Graph Dfcir Sched.
Local Open Scope Z_scope.

(** delay between the start of the source operation of a channel and the arrival of its
    value (for the stream position the reader wants) at the reader *)
Definition chan_delay (ns : list snode) (c : schan) : Z := node_lat ns (sc_src c) + sc_off c.

(** [t] assigns start times at which no operand is late *)
Definition feasible (ns : list snode) (cs : list schan) (t : nat -> Z) : Prop :=
  (forall x, 0 <= t x) /\
  (forall c, c ∈ cs -> t (sc_src c) + chan_delay ns c <= t (sc_tgt c)).

(** [path ns cs a b z]: a path of channels from [a] to [b] of total delay [z] *)
Inductive path (ns : list snode) (cs : list schan) (a : nat) : nat -> Z -> Prop :=
| path_nil : path ns cs a a 0
| path_snoc b z c : path ns cs a b z -> c ∈ cs -> sc_src c = b ->
    path ns cs a (sc_tgt c) (z + chan_delay ns c).

(** the same along the circuit with buffers: constants are available at all times, so
    a path may not start behind one *)
Inductive bpath (ns : list snode) (cs : list schan) (buf : schan -> Z) (a : nat) : nat -> Z -> Prop :=
| bpath_nil : bpath ns cs buf a a 0
| bpath_snoc b z c : bpath ns cs buf a b z -> c ∈ cs -> sc_src c = b ->
    node_is_const ns b = false ->
    bpath ns cs buf a (sc_tgt c) (z + chan_delay ns c + buf c).

(** the buffer requested for a channel (0 if none) *)
Definition buf_of (bs : list (schan * Z)) (c : schan) (z : Z) : Prop :=
  (c, z) ∈ bs \/ (z = 0 /\ forall y, (c, y) ∉ bs).

(** ** Well-formed DFCIR programs: what MLIR's verifier and the builder guarantee *)

(** [v] is used as an operand *)
Definition reads (s : stmt) : list nat := match s with Def _ _ _ _ _ a => a | Con _ v => [v] end.
Definition is_read (P : program) (v : nat) : Prop := exists s, s ∈ P /\ v ∈ reads s.

Record wfp (P : program) : Prop := {
  (* every result is defined once, every variable is connected at most once *)
  wp_defs : NoDup (defs P);
  wp_dests : NoDup (dests P);
  (* definitions precede uses *)
  wp_dom : forall p s q, P = p ++ s :: q -> forall v, v ∈ reads s -> v ∈ defs p;
  wp_dst : forall p d s q, P = p ++ Con d s :: q -> d ∈ defs p;
  (* only outputs are connected *)
  wp_con : forall d s, Con d s ∈ P -> exists sc name k t l a, Def d (DOut sc name) k t l a ∈ P;
  (* an offset has one operand *)
  wp_off : forall v d k t l a, Def v (DOffset d) k t l a ∈ P -> length a = 1%nat
}.

(** no offset exceeds 32 bits *)
Definition small_offsets (P : program) : Prop :=
  forall v d k t l a, Def v (DOffset d) k t l a ∈ P -> - 2 ^ 31 <= d < 2 ^ 31.

(** operands numbered 128 and more are constants (the scheduler keeps operand numbers
    in a signed byte) *)
Definition narrow (P : program) : Prop :=
  forall r o k t l args i a, Def r o k t l args ∈ P -> args !! i = Some a -> (128 <= i)%nat ->
    exists o', op_of P a = Some o' /\ is_constant_input o' = true.

(** no connected output is used as an operand, or no offset is negative *)
Definition outputs_safe (P : program) : Prop :=
  (forall d s, Con d s ∈ P -> ~ is_read P d) \/
  (forall v d k t l a, Def v (DOffset d) k t l a ∈ P -> 0 <= d).

(** what a connect reads is defined before the variable it drives (the DFCIR builder
    visits the kernel in topological order) *)
Definition connects_back (P : program) : Prop :=
  forall p r o k t l a q s, P = p ++ Def r o k t l a :: q -> Con r s ∈ P -> s ∈ defs p.

(** ** Sizes for which the scheduler's 32-bit arithmetic cannot overflow *)
Record bounded (cfg : latcfg) (P : program) (maxlat maxoff : Z) : Prop := {
  bd_lat : forall c l, cfg c = Some l -> 0 <= l <= maxlat;
  bd_one : 1 <= maxlat;
  bd_off : forall v d k t l a, Def v (DOffset d) k t l a ∈ P -> - maxoff <= d <= maxoff;
  bd_pos : 0 <= maxoff;
  bd_fit : Z.of_nat (length P) * (maxlat + Z.of_nat (length P) * maxoff) < 2 ^ 31
}.
