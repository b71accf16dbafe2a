(** * Depth of operations and register counts (specification). *)
From Coq Require Import ZArith QArith.
From stdpp Require Import gmap list.
From Verif Require Import Types Value Graph GraphSpec Dfcir Sched SchedSpec KernelSpec.
Local Open Scope Z_scope.

(** a chain of [z] channels from [a] to [b] *)
Inductive chain (cs : list schan) (a : nat) : nat -> Z -> Prop :=
| chain_nil : chain cs a a 0
| chain_snoc z c : chain cs a (sc_src c) z -> c ∈ cs -> chain cs a (sc_tgt c) (z + 1).
(** [a] reads nothing *)
Definition source (cs : list schan) (a : nat) : Prop := forall c, c ∈ cs -> sc_tgt c <> a.
(** [z] is the length of a longest chain from a source to [v] *)
Definition depth (cs : list schan) (v : nat) (z : Z) : Prop :=
  (exists a, source cs a /\ chain cs a v z) /\ forall a y, chain cs a v y -> y <= z.
(** no operation is deeper than [v] *)
Definition deepest (cs : list schan) (v : nat) : Prop :=
  forall z, depth cs v z -> forall u y, depth cs u y -> y <= z.

(** single-precision rounding: monotone, and exact on 0 *)
Definition rounding (rnd : Q -> Q) : Prop :=
  (forall x y, x <= y -> rnd x <= rnd y)%Q /\ (rnd 0 == 0)%Q.

(** no connected output is used as an operand *)
Definition outputs_unread (P : program) : Prop := forall d s, Con d s ∈ P -> ~ is_read P d.
(** there are no offsets *)
Definition no_offsets (P : program) : Prop := forall v d k t l a, Def v (DOffset d) k t l a ∉ P.
(** operations have operands *)
Definition has_operands (P : program) : Prop :=
  forall r o k t l a, Def r o k t l a ∈ P -> is_oper o = true -> a <> [].

(** ** Kernels the pipeliner is claimed to handle *)
Record combinational (w : world) : Prop := {
  cb_off : forall n nd k, w_nodes w !! n = Some nd -> n_op nd <> OFFSET k;
  cb_out : forall n nd, w_nodes w !! n = Some nd -> n_op nd = OUT -> readers w n = [];
  cb_narrow : forall n, (length (operands w n) <= 128)%nat \/ forall a, a ∈ tl (operands w n) -> is_constant_node w a
}.
(** a chain of [z] operand references from [a] to [b] *)
Inductive op_chain (w : world) (a : nat) : nat -> Z -> Prop :=
| oc_nil : op_chain w a a 0
| oc_snoc b c z : op_chain w a b z -> b ∈ operands w c -> op_chain w a c (z + 1).
(** no chain of operations is longer than the longest one that ends in [d] *)
Definition deepest_node (w : world) (d : nat) : Prop :=
  forall a u y, op_chain w a u y -> exists a' y', op_chain w a' d y' /\ y <= y'.
