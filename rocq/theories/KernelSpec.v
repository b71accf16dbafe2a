(** * Kernels for which the scheduler is claimed to work (specification). *)
From Coq Require Import ZArith Bool String.
From stdpp Require Import gmap list.
From Verif Require Import Types Word Value Graph GraphSpec.
Local Open Scope Z_scope.

Definition is_constant_node (w : world) (n : nat) : Prop :=
  exists nd, w_nodes w !! n = Some nd /\
    ((exists v, n_op nd = CONST v) \/ (n_op nd = IN /\ n_vk nd <> VStream)).

Record schedulable (w : world) : Prop := {
  (* offsets fit the scheduler's 32-bit integers *)
  sk_off : forall n nd k, w_nodes w !! n = Some nd -> n_op nd = OFFSET k -> - 2 ^ 31 <= k < 2 ^ 31;
  (* an operation has at most 128 operands, or is a multiplexer of constants *)
  sk_narrow : forall n, (length (operands w n) <= 128)%nat \/
      forall a, a ∈ tl (operands w n) -> is_constant_node w a;
  (* outputs are not read, or no offset is negative *)
  sk_out : (forall n nd, w_nodes w !! n = Some nd -> n_op nd = OUT -> readers w n = []) \/
           (forall n nd k, w_nodes w !! n = Some nd -> n_op nd = OFFSET k -> 0 <= k)
}.
