(** * What a simulated tick must satisfy (specification side). *)
From Coq Require Import ZArith Bool String.
From stdpp Require Import gmap list.
From Verif Require Import Types Word Value OpSpec Graph GraphSpec.
Local Open Scope Z_scope.

(** [node_eq F w inp f n]: under the assignment [f] of 64-bit words to nodes, the
    value [f n] is the one the operator of [n] gives for the values of its operands.
    One clause per operator; operators the simulator does not support have none. *)
Inductive node_eq (F : fltops) (w : world) (inp : string -> option Z) (f : nat -> Z) (n : nat) : Prop :=
| ne_in nd : w_nodes w !! n = Some nd -> n_op nd = IN -> inp (n_name nd) = Some (f n) -> node_eq F w inp f n
| ne_const nd c : w_nodes w !! n = Some nd -> n_op nd = CONST c -> f n = c -> node_eq F w inp f n
| ne_out nd s rest : w_nodes w !! n = Some nd -> n_op nd = OUT -> operands w n = s :: rest ->
    f n = f s -> node_eq F w inp f n
| ne_mux nd c arms a : w_nodes w !! n = Some nd -> n_op nd = MUX -> operands w n = c :: arms ->
    0 <= f c < 2 ^ 64 - 1 -> arms !! Z.to_nat (f c) = Some a -> f n = f a -> node_eq F w inp f n
| ne_mux_wrap nd c arms : w_nodes w !! n = Some nd -> n_op nd = MUX -> operands w n = c :: arms ->
    (* the select index is control+1 in 64-bit arithmetic: an all-ones control
       selects position 0, i.e. the control itself *)
    f c = 2 ^ 64 - 1 -> f n = f c -> node_eq F w inp f n
| ne_bin nd o t a b rest : w_nodes w !! n = Some nd -> n_op nd = BIN o -> operands w n = a :: b :: rest ->
    w_types w !! n_ty nd = Some t ->
    sim_bin F o t (f a) (f b) = Some (CV (f n)) -> node_eq F w inp f n
| ne_un nd u t a rest : w_nodes w !! n = Some nd -> n_op nd = UN u -> operands w n = a :: rest ->
    w_types w !! n_ty nd = Some t ->
    sim_un F u t (f a) = Some (CV (f n)) -> node_eq F w inp f n
| ne_shl nd k a rest : w_nodes w !! n = Some nd -> n_op nd = SHL k -> operands w n = a :: rest ->
    k < 64 -> f n = (f a * 2 ^ k) mod 2 ^ 64 -> node_eq F w inp f n
| ne_shr nd k a rest : w_nodes w !! n = Some nd -> n_op nd = SHR k -> operands w n = a :: rest ->
    k < 64 -> f n = f a / 2 ^ k -> node_eq F w inp f n.

(** [tick_eq F w inp f n]: the same in plain arithmetic (OpSpec.v), independent of the
    evaluation functions of the model.  The theorems are about this one; [node_eq] is
    the proof-side form. *)
Inductive tick_eq (F : fltops) (w : world) (inp : string -> option Z) (f : nat -> Z) (n : nat) : Prop :=
| te_in nd : w_nodes w !! n = Some nd -> n_op nd = IN -> inp (n_name nd) = Some (f n) -> tick_eq F w inp f n
| te_const nd c : w_nodes w !! n = Some nd -> n_op nd = CONST c -> f n = c -> tick_eq F w inp f n
| te_out nd s rest : w_nodes w !! n = Some nd -> n_op nd = OUT -> operands w n = s :: rest ->
    f n = f s -> tick_eq F w inp f n
| te_mux nd c arms a : w_nodes w !! n = Some nd -> n_op nd = MUX -> operands w n = c :: arms ->
    f c < 2 ^ 64 - 1 -> arms !! Z.to_nat (f c) = Some a -> f n = f a -> tick_eq F w inp f n
| te_mux_wrap nd c arms : w_nodes w !! n = Some nd -> n_op nd = MUX -> operands w n = c :: arms ->
    (* the select index is control+1 in 64-bit arithmetic: an all-ones control
       selects position 0, i.e. the control itself *)
    f c = 2 ^ 64 - 1 -> f n = f c -> tick_eq F w inp f n
| te_bin nd o t a b rest : w_nodes w !! n = Some nd -> n_op nd = BIN o -> operands w n = a :: b :: rest ->
    type_of w n = Some t -> bin_val F o t (f a) (f b) (f n) -> tick_eq F w inp f n
| te_un nd u t a rest : w_nodes w !! n = Some nd -> n_op nd = UN u -> operands w n = a :: rest ->
    type_of w n = Some t -> un_val F u t (f a) (f n) -> tick_eq F w inp f n
| te_shl nd k a rest : w_nodes w !! n = Some nd -> n_op nd = SHL k -> operands w n = a :: rest ->
    k < 64 -> f n = (f a * 2 ^ k) mod 2 ^ 64 -> tick_eq F w inp f n
| te_shr nd k a rest : w_nodes w !! n = Some nd -> n_op nd = SHR k -> operands w n = a :: rest ->
    k < 64 -> f n = f a / 2 ^ k -> tick_eq F w inp f n.

(** a list in which operands stand before their users *)
Definition topological (w : world) (r : list nat) : Prop :=
  NoDup r /\ (forall n a, n ∈ r -> a ∈ operands w n -> a ∈ r) /\
  (forall i j a b, r !! i = Some a -> r !! j = Some b -> a ∈ operands w b -> (i < j)%nat).

Definition solution F w inp (r : list nat) (f : nat -> Z) : Prop :=
  forall n, n ∈ r -> node_eq F w inp f n.

Definition words (r : list nat) (f : nat -> Z) : Prop := forall n, n ∈ r -> 0 <= f n < 2 ^ 64.

(** the oracle for doubles yields bit patterns *)
Definition flt_words (F : fltops) : Prop :=
  (forall o a b, 0 <= fl_bin F o a b < 2 ^ 64) /\ (forall a, 0 <= fl_neg F a < 2 ^ 64).
Definition inp_words (inp : string -> option Z) : Prop :=
  forall name x, inp name = Some x -> 0 <= x < 2 ^ 64.
Definition const_words (w : world) : Prop :=
  forall n nd c, w_nodes w !! n = Some nd -> n_op nd = CONST c -> 0 <= c < 2 ^ 64.
