(** * What a VCD produced by a simulation must show (specification side). *)
From Coq Require Import ZArith Bool String Permutation.
From stdpp Require Import gmap list strings.
From Verif Require Import Types Word Value OpSpec Graph GraphSpec SimSpec HwSpec SimInput SimInputSpec.
Local Open Scope Z_scope.

(** one tick section: an entry per node of the kernel, which shows the node's value
    with the node's width under the node's name *)
Definition tick_shown (w : world) (order : list nat) (names : list (nat * string)) (f : nat -> Z)
           (vals : list (string * string)) : Prop :=
  exists keys, Permutation keys order /\
    Forall2 (fun n p => shows (fst p) (wd w n) (f n) /\ (n, snd p) ∈ names) keys vals.

(** the naming table: one name per node of the kernel; a variable's own name if it has one *)
Definition names_ok (w : world) (order : list nat) (names : list (nat * string)) : Prop :=
  Permutation (map fst names) order /\
  forall n name nd, (n, name) ∈ names -> w_nodes w !! n = Some nd -> n_name nd <> ""%string -> name = n_name nd.

(** names given by the user: distinct, and not of the form the simulator generates *)
Definition generated_name (s : string) : Prop := exists k, s = ("node" ++ dec k)%string.
Definition user_names_ok (w : world) (order : list nat) : Prop :=
  forall n m nd md, n ∈ order -> m ∈ order -> w_nodes w !! n = Some nd -> w_nodes w !! m = Some md ->
    n_name nd <> ""%string ->
    ~ generated_name (n_name nd) /\ (n_name nd = n_name md -> n = m).

(** every input of the kernel gets a value in the block *)
Definition covers (w : world) (order : list nat) (b : block) : Prop :=
  forall n nd, n ∈ order -> w_nodes w !! n = Some nd -> n_op nd = IN -> is_Some (last_value b (n_name nd)).
