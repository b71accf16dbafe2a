(** * Bit-accurate meaning of a kernel in w-bit hardware (specification side).

    A value of a type of [w] bits is a bit pattern in [0, 2^w); signed types read
    it in two's complement.  Used to say what the simulator should print. *)
From Coq Require Import ZArith Bool String.
From stdpp Require Import gmap list.
From Verif Require Import Types Word Value OpSpec Graph GraphSpec.
Local Open Scope Z_scope.

(** declared width of a variable *)
Definition wd (w : world) (n : nat) : Z :=
  match type_of w n with Some t => total_bits t | None => 0 end.
Definition sgn (w : world) (n : nat) : bool :=
  match type_of w n with Some t => is_signed t | None => false end.

(** [hw_eq w inp f n]: the pattern [f n] is what w-bit hardware computes for [n] *)
Inductive hw_eq (w : world) (inp : string -> option Z) (f : nat -> Z) (n : nat) : Prop :=
| hw_in nd x : w_nodes w !! n = Some nd -> n_op nd = IN -> inp (n_name nd) = Some x ->
    f n = x mod 2 ^ wd w n -> hw_eq w inp f n
| hw_const nd c : w_nodes w !! n = Some nd -> n_op nd = CONST c -> f n = c mod 2 ^ wd w n -> hw_eq w inp f n
| hw_out nd s rest : w_nodes w !! n = Some nd -> n_op nd = OUT -> operands w n = s :: rest ->
    f n = f s -> hw_eq w inp f n
| hw_mux nd c arms a : w_nodes w !! n = Some nd -> n_op nd = MUX -> operands w n = c :: arms ->
    0 <= f c -> arms !! Z.to_nat (f c) = Some a -> f n = f a -> hw_eq w inp f n
| hw_bin nd o a b rest : w_nodes w !! n = Some nd -> n_op nd = BIN o -> operands w n = a :: b :: rest ->
    (o = DIV -> f b <> 0) ->
    f n = bin_math o (num (sgn w a) (wd w a) (f a)) (num (sgn w b) (wd w b) (f b)) mod 2 ^ wd w n ->
    hw_eq w inp f n
| hw_not nd a rest : w_nodes w !! n = Some nd -> n_op nd = UN NOT -> operands w n = a :: rest ->
    f n = 2 ^ wd w n - 1 - f a -> hw_eq w inp f n
| hw_neg nd a rest : w_nodes w !! n = Some nd -> n_op nd = UN NEG -> operands w n = a :: rest ->
    f n = (- f a) mod 2 ^ wd w n -> hw_eq w inp f n
| hw_shl nd k a rest : w_nodes w !! n = Some nd -> n_op nd = SHL k -> operands w n = a :: rest ->
    f n = (f a * 2 ^ k) mod 2 ^ wd w n -> hw_eq w inp f n
| hw_shr nd k a rest : w_nodes w !! n = Some nd -> n_op nd = SHR k -> operands w n = a :: rest ->
    f n = (num (sgn w a) (wd w a) (f a) / 2 ^ k) mod 2 ^ wd w n -> hw_eq w inp f n.

(** *** The operators that are exact modulo 2^w *)
Definition ring_op (o : bop) : bool :=
  match o with ADD | SUB | MUL | AND | OR | XOR => true | _ => false end.
Definition fixed (w : world) (n : nat) : Prop :=
  exists s i f, type_of w n = Some (TFixed s i f).

(** [n] uses a ring operator on operands of its own width; a multiplexer's control
    has fewer than 64 bits and its simulated value fits it *)
Definition ring_node (w : world) (v : nat -> Z) (n : nat) : Prop :=
  exists nd, w_nodes w !! n = Some nd /\ 0 <= wd w n <= 64 /\
  match n_op nd with
  | IN | CONST _ => True
  | OUT | UN _ => fixed w n /\ forall a, a ∈ operands w n -> wd w a = wd w n
  | SHL k => 0 <= k /\ forall a, a ∈ operands w n -> wd w a = wd w n
  | BIN o => fixed w n /\ ring_op o = true /\ forall a, a ∈ operands w n -> wd w a = wd w n
  | MUX => exists c arms, operands w n = c :: arms /\ 0 <= wd w c < 64 /\ 0 <= v c < 2 ^ wd w c /\
           forall a, a ∈ arms -> wd w a = wd w n
  | _ => False
  end.

(** *** No result exceeds its type: unsigned kernels without overflow *)
Definition exact_node (w : world) (inp : string -> option Z) (f : nat -> Z) (n : nat) : Prop :=
  exists nd i fr, w_nodes w !! n = Some nd /\ 0 <= wd w n <= 64 /\ type_of w n = Some (TFixed false i fr) /\
  match n_op nd with
  | IN => forall x, inp (n_name nd) = Some x -> x < 2 ^ wd w n
  | CONST c => c < 2 ^ wd w n
  | OUT => forall a, a ∈ operands w n -> wd w a <= wd w n
  | SHR k => 0 <= k /\ forall a, a ∈ operands w n -> wd w a <= wd w n
  | MUX => exists c arms, operands w n = c :: arms /\ 0 <= wd w c < 64 /\
           forall a, a ∈ arms -> wd w a <= wd w n
  | BIN o => exists a b rest, operands w n = a :: b :: rest /\ 
      0 <= bin_math o (f a) (f b) < 2 ^ wd w n
  | SHL k => 0 <= k /\ exists a rest, operands w n = a :: rest /\ f a * 2 ^ k < 2 ^ wd w n
  | UN NEG => exists a rest, operands w n = a :: rest /\ f a = 0
  | _ => False
  end.
