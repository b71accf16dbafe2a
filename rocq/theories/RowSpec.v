(** * What the example kernel RowIDCT is to compute (specification).

    64 inputs "x0", ..., "x63" and 64 outputs "out0", ..., "out63", all signed numbers of 16
    bits, stand for the rows of an 8x8 block; every row goes through the first pass of the
    fixed-point inverse cosine transform of IdctSpec.v. *)
From Coq Require Import ZArith List String.
Import ListNotations.
From Verif Require Import SimInput IdctSpec.
Local Open Scope Z_scope.

Definition xname (i : nat) : string := String.append "x" (dec i).
Definition oname (i : nat) : string := String.append "out" (dec i).
(** the pass over the row [b], with results of 16 bits *)
Definition row_out (b : nat -> Z) (j : nat) : Z := wrap 16 (fold8 (row_even b) (row_odd b) j / 2 ^ 8).
(** the bit pattern of output [n], the inputs having the bit patterns [X] *)
Definition row_word (X : nat -> Z) (n : nat) : Z := row_out (fun c => wrap 16 (X (8 * (n / 8) + c)%nat)) (n mod 8) mod 2 ^ 16.
