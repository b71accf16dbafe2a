(** * The example kernel RowIDCT (examples/row_idct/row_idct.h).

    The constructor, call by call.  Where C++ leaves the order of two calls open (operands of
    an operator) the model evaluates from left to right; the order affects only the numbering
    of the variables. *)
From Coq Require Import ZArith Bool String.
From stdpp Require Import gmap list.
From Verif Require Import Types Word Value Graph Instance Prog SimInput StdKernels Idct RowSpec.
Local Open Scope Z_scope.

(** row_idct.h:29-105; the pass over a row (lines 55-100) has the same calls as the first
    loop of IDCT ([row_pass]).  The names of lines 51 and 103 are ["x" + std::to_string(i)]
    and ["out" + std::to_string(i)]. *)
Definition RowIDCT (k : nat) : prog unit :=
  do shortType <- df_int 16; do type <- df_int 32;
  do k128 <- const_var type 128; do k181 <- const_var type 181; do k8192 <- const_var type 8192; do k4 <- const_var type 4;
  do kM256 <- const_var shortType (-256); do k255 <- const_var shortType 255;
  do w1 <- const_var type 2841; do w2 <- const_var type 2676; do w3 <- const_var type 2408;
  do w5 <- const_var type 1609; do w6 <- const_var type 1108; do w7 <- const_var type 565;
  let C := {| c128 := k128; c181 := k181; c8192 := k8192; c4 := k4; cM256 := kM256; c255 := k255; cW1 := w1; cW2 := w2; cW3 := w3; cW5 := w5; cW6 := w6; cW7 := w7 |} in
  do values <- pmap (fun i => io_input k (xname i) shortType) (seq 0 SIZE);
  do values <- pfold (fun values i => do r <- row_pass C type shortType (reads (row_at i) values); Ret (writes (row_at i) values r)) values (seq 0 DIM);
  do _ <- pmap (fun i => do out <- io_output k (oname i) shortType; call (CConnect out (nth i values 0%nat))) (seq 0 SIZE);
  Ret tt.
