(** * The example kernel IDCT (examples/idct/idct.h).

    The constructor, call by call.  Where C++ leaves the order of two calls open (operands of
    an operator, arguments of a function) the model evaluates from left to right; the order
    affects only the numbering of the variables. *)
From Coq Require Import ZArith Bool String.
From stdpp Require Import gmap list.
From Verif Require Import Types Word Value Graph Instance Prog StdKernels.
Local Open Scope string_scope.
Local Open Scope Z_scope.

(** Kernel::dfInt and Kernel::dfRawBits, kernel.cpp:42-60 (the argument of [dfInt] is positive
    here, as it asserts) *)
Definition df_int (n : Z) : prog nat := call (CType (mkFixed true (u16 n - 1) 0)).
Definition df_raw (n : Z) : prog nat := call (CType (mkRaw n)).
(** DFVariable's operators, var.cpp *)
Definition add (a b : nat) : prog nat := call (CBin ADD a b).
Definition sub (a b : nat) : prog nat := call (CBin SUB a b).
Definition mul (a b : nat) : prog nat := call (CBin MUL a b).
Definition ge (a b : nat) : prog nat := call (CBin GREATEREQ a b).
Definition gt (a b : nat) : prog nat := call (CBin GREATER a b).
Definition shl (a : nat) (n : Z) : prog nat := call (CShift true a n).
Definition shr (a : nat) (n : Z) : prog nat := call (CShift false a n).
Definition cast (a ty : nat) : prog nat := call (CCast a ty).

(** idct.h:13-24 *)
Definition WIN : Z := 12.
Definition WBUF : Z := 32.
Definition WIM : Z := 13.
Definition WOUT : Z := 9.
Definition DIM : nat := 8.
Definition SIZE : nat := 64.

(** the constants of the constructor, idct.h:52-65 *)
Record tables := { c128 : nat; c181 : nat; c8192 : nat; c4 : nat; cM256 : nat; c255 : nat; cW1 : nat; cW2 : nat; cW3 : nat; cW5 : nat; cW6 : nat; cW7 : nat }.

(** [iclp], idct.h:37-43; [dfUInt(2)] makes a type *)
Definition iclp (k v left right : nat) : prog nat :=
  do muxType <- dfUInt 2;
  do g1 <- ge v left; do firstRange <- cast g1 muxType;
  do g2 <- gt v right; do secondRange <- cast g2 muxType;
  do muxValue <- add firstRange secondRange;
  control_mux k muxValue [left; v; right].
(** [((a op b) >> n).cast(t)] *)
Definition scale (o : nat -> nat -> prog nat) (a b : nat) (n : Z) (t : nat) : prog nat := do s <- o a b; do h <- shr s n; cast h t.
(** [(((a op b) * const181) + const128) >> 8], idct.h:108-109 and 152-153 *)
Definition rot181 (C : tables) (o : nat -> nat -> prog nat) (a b : nat) : prog nat := do s <- o a b; do m <- mul s (c181 C); do p <- add m (c128 C); shr p 8.
(** what both passes do last before the outputs, idct.h:99-109 and 143-153 *)
Definition butterfly (C : tables) (x8 y0 x2 x3 x4 x5 x6 x7 : nat) : prog (list nat) :=
  (* [y0] is x0; the result is x7 x1 x3 x2 x0 x4 x8 x6 *)
  do y1 <- add x4 x6; do y4 <- sub x4 x6;
  do y6 <- add x5 x7; do y5 <- sub x5 x7;
  do y7 <- add x8 x3; do y8 <- sub x8 x3;
  do y3 <- add y0 x2; do z0 <- sub y0 x2;
  do y2 <- rot181 C add y4 y5; do z4 <- rot181 C sub y4 y5;
  Ret [y7; y1; y3; y2; z0; z4; y8; y6].
(** one iteration of the first loop, idct.h:77-119 (the results are written by [IDCT]): [v] are values[DIM * i + 0..7] *)
Definition row_pass (C : tables) (bufType intermType : nat) (v : list nat) : prog (list nat) :=
  let g j := nth j v 0%nat in
  do a0 <- cast (g 0%nat) bufType; do b0 <- shl a0 11; do x0 <- add b0 (c128 C);
  do a1 <- cast (g 4%nat) bufType; do x1 <- shl a1 11;
  do x2 <- cast (g 6%nat) bufType; do x3 <- cast (g 2%nat) bufType;
  do x4 <- cast (g 1%nat) bufType; do x5 <- cast (g 7%nat) bufType;
  do x6 <- cast (g 5%nat) bufType; do x7 <- cast (g 3%nat) bufType;
  do s <- add x4 x5; do x8 <- mul s (cW7 C);
  do d <- sub (cW1 C) (cW7 C); do m <- mul x4 d; do x4 <- add x8 m;
  do d <- add (cW1 C) (cW7 C); do m <- mul x5 d; do x5 <- sub x8 m;
  do s <- add x6 x7; do x8 <- mul s (cW3 C);
  do d <- sub (cW3 C) (cW5 C); do m <- mul x6 d; do x6 <- sub x8 m;
  do d <- add (cW3 C) (cW5 C); do m <- mul x7 d; do x7 <- sub x8 m;
  do x8 <- add x0 x1; do y0 <- sub x0 x1;
  do s <- add x3 x2; do r1 <- mul s (cW6 C);
  do d <- add (cW2 C) (cW6 C); do m <- mul x2 d; do x2 <- sub r1 m;
  do d <- sub (cW2 C) (cW6 C); do m <- mul x3 d; do x3 <- add r1 m;
  do l <- butterfly C x8 y0 x2 x3 x4 x5 x6 x7;
  let h j := nth j l 0%nat in
  do r0 <- scale add (h 0%nat) (h 1%nat) 8 intermType; do r1 <- scale add (h 2%nat) (h 3%nat) 8 intermType;
  do r2 <- scale add (h 4%nat) (h 5%nat) 8 intermType; do r3 <- scale add (h 6%nat) (h 7%nat) 8 intermType;
  do r4 <- scale sub (h 6%nat) (h 7%nat) 8 intermType; do r5 <- scale sub (h 4%nat) (h 5%nat) 8 intermType;
  do r6 <- scale sub (h 2%nat) (h 3%nat) 8 intermType; do r7 <- scale sub (h 0%nat) (h 1%nat) 8 intermType;
  Ret [r0; r1; r2; r3; r4; r5; r6; r7].
(** one iteration of the second loop, idct.h:121-163: [v] are values[DIM * 0..7 + i] *)
Definition col_pass (C : tables) (k bufType intermType : nat) (v : list nat) : prog (list nat) :=
  let g j := nth j v 0%nat in
  do a0 <- cast (g 0%nat) bufType; do b0 <- shl a0 8; do x0 <- add b0 (c8192 C);
  do a1 <- cast (g 4%nat) bufType; do x1 <- shl a1 8;
  do x2 <- cast (g 6%nat) bufType; do x3 <- cast (g 2%nat) bufType;
  do x4 <- cast (g 1%nat) bufType; do x5 <- cast (g 7%nat) bufType;
  do x6 <- cast (g 5%nat) bufType; do x7 <- cast (g 3%nat) bufType;
  do s <- add x4 x5; do p <- mul s (cW7 C); do x8 <- add p (c4 C);
  do d <- sub (cW1 C) (cW7 C); do m <- mul x4 d; do q <- add x8 m; do x4 <- shr q 3;
  do d <- add (cW1 C) (cW7 C); do m <- mul x5 d; do q <- sub x8 m; do x5 <- shr q 3;
  do s <- add x6 x7; do p <- mul s (cW3 C); do x8 <- add p (c4 C);
  do d <- sub (cW3 C) (cW5 C); do m <- mul x6 d; do q <- sub x8 m; do x6 <- shr q 3;
  do d <- add (cW3 C) (cW5 C); do m <- mul x7 d; do q <- sub x8 m; do x7 <- shr q 3;
  do x8 <- add x0 x1; do y0 <- sub x0 x1;
  do s <- add x3 x2; do p <- mul s (cW6 C); do r1 <- add p (c4 C);
  do d <- add (cW2 C) (cW6 C); do m <- mul x2 d; do q <- sub r1 m; do x2 <- shr q 3;
  do d <- sub (cW2 C) (cW6 C); do m <- mul x3 d; do q <- add r1 m; do x3 <- shr q 3;
  do l <- butterfly C x8 y0 x2 x3 x4 x5 x6 x7;
  let h j := nth j l 0%nat in
  let clip o a b := do s <- scale o a b 14 intermType; iclp k s (cM256 C) (c255 C) in
  do r0 <- clip add (h 0%nat) (h 1%nat); do r1 <- clip add (h 2%nat) (h 3%nat);
  do r2 <- clip add (h 4%nat) (h 5%nat); do r3 <- clip add (h 6%nat) (h 7%nat);
  do r4 <- clip sub (h 6%nat) (h 7%nat); do r5 <- clip sub (h 4%nat) (h 5%nat);
  do r6 <- clip sub (h 2%nat) (h 3%nat); do r7 <- clip sub (h 0%nat) (h 1%nat);
  Ret [r0; r1; r2; r3; r4; r5; r6; r7].
(** values[at 0..7] are read, and written afterwards (idct.h:78-85 and 111-118, 122-129 and
    155-162: all the reads precede the writes) *)
Definition reads (at_ : nat -> nat) (values : list nat) : list nat := map (fun j => nth (at_ j) values 0%nat) (seq 0 8).
Definition writes {A} (at_ : nat -> nat) (values rs : list A) : list A := fold_left (fun l (p : nat * A) => <[at_ (fst p) := snd p]> l) (zip (seq 0 8) rs) values.
Definition row_at (i j : nat) : nat := (DIM * i + j)%nat.
Definition col_at (i j : nat) : nat := (DIM * j + i)%nat.
(** idct.h:45-176; the assertion of line 172 (the widths are equal) holds: the type of the
    concatenation has 64 * 9 bits *)
Definition IDCT (k : nat) : prog unit :=
  do inType <- df_int (WIN * Z.of_nat SIZE); do bufType <- df_int WBUF; do intermType <- df_int WIM; do outElementType <- df_int WOUT; do outType <- df_int (WOUT * Z.of_nat SIZE);
  do k128 <- const_var bufType 128; do k181 <- const_var bufType 181; do k8192 <- const_var bufType 8192; do k4 <- const_var bufType 4;
  do kM256 <- const_var intermType (-256); do k255 <- const_var intermType 255;
  do w1 <- const_var bufType 2841; do w2 <- const_var bufType 2676; do w3 <- const_var bufType 2408;
  do w5 <- const_var bufType 1609; do w6 <- const_var bufType 1108; do w7 <- const_var bufType 565;
  let C := {| c128 := k128; c181 := k181; c8192 := k8192; c4 := k4; cM256 := kM256; c255 := k255; cW1 := w1; cW2 := w2; cW3 := w3; cW5 := w5; cW6 := w6; cW7 := w7 |} in
  do x <- io_input k "x" inType;
  do values <- pmap (fun i => let rightInd := Z.of_nat i * WIN in bits x ((WIN - 1) + rightInd) rightInd) (seq 0 SIZE);
  do values <- pfold (fun values i => do r <- row_pass C bufType intermType (reads (row_at i) values); Ret (writes (row_at i) values r)) values (seq 0 DIM);
  do values <- pfold (fun values i => do r <- col_pass C k bufType intermType (reads (col_at i) values); Ret (writes (col_at i) values r)) values (seq 0 DIM);
  do bitsType <- df_raw 9;
  do first <- cast (nth 0 values 0%nat) bitsType;
  do currConcat <- pfold (fun curr i => do casted <- cast (nth i values 0%nat) bitsType; cat casted curr) first (seq 1 (SIZE - 1));
  do out <- io_output k "out" outType;
  do res <- cast currConcat outType;
  do _ <- call (CConnect out res);
  Ret tt.
