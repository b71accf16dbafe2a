(** * The example kernels of Kuznechik with the products inlined.

    The constructors of KuznechikEncoder (examples/kuznechik/kuznechik_encoder.h) and
    KuznechikDecoder (examples/kuznechik/kuznechik_decoder.h). They differ from the other
    examples (ExampleKuz.v) in [galois8Mul], a member that builds the shift-and-add product in
    the kernel itself instead of an instance; its left operand is a constant, so the first
    shift is folded to a constant (148 << 1 = 296, not reduced to 8 bits: constant.cpp folds in
    64 bits). Only the encoder's [S] starts at bit 127; [wide] tells the two apart. *)
From Coq Require Import ZArith Bool String.
From stdpp Require Import gmap list.
From Verif Require Import Types Word Value Graph Dfcir Instance Prog StdKernels ExampleKuz.
Local Open Scope string_scope.
Local Open Scope Z_scope.

(** galois8Mul, kuznechik_encoder.h:74-93, kuznechik_decoder.h:111-130; [left.getType()] is the
    type the constant was made with, here passed as [type] *)
Definition inline_mul (k type lft rgt : nat) : prog nat :=
  do c0 <- const_var type 0;
  do c195 <- const_var type 195;
  do s <- pfold (fun s _ => galois_step k c0 c195 s) (lft, rgt, c0) (seq 0 7);
  let '(lft, rgt, curr) := s in
  do isBitSet <- bits rgt 0 0;
  do m <- control_mux k isBitSet [c0; lft];
  xor curr m.
(** LGalois, kuznechik_encoder.h:95-117, kuznechik_decoder.h:132-154 *)
Definition inline_LGalois (k val : nat) : prog nat :=
  do type <- dfUInt 8;
  do consts <- const_vars type kuz_coeffs;
  do currSlice <- bits val 127 120;
  do result <- inline_mul k type (nth 0 consts 0%nat) currSlice;
  pfold (fun result i =>
    do currSlice <- bits val (127 - 8 * Z.of_nat i) (120 - 8 * Z.of_nat i);
    do buf <- inline_mul k type (nth i consts 0%nat) currSlice;
    xor result buf) result (seq 1 15).
(** R, kuznechik_encoder.h:119-121, kuznechik_decoder.h:156-163 *)
Definition in_R (k val : nat) (inv : bool) : prog nat :=
  if inv then
    do extracted <- bits val 119 0;
    do top <- bits val 127 120;
    do rot <- cat extracted top;
    do l <- inline_LGalois k rot;
    cat extracted l
  else
    do l <- inline_LGalois k val;
    do rest <- bits val 127 8;
    cat l rest.
(** L, kuznechik_encoder.h:123-129, kuznechik_decoder.h:165-171 *)
Definition in_L (k val : nat) (inv : bool) : prog nat := pfold (fun v _ => in_R k v inv) val (seq 0 16).
(** S, kuznechik_encoder.h:65-72, kuznechik_decoder.h:102-109 *)
Definition in_S (wide : bool) (k value : nat) : prog nat := if wide then ex_S k value else kuz_S k value false.
(** XSL, kuznechik_encoder.h:191-195, kuznechik_decoder.h:233-237 *)
Definition in_XSL (wide : bool) (k key value : nat) : prog nat :=
  do addedKey <- xor key value;
  do permut <- in_S wide k addedKey;
  in_L k permut false.
(** LSX, kuznechik_decoder.h:239-243 *)
Definition in_LSX (k key value : nat) : prog nat :=
  do lResult <- in_L k value true;
  do permut <- kuz_S k lResult true;
  xor key permut.
(** F, kuznechik_encoder.h:169-172, kuznechik_decoder.h:211-214 *)
Definition in_F (wide : bool) (k constVal : nat) (a : nat * nat) : prog (nat * nat) :=
  do x <- in_XSL wide k constVal (fst a);
  do y <- xor x (snd a);
  Ret (y, fst a).
(** genKeys, kuznechik_encoder.h:174-189, kuznechik_decoder.h:216-231 *)
Definition in_genKeys (wide : bool) (k k0 k1 : nat) : prog (list nat) :=
  do consts <- getConsts;
  pfold (fun keys i =>
      do curr <- pfold (fun c j => in_F wide k (nth (8 * i + j) consts 0%nat) c) (nth (2 * i) keys 0%nat, nth (2 * i + 1) keys 0%nat) (seq 0 8);
      Ret (keys ++ [fst curr; snd curr])%list) [k0; k1] (seq 0 4).
(** KuznechikEncoder, kuznechik_encoder.h:197-214 ([wide = true]) *)
Definition InlineEncoder (wide : bool) (k : nat) : prog nat :=
  do ioType <- dfUInt 128;
  do block <- io_input k "block" ioType;
  do keyType <- dfUInt 256;
  do key <- io_input k "key" keyType;
  do k0 <- bits key 255 128;
  do k1 <- bits key 127 0;
  do gKeys <- in_genKeys wide k k0 k1;
  do currValue <- pfold (fun v i => in_XSL wide k (nth i gKeys 0%nat) v) block (seq 0 9);
  do currValue <- xor currValue (nth 9 gKeys 0%nat);
  do encoded <- io_output k "encoded" ioType;
  do _ <- call (CConnect encoded currValue);
  Ret encoded.
(** KuznechikDecoder, kuznechik_decoder.h:245-260 ([wide = false]) *)
Definition InlineDecoder (wide : bool) (k : nat) : prog nat :=
  do ioType <- dfUInt 128;
  do encoded <- io_input k "encoded" ioType;
  do keyType <- dfUInt 256;
  do key <- io_input k "key" keyType;
  do k0 <- bits key 255 128;
  do k1 <- bits key 127 0;
  do gKeys <- in_genKeys wide k k0 k1;
  do currValue <- xor encoded (nth 9 gKeys 0%nat);
  do currValue <- pfold (fun v i => in_LSX k (nth i gKeys 0%nat) v) currValue (rev (seq 0 9));
  do block <- io_output k "block" ioType;
  do _ <- call (CConnect block currValue);
  Ret block.
