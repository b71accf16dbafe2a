(** * The example encoders of Kuznechik.

    The constructors of OptKuznechikEncoder (examples/opt_kuznechik/opt_kuznechik_encoder.h) and
    KuznechikEncoderInst (examples/kuznechik_inst/kuznechik_enc_inst.h). They repeat the standard
    library's encoder (StdKernels.v) except for [S], whose loop starts at bit 127 instead of 119,
    so that the byte at the top is substituted twice and [S] returns 136 bits.
    [opt] selects the example: [true] is OptKuznechikEncoder, whose products are instances of
    Galois8MulOpt (examples/opt_kuznechik/galois8mul_opt.h, the same calls as KuznechikGalois8Mul);
    [false] is KuznechikEncoderInst, whose products are instances of Galois8Mul (lines 16-52 of its
    file, the same calls as the standard library's). R, L, LGalois, getConsts and tablePermut make
    the calls modelled in StdKernels.v, and so do the two decoders, opt_kuznechik_decoder.h and
    kuznechik_dec_inst.h, in full ([KuznechikDecoder]). The member galois8Mul is not called.
    examples/kuznechik/kuznechik_{encoder,decoder}.h, which inline the products, are in InlineKuz.v. *)
From Coq Require Import ZArith Bool String.
From stdpp Require Import gmap list.
From Verif Require Import Types Word Value Graph Dfcir Instance Prog StdKernels.
Local Open Scope string_scope.
Local Open Scope Z_scope.

(** S, opt_kuznechik_encoder.h:66-73, kuznechik_enc_inst.h:103-110: the loop runs from 127, 16 times *)
Definition ex_S (k value : nat) : prog nat :=
  do v <- bits value 127 120;
  do subst <- tablePermut k v false;
  pfold (fun s i => do v <- bits value (127 - 8 * Z.of_nat i) (120 - 8 * Z.of_nat i); do t <- tablePermut k v false; cat s t) subst (seq 0 16).
(** XSL, opt_kuznechik_encoder.h:197-201, kuznechik_enc_inst.h:242-246 *)
Definition ex_XSL (opt : bool) (k key value : nat) : prog nat :=
  do addedKey <- xor key value;
  do permut <- ex_S k addedKey;
  kuz_L opt k permut false.
(** F, opt_kuznechik_encoder.h:175-178, kuznechik_enc_inst.h:220-223 *)
Definition ex_F (opt : bool) (k constVal : nat) (a : nat * nat) : prog (nat * nat) :=
  do x <- ex_XSL opt k constVal (fst a);
  do y <- xor x (snd a);
  Ret (y, fst a).
(** genKeys, opt_kuznechik_encoder.h:180-195, kuznechik_enc_inst.h:225-240 *)
Definition ex_genKeys (opt : bool) (k k0 k1 : nat) : prog (list nat) :=
  do consts <- getConsts;
  pfold (fun keys i =>
      do curr <- pfold (fun c j => ex_F opt k (nth (8 * i + j) consts 0%nat) c) (nth (2 * i) keys 0%nat, nth (2 * i + 1) keys 0%nat) (seq 0 8);
      Ret (keys ++ [fst curr; snd curr])%list) [k0; k1] (seq 0 4).
(** the constructors, opt_kuznechik_encoder.h:203-220, kuznechik_enc_inst.h:248-265 *)
Definition ExampleEncoder (opt : bool) (k : nat) : prog nat :=
  do ioType <- dfUInt 128;
  do block <- io_input k "block" ioType;
  do keyType <- dfUInt 256;
  do key <- io_input k "key" keyType;
  do k0 <- bits key 255 128;
  do k1 <- bits key 127 0;
  do gKeys <- ex_genKeys opt k k0 k1;
  do currValue <- pfold (fun v i => ex_XSL opt k (nth i gKeys 0%nat) v) block (seq 0 9);
  do currValue <- xor currValue (nth 9 gKeys 0%nat);
  do encoded <- io_output k "encoded" ioType;
  do _ <- call (CConnect encoded currValue);
  Ret encoded.
