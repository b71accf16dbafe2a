(** * 64-bit machine words.

    The C++ simulator and the constant folder work on the union
    [{int64_t int_; uint64_t uint_; double double_}]
    (/repo/src/model/dfcxx/include/dfcxx/vars/constant.h, simulator.h).  A word is
    its bit pattern, an integer in [0, 2^64). *)
From Coq Require Import ZArith.
Local Open Scope Z_scope.

Definition two64 : Z := 18446744073709551616.
Definition two63 : Z := 9223372036854775808.

(** conversion to uint64_t *)
Definition w64 (z : Z) : Z := z mod two64.
(** reading the pattern as int64_t (two's complement) *)
Definition s64 (z : Z) : Z := if z <? two63 then z else z - two64.

Definition is_word (z : Z) : Prop := 0 <= z < two64.
(** does a mathematical integer fit int64_t? *)
Definition fits_s64 (z : Z) : bool := (- two63 <=? z) && (z <? two63).

Definition b2z (b : bool) : Z := if b then 1 else 0.

(** outcome of a C++ computation that may have undefined behaviour *)
Inductive cval : Type :=
| CV (z : Z)
| CUB.
