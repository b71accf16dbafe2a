(** * The operators of the language in plain arithmetic (specification side). *)
From Coq Require Import ZArith Bool.
From Verif Require Import Types Word Value.
Local Open Scope Z_scope.

(** the integer a pattern of [k] bits denotes: unsigned, or two's complement *)
Definition num (signed : bool) (k x : Z) : Z :=
  if signed && (2 ^ (k - 1) <=? x) then x - 2 ^ k else x.

(** result of an operator on integers, before reduction to the result width *)
Definition bin_math (o : bop) (x y : Z) : Z :=
  match o with
  | ADD => x + y | SUB => x - y | MUL => x * y | DIV => Z.quot x y
  | AND => Z.land x y | OR => Z.lor x y | XOR => Z.lxor x y
  | LESS => b2z (x <? y) | LESSEQ => b2z (x <=? y)
  | GREATER => b2z (y <? x) | GREATEREQ => b2z (y <=? x)
  | EQ => b2z (x =? y) | NEQ => b2z (negb (x =? y))
  end.

(** [bin_val F o t x y z]: an operator node of type [t] evaluated on the 64-bit
    patterns [x], [y] has the pattern [z].  Unsigned arithmetic wraps at 64 bits,
    signed arithmetic is defined only while the result fits 64 bits, floating-point
    is the oracle, raw bits have only the bitwise operators. *)
Definition bin_val (F : fltops) (o : bop) (t : dftype) (x y z : Z) : Prop :=
  match o with
  | AND => z = Z.land x y | OR => z = Z.lor x y | XOR => z = Z.lxor x y
  | _ => match t with
         | TFixed false _ _ => (o = DIV -> y <> 0) /\ z = bin_math o x y mod 2 ^ 64
         | TFixed true _ _ =>
             let r := bin_math o (num true 64 x) (num true 64 y) in
             (o = DIV -> y <> 0) /\ - 2 ^ 63 <= r < 2 ^ 63 /\ z = r mod 2 ^ 64
         | TFloat _ _ => z = fl_bin F o x y
         | TRaw _ => False
         end
  end.
Definition un_val (F : fltops) (u : uop) (t : dftype) (x z : Z) : Prop :=
  match u with
  | NOT => z = 2 ^ 64 - 1 - x
  | NEG => match t with
           | TFixed false _ _ => z = (- x) mod 2 ^ 64
           | TFixed true _ _ => x <> 2 ^ 63 /\ z = (- num true 64 x) mod 2 ^ 64
           | TFloat _ _ => z = fl_neg F x
           | TRaw _ => False
           end
  end.
