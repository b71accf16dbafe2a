(** * Operators of the DFCxx expression language and their C++ meaning on 64-bit
    words.  Shared by the constant folder and the simulator because both apply the
    *C++* operator to operands of type int64_t, uint64_t or double. *)
From Coq Require Import ZArith Bool.
From Verif Require Import Types Word.
Local Open Scope Z_scope.

(** node.h:20-47 (the binary members of [OpType]) *)
Inductive bop := ADD | SUB | MUL | DIV | AND | OR | XOR
               | LESS | LESSEQ | GREATER | GREATEREQ | EQ | NEQ.
Inductive uop := NOT | NEG.

Definition is_comp (o : bop) : bool :=
  match o with LESS | LESSEQ | GREATER | GREATEREQ | EQ | NEQ => true | _ => false end.
Definition is_bitwise (o : bop) : bool :=
  match o with AND | OR | XOR => true | _ => false end.

(** C++ arithmetic types used by the code. *)
Inductive ctype := CInt | CUInt | CDouble.

(** IEEE double arithmetic on bit patterns is an oracle: all theorems hold for any. *)
Record fltops := { fl_bin : bop -> Z -> Z -> Z; fl_neg : Z -> Z }.

(** [int64_t op int64_t]: overflow and division by zero are undefined behaviour. *)
Definition c_int (o : bop) (a b : Z) : cval :=
  let x := s64 a in let y := s64 b in
  let ret r := if fits_s64 r then CV (w64 r) else CUB in
  match o with
  | ADD => ret (x + y)
  | SUB => ret (x - y)
  | MUL => ret (x * y)
  | DIV => if y =? 0 then CUB else ret (Z.quot x y)
  | AND => CV (Z.land a b)
  | OR => CV (Z.lor a b)
  | XOR => CV (Z.lxor a b)
  | LESS => CV (b2z (x <? y))
  | LESSEQ => CV (b2z (x <=? y))
  | GREATER => CV (b2z (y <? x))
  | GREATEREQ => CV (b2z (y <=? x))
  | EQ => CV (b2z (x =? y))
  | NEQ => CV (b2z (negb (x =? y)))
  end.

(** [uint64_t op uint64_t]: wraps; division by zero is undefined behaviour. *)
Definition c_uint (o : bop) (a b : Z) : cval :=
  match o with
  | ADD => CV (w64 (a + b))
  | SUB => CV (w64 (a - b))
  | MUL => CV (w64 (a * b))
  | DIV => if b =? 0 then CUB else CV (a / b)
  | AND => CV (Z.land a b)
  | OR => CV (Z.lor a b)
  | XOR => CV (Z.lxor a b)
  | LESS => CV (b2z (a <? b))
  | LESSEQ => CV (b2z (a <=? b))
  | GREATER => CV (b2z (b <? a))
  | GREATEREQ => CV (b2z (b <=? a))
  | EQ => CV (b2z (a =? b))
  | NEQ => CV (b2z (negb (a =? b)))
  end.

Definition c_bin (F : fltops) (t : ctype) (o : bop) (a b : Z) : cval :=
  match t with
  | CInt => c_int o a b
  | CUInt => c_uint o a b
  | CDouble => CV (fl_bin F o a b)
  end.

(** unary minus; [-INT64_MIN] is undefined behaviour *)
Definition c_neg (F : fltops) (t : ctype) (a : Z) : cval :=
  match t with
  | CInt => if fits_s64 (- s64 a) then CV (w64 (- s64 a)) else CUB
  | CUInt => CV (w64 (- a))
  | CDouble => CV (fl_neg F a)
  end.

(** [~] on uint64_t *)
Definition c_not (a : Z) : cval := CV (two64 - 1 - a).

(** [<<], [>>] on uint64_t with a uint8_t count: counts >= 64 are undefined. *)
Definition c_shl (a n : Z) : cval := if n <? 64 then CV (w64 (a * 2 ^ n)) else CUB.
Definition c_shr (a n : Z) : cval := if n <? 64 then CV (a / 2 ^ n) else CUB.

(** ** Constant folding: vars/constant.cpp:23-33 (kindByType; raw bits count as
    FLOAT), :56-147, :150-213. *)
Definition kind_by_type (t : dftype) : ctype :=
  match t with
  | TFixed true _ _ => CInt
  | TFixed false _ _ => CUInt
  | _ => CDouble
  end.

Definition fold_bin (F : fltops) (o : bop) (t : dftype) (a b : Z) : cval :=
  if is_bitwise o then c_uint o a b      (* :99-126 always on uint_ *)
  else
  match kind_by_type t with
  | CDouble =>
      (* a double comparison converts bool to double: same oracle *)
      c_bin F CDouble o a b
  | k => c_bin F k o a b
  end.
Definition fold_un (F : fltops) (u : uop) (t : dftype) (a : Z) : cval :=
  match u with NOT => c_not a | NEG => c_neg F (kind_by_type t) a end.

(** ** Simulator operators: simulator.cpp:97-186.  [ty] is the type of the *node*.
    [None]: the processing function returns false. *)
Definition sim_ctype (ty : dftype) : option ctype :=
  match ty with
  | TFixed true _ _ => Some CInt
  | TFixed false _ _ => Some CUInt
  | TFloat _ _ => Some CDouble
  | TRaw _ => None
  end.

Definition sim_bin (F : fltops) (o : bop) (ty : dftype) (a b : Z) : option cval :=
  if is_bitwise o then Some (c_uint o a b)         (* :137-151 *)
  else match sim_ctype ty with                     (* :97-135 *)
       | Some k => Some (c_bin F k o a b)
       | None => None
       end.
Definition sim_un (F : fltops) (u : uop) (ty : dftype) (a : Z) : option cval :=
  match u with
  | NOT => Some (c_not a)                          (* :153-157 *)
  | NEG => match sim_ctype ty with                 (* :159-174 *)
           | Some k => Some (c_neg F k a)
           | None => None
           end
  end.
