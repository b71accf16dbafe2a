(** * The FIRRTL primitive operations the lowering uses
      (specification side: FIRRTL specification, "Primitive Operations", and the
      multi-bit multiplexer and connect of the CIRCT dialect).

    A value is a ground type (SInt/UInt and width) and a bit pattern in [0, 2^width).
    [None]: the construct is ill typed (the verifier rejects it) or has no defined
    value. *)
From Coq Require Import ZArith Bool List.
From Verif Require Import OpSpec Stubs.
Import ListNotations.
Local Open Scope Z_scope.

Notation fval := (ptype * Z)%type.
Definition ptype_eqb (a b : ptype) : bool :=
  Bool.eqb (p_signed a) (p_signed b) && (p_width a =? p_width b).
Definition fnum (v : fval) : Z := num (p_signed (fst v)) (p_width (fst v)) (snd v).

Inductive fbit : Set := Fand | For | Fxor.
Definition fbit_fun (o : fbit) : Z -> Z -> Z :=
  match o with Fand => Z.land | For => Z.lor | Fxor => Z.lxor end.

Inductive fexpr : Set :=
| FArg (k : nat)                              (** operand number [k] *)
| FBitwise (o : fbit) (t : ptype) (a b : fexpr)    (** and/or/xor, built with result type [t] *)
| FNot (t : ptype) (a : fexpr)
| FShl (a : fexpr) (n : Z) | FShr (a : fexpr) (n : Z)
| FPad (t : ptype) (a : fexpr) (n : Z)
| FBits (a : fexpr) (hi lo : Z) | FCat (a b : fexpr)
| FAsSInt (a : fexpr) | FAsUInt (a : fexpr)
| FMultibitMux (c : fexpr) (arms : list fexpr).

(** an operation built with an explicit result type is accepted only if that is the type
    the operation infers *)
Definition as_type (t : ptype) (v : fval) : option fval :=
  if ptype_eqb (fst v) t then Some v else None.
(** the pattern of [v] extended to [k] bits (by its sign if it is an SInt) *)
Definition fext (v : fval) (k : Z) : Z := fnum v mod 2 ^ k.

(** and, or, xor: both operands of one kind; UInt of the larger width *)
Definition f_bitwise (o : fbit) (a b : fval) : option fval :=
  if Bool.eqb (p_signed (fst a)) (p_signed (fst b)) then
    let k := Z.max (p_width (fst a)) (p_width (fst b)) in
    Some (mkP false k, fbit_fun o (fext a k) (fext b k))
  else None.
Definition f_not (a : fval) : option fval :=
  Some (mkP false (p_width (fst a)), 2 ^ p_width (fst a) - 1 - snd a).
Definition f_shl (a : fval) (n : Z) : option fval :=
  if 0 <=? n then Some (mkP (p_signed (fst a)) (p_width (fst a) + n), snd a * 2 ^ n) else None.
(** shifting out everything leaves one bit: 0, or the sign *)
Definition f_shr (a : fval) (n : Z) : option fval :=
  if 0 <=? n then
    let k := Z.max (p_width (fst a) - n) 1 in
    Some (mkP (p_signed (fst a)) k, (fnum a / 2 ^ n) mod 2 ^ k)
  else None.
Definition f_pad (a : fval) (n : Z) : option fval :=
  let k := Z.max (p_width (fst a)) n in
  Some (mkP (p_signed (fst a)) k, fext a k).
Definition f_bits (a : fval) (hi lo : Z) : option fval :=
  if (0 <=? lo) && (lo <=? hi) && (hi <? p_width (fst a)) then
    Some (mkP false (hi - lo + 1), (snd a / 2 ^ lo) mod 2 ^ (hi - lo + 1))
  else None.
(** concatenation: both operands of one kind; always a UInt *)
Definition f_cat (a b : fval) : option fval :=
  if Bool.eqb (p_signed (fst a)) (p_signed (fst b)) then
    Some (mkP false (p_width (fst a) + p_width (fst b)), snd a * 2 ^ p_width (fst b) + snd b)
  else None.
Definition f_cast (s : bool) (a : fval) : option fval := Some (mkP s (p_width (fst a)), snd a).

(** multibit_mux(index, v_{n-1}, ..., v_0): the index must be a UInt, all inputs have one
    type, inputs are counted from the last one, an index past the first one selects
    nothing defined *)
Definition f_mux (c : fval) (arms : list fval) : option fval :=
  match arms with
  | [] => None
  | a :: r =>
      if negb (p_signed (fst c)) && forallb (fun b => ptype_eqb (fst b) (fst a)) r then
        if snd c <? Z.of_nat (length arms) then nth_error arms (length arms - 1 - Z.to_nat (snd c)) else None
      else None
  end.

Fixpoint sequence {A} (l : list (option A)) : option (list A) :=
  match l with
  | [] => Some []
  | Some a :: r => match sequence r with Some x => Some (a :: x) | None => None end
  | None :: _ => None
  end.
Definition obind {A B} (x : option A) (f : A -> option B) : option B :=
  match x with Some a => f a | None => None end.

Fixpoint feval (args : list fval) (e : fexpr) : option fval :=
  match e with
  | FArg k => nth_error args k
  | FBitwise o t a b => obind (feval args a) (fun x => obind (feval args b) (fun y => obind (f_bitwise o x y) (as_type t)))
  | FNot t a => obind (feval args a) (fun x => obind (f_not x) (as_type t))
  | FShl a n => obind (feval args a) (fun x => f_shl x n)
  | FShr a n => obind (feval args a) (fun x => f_shr x n)
  | FPad t a n => obind (feval args a) (fun x => obind (f_pad x n) (as_type t))
  | FBits a hi lo => obind (feval args a) (fun x => f_bits x hi lo)
  | FCat a b => obind (feval args a) (fun x => obind (feval args b) (fun y => f_cat x y))
  | FAsSInt a => obind (feval args a) (f_cast true)
  | FAsUInt a => obind (feval args a) (f_cast false)
  | FMultibitMux c arms =>
      obind (feval args c) (fun x => obind (sequence (map (feval args) arms)) (fun l => f_mux x l))
  end.

(** connect: the source is extended to the type of the sink, which has the same kind and
    is not narrower *)
Definition f_connect (sink : ptype) (v : fval) : option Z :=
  if Bool.eqb (p_signed sink) (p_signed (fst v)) && (p_width (fst v) <=? p_width sink)
  then Some (fext v (p_width sink)) else None.
