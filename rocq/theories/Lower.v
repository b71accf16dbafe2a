(** * Lowering of the unscheduled operations to FIRRTL primitives.

    Models the conversion patterns of DFCIRToFIRRTLPass.cpp
    (/repo/src/model/dfcir/lib/dfcir/passes): AndOp, OrOp, XorOp, NotOp :550-676,
    ShiftLeftOp :715-792, ShiftRightOp :794-874, MuxOp :896-932, BitsOp :934-967,
    CatOp :969-994.  [out] is the converted result type, operand [k] of the operation is
    [FArg k]; [kinds k] says whether operand [k] is an SInt. *)
From Coq Require Import ZArith Bool List.
From Verif Require Import Types OpSpec Value Graph Dfcir Stubs Firrtl Naming.
Import ListNotations.
Local Open Scope Z_scope.

(** [if (isa<SIntType>(newType)) newOp = AsSIntPrimOp(newOp)] *)
Definition maybe_sint (out : ptype) (e : fexpr) : fexpr := if p_signed out then FAsSInt e else e.

(** ShiftLeftOp :735-780; [oldWidth - 1] and [oldWidth - 2] are uint32_t turned into int32_t
    (the bounds of [FBits] are checked by [f_bits]) *)
Definition lower_shl (out : ptype) (n : Z) : fexpr :=
  let w := p_width out in
  let s := FShl (FArg 0) n in
  if p_signed out then
    FAsSInt (FCat (FAsSInt (FBits (FArg 0) (w - 1) (w - 1))) (FAsSInt (FBits s (w - 2) 0)))
  else FBits s (w - 1) 0.

(** BitsOp :946-951: with [left < right] the swap loses one of the bounds *)
Definition lower_bits (l r : Z) : fexpr :=
  if l <? r then FBits (FArg 0) l l else FBits (FArg 0) l r.

(** MuxOp :907-919: the control is reinterpreted unless it is a UInt *)
Definition lower_mux (ctl_signed : bool) (n : nat) : fexpr :=
  FMultibitMux (if ctl_signed then FAsUInt (FArg 0) else FArg 0) (map FArg (seq 1 n)).

Definition lower (o : dop) (ins : list ptype) (out : ptype) : option fexpr :=
  match o with
  | DBin AND => Some (maybe_sint out (FBitwise Fand out (FArg 0) (FArg 1)))
  | DBin OR => Some (maybe_sint out (FBitwise For out (FArg 0) (FArg 1)))
  | DBin XOR => Some (maybe_sint out (FBitwise Fxor out (FArg 0) (FArg 1)))
  | DUn NOT => Some (maybe_sint out (FNot out (FArg 0)))
  | DShl n => Some (lower_shl out n)
  | DShr n => Some (FPad out (FShr (FArg 0) n) (p_width out))
  | DBits l r => Some (lower_bits l r)
  | DCat => Some (FCat (FArg 0) (FArg 1))
  | DMux => match ins with
            | c :: arms => Some (lower_mux (p_signed c) (length arms))
            | [] => None
            end
  | _ => None
  end.

(** ConstantOp :290-327 with dfcir_builder.cpp:133-163: the attribute is an APInt of the
    width DFCxx reports, made from the 64-bit value (sign-extended if the type is signed).
    Constants of float and raw types get a signless attribute (constant.cpp:23-33), which
    a FIRRTL constant does not accept: no value. *)
Definition lower_const (t : dftype) (c : Z) : option fval :=
  match t with
  | TFixed s _ _ => Some (mkP s (total_bits t), num s 64 c mod 2 ^ total_bits t)
  | _ => None
  end.
