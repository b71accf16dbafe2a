(** * DFCxx types.

    Models /repo/src/model/dfcxx/lib/dfcxx/types/{fixed,float,raw_bits}.cpp,
    type_builder.cpp and the [Kernel::df*] helpers of kernel.cpp:37-65.
    All field widths are written into the model: [uint16_t] fields are taken
    modulo 2^16 and the [uint8_t] fields of [FloatType] modulo 2^8. *)
From Coq Require Import ZArith Bool.
Local Open Scope Z_scope.

Definition u16 (z : Z) : Z := z mod 65536.
Definition u8 (z : Z) : Z := z mod 256.

(** [FixedType(mode, intBits, fracBits)], [FloatType(expBits, fracBits)],
    [RawBitsType(bits)] (types/*.h). *)
Inductive dftype : Type :=
| TFixed (signed : bool) (intBits fracBits : Z)
| TFloat (expBits fracBits : Z)
| TRaw (bits : Z).

(** fixed.cpp:13-15, float.cpp:13-14 (parameters are [uint8_t]: the caller's
    16-bit values are truncated), raw_bits.cpp:13; type_builder.cpp:13-46. *)
Definition mkFixed (signed : bool) (i f : Z) : dftype := TFixed signed (u16 i) (u16 f).
Definition mkFloat (e f : Z) : dftype := TFloat (u8 e) (u8 f).
Definition mkRaw (n : Z) : dftype := TRaw (u16 n).
(** type_builder.cpp:19-21 *)
Definition mkBool : dftype := mkFixed false 1 0.

(** kernel.cpp:37-60; [dfInt] asserts [bits > 0]. *)
Definition dfUInt (bits : Z) : dftype := mkFixed false bits 0.
Definition dfInt (bits : Z) : option dftype :=
  if 0 <? u16 bits then Some (mkFixed true (u16 bits - 1) 0) else None.

(** fixed.cpp:29-31, float.cpp:24-26, raw_bits.cpp:15-17 (all return uint16_t). *)
Definition total_bits (t : dftype) : Z :=
  match t with
  | TFixed s i f => u16 ((if s then 1 else 0) + i + f)
  | TFloat e f => u16 (e + f + 1)
  | TRaw n => n
  end.

(** fixed.cpp:33-41, float.cpp:28-34, raw_bits.cpp:19-25 (virtual dispatch on the
    left operand, kind test on the right one). *)
Definition ty_eqb (a b : dftype) : bool :=
  match a with
  | TFixed s i f =>
      match b with
      | TFixed s' i' f' => Bool.eqb s s' && (i =? i') && (f =? f')
      | _ => false
      end
  | TFloat e f =>
      match b with TFloat e' f' => (e =? e') && (f =? f') | _ => false end
  | TRaw n =>
      match b with TRaw n' => n =? n' | _ => false end
  end.

(** type_builder.cpp:27-42.  For a raw-bits type the code casts the object to
    [FloatType] (undefined behaviour): [None]. *)
Definition shifted_type (t : dftype) (shift : Z) : option dftype :=
  match t with
  | TFixed s i f => Some (mkFixed s (i + shift) f)
  | TFloat e f => Some (mkFloat e (f + shift))
  | TRaw _ => None
  end.

(** fixed.cpp:43-61 and type.cpp:17-27 *)
Definition is_fixed (t : dftype) : bool := match t with TFixed _ _ _ => true | _ => false end.
Definition is_float (t : dftype) : bool := match t with TFloat _ _ => true | _ => false end.
Definition is_raw (t : dftype) : bool := match t with TRaw _ => true | _ => false end.
Definition is_signed (t : dftype) : bool := match t with TFixed s _ _ => s | _ => false end.
Definition is_int (t : dftype) : bool := match t with TFixed _ _ f => f =? 0 | _ => false end.
Definition is_bool (t : dftype) : bool :=
  match t with TFixed s i f => negb s && (i =? 1) && (f =? 0) | _ => false end.
