(** * Types of variables (specification). *)
From Coq Require Import ZArith Bool.
From stdpp Require Import gmap list.
From Verif Require Import Types Word Value Graph GraphSpec.
Local Open Scope Z_scope.

(** the type [t] an operation must have when its operands have the types [args] (an
    operation may be followed by drivers added by [connect]) *)
Definition typing (o : opk) (t : dftype) (args : list dftype) : Prop :=
  match o with
  | NONE | IN | OUT | CONST _ => True
  | CAST => exists a rest, args = a :: rest
  | BIN b => exists a1 a2 rest, args = a1 :: a2 :: rest /\ t = if is_comp b then TFixed false 1 0 else a1
  | UN _ | SHL _ | SHR _ | OFFSET _ => exists rest, args = t :: rest
  | BITS l r => exists a rest, args = a :: rest /\ 0 <= r <= l /\ l < total_bits a /\ t = TRaw ((l - r + 1) mod 65536)
  | CAT => exists a b rest, args = a :: b :: rest /\ t = TRaw ((total_bits a + total_bits b) mod 65536)
  | MUX => exists c rest, args = c :: t :: rest
  end.
(** what a type says about the bit patterns of a value: raw bits are unsigned integers *)
Definition kind (t : dftype) : dftype := match t with TRaw n => TFixed false n 0 | _ => t end.
(** the operands are of the same kinds as operands that have the types required *)
Definition kind_typing (o : opk) (t : dftype) (args : list dftype) : Prop :=
  exists args', map kind args = map kind args' /\ typing o t args'.
Definition typed_by (T : opk -> dftype -> list dftype -> Prop) (w : world) : Prop :=
  forall n nd t, w_nodes w !! n = Some nd -> w_types w !! n_ty nd = Some t ->
  exists args, Forall2 (fun a ta => type_of w a = Some ta) (operands w n) args /\ T (n_op nd) t args.
Definition well_typed (w : world) : Prop := typed_by typing w.
Definition kind_typed (w : world) : Prop := typed_by kind_typing w.
