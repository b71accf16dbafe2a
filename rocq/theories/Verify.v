(** * The verifier of the DFCIR dialect.

    MLIR runs the verifier of every operation after each pass of a pass manager (the
    default, not changed by dfcir_processor.cpp:56-125); the first time is after the
    scheduler, when offsets are gone.  If it fails, [pm.run] fails and [compile] returns
    false (dfcir_processor.cpp:121-122).  The checks of an operation are declared in
    DFCIROperations.td: the types of operands and results, and traits.
    Simplified: the checks of attributes, regions and of the operation [kernel] are left
    out (the builder always satisfies them); [Variable] (DFCIRTypes.td:135) is any of
    Stream, Scalar, Const, which every value is. *)
From Coq Require Import ZArith Bool String.
From stdpp Require Import gmap list.
From Verif Require Import Types Word Value Graph GraphSpec Dfcir.
Local Open Scope Z_scope.

(** the type of a value: Stream, Scalar or Const of a data type (DFCIRTypes.td:97-135) *)
Notation vtype := (vkind * dftype)%type.
Definition is_stream_ty (v : vtype) : bool := match fst v with VStream => true | _ => false end.
Definition dftype_eqb (a b : dftype) : bool :=
  match a, b with
  | TFixed s i f, TFixed s' i' f' => Bool.eqb s s' && (i =? i') && (f =? f')
  | TFloat i f, TFloat i' f' => (i =? i') && (f =? f')
  | TRaw n, TRaw n' => n =? n'
  | _, _ => false
  end.
Definition vkind_eqb (a b : vkind) : bool :=
  match a, b with VStream, VStream | VScalar, VScalar | VConst, VConst => true | _, _ => false end.
Definition vtype_eqb (a b : vtype) : bool := vkind_eqb (fst a) (fst b) && dftype_eqb (snd a) (snd b).

(** the checks of one operation with result type [res] and operand types [args];
    DFCIROperations.td: scalarInput :37-51, scalarOutput :53-67, input :69-83, output :85-100,
    constant :102-109, latency :120-144, neg :245, offset :363-372, mux :382-391,
    less ... div :393-415, and/or/xor :417-448, not :450-459 (neg and not have the trait
    SameOperandsAndResultType), cast :461, bits :463-473, cat :475-484, shl/shr :486-500 *)
Definition verify_op (o : dop) (res : vtype) (args : list vtype) : bool :=
  match o, args with
  | DIn false _, [] | DOut false _, [] => vkind_eqb (fst res) VStream
  | DIn true _, [] | DOut true _, [] => vkind_eqb (fst res) VScalar
  | DConst _, [] => vkind_eqb (fst res) VConst
  | DOffset _, [a] => is_stream_ty a && is_stream_ty res
  | DMux, c :: _ => is_stream_ty c
  | DBin _, [_; _] | DCat, [_; _] => true
  | DUn _, [a] => vtype_eqb a res
  | (DCast | DShl _ | DShr _ | DBits _ _ | DLatency), [_] => true
  | _, _ => false
  end.

(** a program: the statements in order, with the types of the values defined so far (a value
    is defined once and before it is used) *)
Fixpoint check_program (chk : dop -> vtype -> list vtype -> bool) (env : gmap nat vtype) (P : program) : bool :=
  match P with
  | [] => true
  | Def r o k t _ a :: P' =>
      match env !! r, mapM (fun x => env !! x) a with
      | None, Some vs => chk o (k, t) vs && check_program chk (<[r := (k, t)]> env) P'
      | _, _ => false
      end
  | Con d s :: P' =>
      match env !! d, env !! s with
      | Some _, Some _ => check_program chk env P'
      | _, _ => false
      end
  end.
Definition verified (P : program) : Prop := check_program verify_op ∅ P = true.
