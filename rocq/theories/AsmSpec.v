(** * Well-formed dialect programs, and programs that differ only in the names of values
    (specification). *)
From Coq Require Import ZArith Bool String.
From stdpp Require Import gmap list.
From Verif Require Import Types Word Value OpSpec Graph GraphSpec Dfcir Sched SchedSpec Verify Asm.
Local Open Scope Z_scope.

(** the operands and the integer attributes of an operation *)
Definition uses (o : aop) : list nat :=
  match o with
  | OScalarInput _ _ | OConstant _ _ => []
  | OScalarOutput _ _ i | OInput _ _ i => match i with Some v => [v] | None => [] end
  | OOutput _ _ c i => (match c with Some v => [v] | None => [] end ++ match i with Some v => [v] | None => [] end)%list
  | OLatency _ a _ | OUnary _ _ a _ | OOffset a _ _ | OConvert a _ | ONot a _ | OBits a _ _ _ | OShift _ a _ _ | OCounter _ a => [a]
  | OBinary _ _ a b _ | OLogic _ a b _ => [a; b]
  | OMux c vs _ => c :: vs
  end.
Definition attributes (o : aop) : list iattr :=
  match o with
  | OConstant _ v => [v]
  | OLatency l _ _ | OUnary _ l _ _ | OBinary _ l _ _ _ => [l]
  | OOffset _ f _ => [f]
  | OBits _ l r _ => [l; r]
  | OShift _ _ n _ => [n]
  | _ => []
  end.

(** a value of its type; the parameters of types are 32-bit numbers *)
Definition attr_ok (a : iattr) : Prop := 0 <= ia_width a /\ 0 <= ia_bits a < 2 ^ ia_width a.
Definition type_ok (t : dftype) : Prop :=
  match t with
  | TFixed _ i f => 0 <= i < 2 ^ 32 /\ 0 <= f < 2 ^ 32
  | TFloat e f => 0 <= e < 2 ^ 32 /\ 0 <= f < 2 ^ 32
  | TRaw n => 0 <= n < 2 ^ 32
  end.

(** [G]: the values defined so far, with their types.  A value is defined once and before it is
    used; an offset has the type of its operand; a multiplexer has an input; a counter counts
    to a scalar *)
Inductive wellformed : gmap nat vtype -> aprog -> Prop :=
| wf_nil G : wellformed G []
| wf_connect G d s P : is_Some (G !! d) -> is_Some (G !! s) -> wellformed G P -> wellformed G (AConnect d s :: P)
| wf_def G v o P :
    G !! v = None -> (forall u, u ∈ uses o -> is_Some (G !! u)) ->
    (forall a, a ∈ attributes o -> attr_ok a) -> type_ok (snd (result_type o)) ->
    (forall a f r, o = OOffset a f r -> G !! a = Some r /\ fst r = VStream) ->
    (forall c r, o <> OMux c [] r) ->
    (forall t m, o = OCounter t m -> exists t', G !! m = Some (VScalar, t')) ->
    wellformed (<[v := result_type o]> G) P -> wellformed G (ADef v o :: P).

(** the same program with other names of values *)
Definition rename_op (f : nat -> nat) (o : aop) : aop :=
  match o with
  | OScalarInput t s => OScalarInput t s
  | OScalarOutput t s i => OScalarOutput t s (f <$> i)
  | OInput t s c => OInput t s (f <$> c)
  | OOutput t s c i => OOutput t s (f <$> c) (f <$> i)
  | OConstant t v => OConstant t v
  | OLatency l a r => OLatency l (f a) r
  | OUnary c l a r => OUnary c l (f a) r
  | OBinary o l a b r => OBinary o l (f a) (f b) r
  | OOffset a x r => OOffset (f a) x r
  | OConvert a r => OConvert (f a) r
  | OMux c vs r => OMux (f c) (map f vs) r
  | OLogic o a b r => OLogic o (f a) (f b) r
  | ONot a r => ONot (f a) r
  | OBits a l x r => OBits (f a) l x r
  | OShift l a n r => OShift l (f a) n r
  | OCounter t m => OCounter t (f m)
  end.
Definition rename_stmt (f : nat -> nat) (s : astmt) : astmt :=
  match s with ADef v o => ADef (f v) (rename_op f o) | AConnect d s => AConnect (f d) (f s) end.
Definition adefs (P : aprog) : list nat := omap (fun s => match s with ADef v _ => Some v | _ => None end) P.
Definition same (P P' : aprog) : Prop :=
  exists f, (forall u v, u ∈ adefs P -> v ∈ adefs P -> f u = f v -> u = v) /\ P' = map (rename_stmt f) P.

(** ** The programs of Dfcir.v *)
(** an operation with its numbers reduced to the width of the attribute that holds them *)
Definition reduce (t : dftype) (o : dop) : dop :=
  match o with
  | DConst v => DConst (match t with TFixed s _ _ => num s 64 v | _ => v end mod 2 ^ total_bits t)
  | DOffset d => DOffset (d mod 2 ^ 64)
  | DShl n => DShl (n mod 2 ^ 32)
  | DShr n => DShr (n mod 2 ^ 32)
  | DBits x y => DBits (x mod 2 ^ 32) (y mod 2 ^ 32)
  | _ => o
  end.
(** the operations that have a latency *)
Definition timed (o : dop) : bool :=
  match o with
  | DBin (AND | OR | XOR) => false
  | DBin _ | DUn NEG | DCast | DLatency => true
  | _ => false
  end.
Definition reduce_stmt (s : stmt) : stmt :=
  match s with Def r o k t l a => Def r (reduce t o) k t (if timed o then l mod 2 ^ 32 else 0) a | Con d s => Con d s end.
Definition rename_def (f : nat -> nat) (s : stmt) : stmt :=
  match s with Def r o k t l a => Def (f r) o k t l (map f a) | Con d s => Con (f d) (f s) end.
(** the same program but for the names of values *)
Definition same_program (P P' : program) : Prop :=
  exists f, (forall u v, u ∈ defs P -> v ∈ defs P -> f u = f v -> u = v) /\ map reduce_stmt P' = map (rename_def f) (map reduce_stmt P).

(** what the text of an operation says: its name, and the numbers in it *)
Definition spelling (o : dop) : string :=
  match o with
  | DIn false _ => "dfcir.input" | DIn true _ => "dfcir.scalarInput"
  | DOut false _ => "dfcir.output" | DOut true _ => "dfcir.scalarOutput"
  | DConst _ => "dfcir.constant" | DOffset _ => "dfcir.offset" | DMux => "dfcir.mux" | DCast => "dfcir.cast"
  | DShl _ => "dfcir.shl" | DShr _ => "dfcir.shr" | DBits _ _ => "dfcir.bits" | DCat => "dfcir.cat" | DLatency => "dfcir.latency"
  | DUn NOT => "dfcir.not" | DUn NEG => "dfcir.neg"
  | DBin ADD => "dfcir.add" | DBin SUB => "dfcir.sub" | DBin MUL => "dfcir.mul" | DBin DIV => "dfcir.div"
  | DBin AND => "dfcir.and" | DBin OR => "dfcir.or" | DBin XOR => "dfcir.xor"
  | DBin LESS => "dfcir.less" | DBin LESSEQ => "dfcir.lessEq" | DBin GREATER => "dfcir.greater" | DBin GREATEREQ => "dfcir.greaterEq"
  | DBin EQ => "dfcir.eq" | DBin NEQ => "dfcir.notEq"
  end%string.
Definition numbers (t : dftype) (o : dop) (l : Z) : list Z :=
  match o with
  | DConst v => [num (is_signed t) (total_bits t) (num (is_signed t) 64 v mod 2 ^ total_bits t)]
  | DOffset d => [d]
  | DShl n | DShr n => [n]
  | DBits x y => [x; y]
  | _ => if timed o then [l] else []
  end.
(** the numbers that do not fit their attribute, and constants of other than fixed types, are
    left out *)
Definition fit (t : dftype) (o : dop) (l : Z) : Prop :=
  match o with
  | DConst _ => match t with TFixed _ _ _ => 0 < total_bits t | _ => False end
  | DOffset d => - 2 ^ 63 <= d < 2 ^ 63
  | DShl n | DShr n => - 2 ^ 31 <= n < 2 ^ 31
  | DBits x y => - 2 ^ 31 <= x < 2 ^ 31 /\ - 2 ^ 31 <= y < 2 ^ 31
  | _ => - 2 ^ 31 <= l < 2 ^ 31
  end.
