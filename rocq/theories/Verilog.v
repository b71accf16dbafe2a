(** * The SystemVerilog constructs the operator library is written in
      (specification side: IEEE 1800-2017, clauses 10.3, 11.4, 11.6, 11.8, 9.2).

    A net or register word of [k] bits holds a pattern in [0, 2^k).  Unknown values
    ([x]) are not modelled: a register holds an arbitrary pattern before its first
    write.  Illegal constructs have no value ([None]), so a module containing one has
    no run at all. *)
From Coq Require Import ZArith Bool List.
From Verif Require Import OpSpec.
Import ListNotations.
Local Open Scope Z_scope.

(** the identifiers of the library template *)
Inductive vname : Set := ARG1 | ARG2 | RES1 | REG | CATW | ARG1P | ARG2P.
Definition vname_eqb (a b : vname) : bool :=
  match a, b with
  | ARG1, ARG1 | ARG2, ARG2 | RES1, RES1 | REG, REG | CATW, CATW
  | ARG1P, ARG1P | ARG2P, ARG2P => true
  | _, _ => false
  end.

Inductive vop : Set := Vadd | Vsub | Vmul | Vand | Vor | Vxor | Vlt | Vle | Vgt | Vge | Veq | Vne.
Definition is_rel (o : vop) : bool :=
  match o with Vlt | Vle | Vgt | Vge | Veq | Vne => true | _ => false end.

(** expressions: [n], [n[i]] of a vector, [n[hi:0]] of a vector, [n[i]] of a memory,
    [n[i][b]], the literal [1'h0], [{k{e}}], [{a, b}], [a op b] *)
Inductive vexpr : Set :=
| VNet (n : vname) | VBit (n : vname) (i : Z) | VPart (n : vname) (hi : Z)
| VMem (n : vname) (i : Z) | VMemBit (n : vname) (i b : Z)
| VZero | VRepl (k : Z) (e : vexpr) | VCat (a b : vexpr) | VBin (o : vop) (a b : vexpr).

(** declarations: [wire|input|output [signed] [w-1:0] n], [reg [w-1:0] n[d-1:0]] *)
Inductive vdecl : Set :=
| DNet (signed : bool) (width : Z)
| DMem (width depth : Z).

(** a module: declarations, continuous assignments, and at most one clocked process of
    the form [for (i = L; i != 0; i = i - 1) REG[i] <= REG[i-1];  REG[0] <= e;] *)
Record vmodule : Set := mkV {
  v_decl : vname -> option vdecl;
  v_assign : list (vname * vexpr);
  v_shift : option (Z * vexpr)
}.

(** nets and memory words at one moment *)
Record vstate : Type := mkS { s_net : vname -> Z; s_mem : vname -> Z -> Z }.

Definition omap2 {A B C} (f : A -> B -> C) (x : option A) (y : option B) : option C :=
  match x, y with Some a, Some b => Some (f a b) | _, _ => None end.

(** self-determined width (11.6.1, table 11-21); [None]: the construct is illegal *)
Fixpoint vsize (d : vname -> option vdecl) (e : vexpr) : option Z :=
  match e with
  | VNet n => match d n with Some (DNet _ w) => Some w | _ => None end
  | VBit n i => match d n with
                | Some (DNet _ w) => if (0 <=? i) && (i <? w) then Some 1 else None
                | _ => None end
  | VPart n hi => match d n with
                  | Some (DNet _ w) => if (0 <=? hi) && (hi <? w) then Some (hi + 1) else None
                  | _ => None end
  | VMem n i => match d n with
                | Some (DMem w k) => if (0 <=? i) && (i <? k) then Some w else None
                | _ => None end
  | VMemBit n i b => match d n with
                     | Some (DMem w k) =>
                         if (0 <=? i) && (i <? k) && (0 <=? b) && (b <? w) then Some 1 else None
                     | _ => None end
  | VZero => Some 1
  | VRepl k e => match vsize d e with
                 | Some w => if 0 <=? k then Some (k * w) else None
                 | None => None end
  | VCat a b => omap2 Z.add (vsize d a) (vsize d b)
  | VBin o a b => match vsize d a, vsize d b with
                  | Some x, Some y => Some (if is_rel o then 1 else Z.max x y)
                  | _, _ => None end
  end.

(** signedness of an expression (11.8.1): selects, concatenations, replications, memory
    words and comparisons are unsigned; an operator is signed iff both operands are *)
Fixpoint vsigned (d : vname -> option vdecl) (e : vexpr) : bool :=
  match e with
  | VNet n => match d n with Some (DNet s _) => s | _ => false end
  | VBin o a b => if is_rel o then false else vsigned d a && vsigned d b
  | _ => false
  end.

(** the pattern of [x] (of [k] bits) extended to [W] bits, by sign or by zeros *)
Definition vext (S : bool) (k W x : Z) : Z := num S k x mod 2 ^ W.

Definition vbin (o : vop) (x y : Z) : Z :=
  match o with
  | Vadd => x + y | Vsub => x - y | Vmul => x * y
  | Vand => Z.land x y | Vor => Z.lor x y | Vxor => Z.lxor x y
  | Vlt => if x <? y then 1 else 0 | Vle => if x <=? y then 1 else 0
  | Vgt => if y <? x then 1 else 0 | Vge => if y <=? x then 1 else 0
  | Veq => if x =? y then 1 else 0 | Vne => if x =? y then 0 else 1
  end.

(** bit [i] of a pattern *)
Definition vbit (x i : Z) : Z := (x / 2 ^ i) mod 2.

(** [veval d st W S e]: the value of [e] in a context of [W] bits and signedness [S]
    (11.6, 11.8.2: the context size and sign propagate down to the operands of an
    arithmetic or bitwise operator; the operands of a comparison, a concatenation or a
    replication form a context of their own). *)
Fixpoint veval (d : vname -> option vdecl) (st : vstate) (W : Z) (S : bool) (e : vexpr)
  : option Z :=
  match vsize d e with
  | None => None
  | Some k =>
    match e with
    | VNet n => Some (vext S k W (s_net st n))
    | VBit n i => Some (vext false 1 W (vbit (s_net st n) i))
    | VPart n hi => Some (vext false k W (s_net st n mod 2 ^ (hi + 1)))
    | VMem n i => Some (vext false k W (s_mem st n i))
    | VMemBit n i b => Some (vext false 1 W (vbit (s_mem st n i) b))
    | VZero => Some 0
    | VRepl c e =>
        match vsize d e with
        | Some w =>
            match veval d st w (vsigned d e) e with
            | Some x => Some (vext false k W (x * ((2 ^ (c * w) - 1) / (2 ^ w - 1))))
            | None => None
            end
        | None => None
        end
    | VCat a b =>
        match vsize d a, vsize d b with
        | Some wa, Some wb =>
            match veval d st wa (vsigned d a) a, veval d st wb (vsigned d b) b with
            | Some x, Some y => Some (vext false k W (x * 2 ^ wb + y))
            | _, _ => None
            end
        | _, _ => None
        end
    | VBin o a b =>
        if is_rel o then
          match vsize d a, vsize d b with
          | Some wa, Some wb =>
              let w := Z.max wa wb in
              let s := vsigned d a && vsigned d b in
              match veval d st w s a, veval d st w s b with
              | Some x, Some y => Some (vext false 1 W (vbin o (num s w x) (num s w y)))
              | _, _ => None
              end
          | _, _ => None
          end
        else
          match veval d st W S a, veval d st W S b with
          | Some x, Some y => Some (vbin o x y mod 2 ^ W)
          | _, _ => None
          end
    end
  end.

(** the value assigned to a target of [k] bits (10.7: extended by the sign of the right
    hand side, then truncated) *)
Definition vassigned (d : vname -> option vdecl) (st : vstate) (k : Z) (e : vexpr) : option Z :=
  match vsize d e with
  | Some w => match veval d st (Z.max k w) (vsigned d e) e with
              | Some x => Some (x mod 2 ^ k)
              | None => None
              end
  | None => None
  end.

Definition is_input_net (n : vname) : Prop := n = ARG1 \/ n = ARG2.

(** [vrun m ins R]: [R t] is a state of [m] during clock cycle [t] when the input ports
    carry [ins t].  Continuous assignments hold in every cycle (their order is irrelevant);
    registers take their new values at the end of it, from the values before; nothing is
    assumed about their contents in cycle 0 except that they are patterns. *)
Definition vrun (m : vmodule) (ins : nat -> vname -> Z) (R : nat -> vstate) : Prop :=
  (forall t n, is_input_net n -> s_net (R t) n = ins t n) /\
  (forall t n e, In (n, e) (v_assign m) ->
     exists s k, v_decl m n = Some (DNet s k) /\ vassigned (v_decl m) (R t) k e = Some (s_net (R t) n)) /\
  (forall n w k i, v_decl m n = Some (DMem w k) -> 0 <= s_mem (R 0%nat) n i < 2 ^ w) /\
  (forall L e, v_shift m = Some (L, e) ->
     exists w k, v_decl m REG = Some (DMem w k) /\ L < k /\ forall t,
       (forall i, 0 < i <= L -> s_mem (R (S t)) REG i = s_mem (R t) REG (i - 1)) /\
       vassigned (v_decl m) (R t) w e = Some (s_mem (R (S t)) REG 0)).

(** what the output port carries in cycle [t] *)
Definition vout (R : nat -> vstate) (t : nat) : Z := s_net (R t) RES1.
