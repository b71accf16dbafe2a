(** * What the drawing of a kernel must show (specification). *)
From Coq Require Import ZArith Bool String.
From stdpp Require Import gmap list strings.
From Verif Require Import Types Value Graph GraphSpec SimInput SimRunSpec Dot.
Local Open Scope Z_scope.

(** the marks of the operations: shape and, where the operation has one, symbol *)
Inductive mark : opk -> string -> string -> string -> Prop :=   (* operation, name, shape, label *)
| mk_in nm : mark IN nm "invtriangle" nm
| mk_out nm : mark OUT nm "triangle" nm
| mk_mux nm : mark MUX nm "invtrapezium" nm
| mk_offset k nm : mark (OFFSET k) nm "diamond" (zdec k)
| mk_shl k nm : mark (SHL k) nm "box" ("<< " ++ zdec k)
| mk_shr k nm : mark (SHR k) nm "box" (">> " ++ zdec k)
| mk_bin o s nm : (o, s) ∈ [(ADD, "+"); (SUB, "-"); (MUL, "*"); (DIV, "/"); (AND, "&"); (OR, "|"); (XOR, "^");
                            (LESS, "<"); (LESSEQ, "<="); (GREATER, ">"); (GREATEREQ, ">="); (EQ, "=="); (NEQ, "!=")]%string ->
                  mark (BIN o) nm "box" s
| mk_not nm : mark (UN NOT) nm "box" "!"
| mk_neg nm : mark (UN NEG) nm "box" "-"
| mk_plain o nm : match o with CONST _ | CAST | BITS _ _ | CAT | NONE => True | _ => False end -> mark o nm "box" nm.

(** a drawing of kernel [k] with names [nm]: distinct nodes have distinct names, and a node
    that the user named has that name; there is exactly one element for each node, marked
    with its operation; and an edge from [a] to [n] labelled [i] exactly when [a] is operand
    [i] of [n] *)
Record draws (w : world) (k : kid) (nm : nat -> string) (D : list dot_elem) : Prop := {
  dr_user : forall n nd, w_nodes w !! n = Some nd -> n_name nd <> ""%string -> nm n = n_name nd;
  dr_inj : forall n m, is_Some (w_nodes w !! n) -> is_Some (w_nodes w !! m) -> nm n = nm m -> n = m;
  dr_names : NoDup (map d_name D);
  dr_nodes : forall s, s ∈ map d_name D <-> exists n nd, w_nodes w !! n = Some nd /\ n_meta nd = k /\ nm n = s;
  dr_marks : forall n nd e, w_nodes w !! n = Some nd -> e ∈ D -> d_name e = nm n -> mark (n_op nd) (nm n) (d_shape e) (d_label e);
  dr_edges : forall x, (exists e, e ∈ D /\ x ∈ d_edges e) <->
    exists n nd a i, w_nodes w !! n = Some nd /\ n_meta nd = k /\ operands w n !! i = Some a /\ x = mkEdge (nm a) (nm n) (dec i)
}.
