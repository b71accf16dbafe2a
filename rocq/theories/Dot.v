(** * The DOT drawing of a kernel: Kernel::compileDot, kernel.cpp:71-160, template dot.tpl.

    Simplified: the drawing is the list of its statements, not their text (names are
    written without quotes or escapes; the header comment has the time); the iteration
    order of the node set (an unordered_set) is a parameter. *)
From Coq Require Import ZArith Bool String DecimalString.
From stdpp Require Import gmap list.
From Verif Require Import Types Value Graph SimInput.
Local Open Scope Z_scope.

(** [SRC_NAME -> TRG_NAME [label=CON_LABEL]] and [NAME [shape=SHAPE, label=LABEL]], with the
    edges printed below the element (dot.tpl:12-15) *)
Record dot_edge := mkEdge { e_src : string; e_tgt : string; e_label : string }.
Record dot_elem := mkElem { d_name : string; d_shape : string; d_label : string; d_edges : list dot_edge }.

(** std::to_string of a signed number *)
Definition zdec (z : Z) : string := NilEmpty.string_of_int (Z.to_int z).

(** the map [idMapping] and [counter], :74-75 *)
Notation names_st := (gmap nat string * nat)%type.

Section Dot.
Variable w : world.

(** getName, :76-89 *)
Definition get_name (n : nat) (st : names_st) : string * names_st :=
  if negb (String.eqb (node_name w n) "") then (node_name w n, st)
  else match fst st !! n with
       | Some s => (s, st)
       | None => let s := ("node" ++ dec (snd st))%string in (s, (<[n := s]> (fst st), S (snd st)))
       end.

(** :111-139 *)
Definition shape (o : opk) : string :=
  match o with
  | OFFSET _ => "diamond" | IN => "invtriangle" | OUT => "triangle" | MUX => "invtrapezium" | _ => "box"
  end.
Definition label (o : opk) (name : string) : string :=
  match o with
  | OFFSET k => zdec k
  | BIN ADD => "+" | BIN SUB => "-" | BIN MUL => "*" | BIN DIV => "/"
  | BIN AND => "&" | BIN OR => "|" | BIN XOR => "^"
  | UN NOT => "!" | UN NEG => "-"
  | BIN LESS => "<" | BIN LESSEQ => "<=" | BIN GREATER => ">" | BIN GREATEREQ => ">="
  | BIN EQ => "==" | BIN NEQ => "!="
  | SHL n => "<< " ++ zdec n | SHR n => ">> " ++ zdec n
  | _ => name
  end.

(** the loop over [node->inputs], :144-150; [chan->source] of a channel that does not exist
    is undefined *)
Fixpoint dot_edges (name : string) (i : nat) (cs : list cid) (st : names_st) : res (list dot_edge * names_st) :=
  match cs with
  | [] => Ok ([], st)
  | c :: cs' =>
      let! ch := of_opt UB (w_chans w !! c) in
      let (s, st1) := get_name (c_src ch) st in
      let! (es, st2) := dot_edges name (S i) cs' st1 in
      Ok (mkEdge s name (dec i) :: es, st2)
  end.

(** the loop over the nodes, :106-151 *)
Fixpoint dot_elems (ns : list nat) (st : names_st) : res (list dot_elem * names_st) :=
  match ns with
  | [] => Ok ([], st)
  | n :: ns' =>
      let! nd := get_node w n in
      let (name, st1) := get_name n st in
      let! (es, st2) := dot_edges name 0 (n_ins nd) st1 in
      let! (rest, st3) := dot_elems ns' st2 in
      Ok (mkElem name (shape (n_op nd)) (label (n_op nd) name) es :: rest, st3)
  end.

Definition compile_dot (hash : list nat -> list nat) (k : kid) : res (list dot_elem) :=
  let! g := of_opt UB (w_kern w !! k) in
  let! (es, _) := dot_elems (hash (g_nodes g)) (∅, 0%nat) in Ok es.
End Dot.
