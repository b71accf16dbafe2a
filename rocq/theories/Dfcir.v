(** * DFCIR programs and the translation of a DFCxx kernel into one.

    Models dfcir_builder.cpp (/repo/src/model/dfcxx/lib/dfcxx) and the part of the
    dialect it uses (/repo/src/model/dfcir/include/dfcir/DFCIROperations.td).  A
    program is the body of the one [dfcir.kernel]: a list of statements.  Every
    operation but [connect] has one result; results are named by numbers, and the
    builder names the result of a node by the node's handle ([map[node]]).
    Not modelled here (the text is in Asm.v): locations, operations DFCxx never emits
    ([convert], [simpleCounter], [rem], [mod], control streams of input/output). *)
From Coq Require Import ZArith Bool String.
From stdpp Require Import gmap list.
From Verif Require Import Types Word Value Graph GraphSpec.
Local Open Scope Z_scope.

(** DFCIROperations.td, one constructor per operation with its attributes *)
Inductive dop : Type :=
| DIn (scalar : bool) (name : string)      (** input / scalarInput *)
| DOut (scalar : bool) (name : string)     (** output / scalarOutput *)
| DConst (value : Z)
| DOffset (offset : Z)
| DMux | DBin (o : bop) | DUn (u : uop) | DCast
| DShl (n : Z) | DShr (n : Z) | DBits (left right : Z) | DCat
| DLatency.

(** [Def r o k t lat args]: [r = o(args) : k<t>], with latency attribute [lat] (only
    meaningful for operations with the [Scheduled] interface; [-1] = not set).
    [Con d s]: [connect(d, s)]. *)
Inductive stmt : Type :=
| Def (r : nat) (o : dop) (k : vkind) (t : dftype) (lat : Z) (args : list nat)
| Con (d s : nat).
Definition program := list stmt.

(** translate, dfcir_builder.cpp:92-366: the operation and its operand values.  The
    input vector is read by position ([ins[0]], [ins[1]]: undefined if missing); a mux
    has its control at [ins[muxId]] with [muxId = 0] (control.cpp:27) and pushes the
    other operands in reverse order (:161-176). *)
Definition translate_op (nd : node) (ins : list nat) : res (dop * list nat) :=
  let one o := match ins with a :: _ => Ok (o, [a]) | _ => UB end in
  let two o := match ins with a :: b :: _ => Ok (o, [a; b]) | _ => UB end in
  match n_op nd with
  | OFFSET k => one (DOffset k)
  | IN => Ok (DIn (match n_vk nd with VStream => false | _ => true end) (n_name nd), [])
  | OUT => Ok (DOut (match n_vk nd with VStream => false | _ => true end) (n_name nd), [])
  | CONST v => Ok (DConst v, [])
  | MUX => match ins with
           | c :: arms => Ok (DMux, c :: rev arms)
           | [] => UB
           end
  | BIN o => two (DBin o)
  | UN u => one (DUn u)
  | CAST => one DCast
  | SHL n => one (DShl n)
  | SHR n => one (DShr n)
  | BITS l r => one (DBits l r)
  | CAT => two DCat
  | NONE => Assert
  end.

(** Node::getConnection, node.cpp:26-31: the connect is seen only if it is the only
    input of the node *)
Definition get_connection (w : world) (n : nid) : option nid :=
  match in_chans w n with
  | [c] => if c_conn c then Some (c_src c) else None
  | _ => None
  end.

(** the variable whose kind and type the result is given: that of the node, except for an
    offset, which takes those of its operand ([conv[in->var]], dfcir_builder.cpp:102-111) *)
Definition result_var (w : world) (nd : node) (args : list nid) : node :=
  match n_op nd, args with OFFSET _, a :: _ => default nd (w_nodes w !! a) | _, _ => nd end.

(** dfcir_builder.cpp:92-373 for one node; [done]: the nodes that are in [map].  Using
    a node that is not there yet passes a null value to the builder: [UB]. *)
Definition translate_node (w : world) (done : list nid) (n : nid) : res (list stmt) :=
  let! nd := get_node w n in
  let! (o, args) := translate_op nd (operands w n) in
  let rv := result_var w nd args in
  let! t := get_type w (n_ty rv) in
  if forallb (fun a => bool_decide (a ∈ done)) args then
    let d := Def n o (n_vk rv) t (-1) args in
    match get_connection w n with
    | Some s => if bool_decide (s ∈ n :: done) then Ok [d; Con n s] else UB
    | None => Ok [d]
    end
  else UB.

(** buildKernelBody, dfcir_builder.cpp:24-32 *)
Fixpoint translate_all (w : world) (done : list nid) (order : list nid) : res program :=
  match order with
  | [] => Ok []
  | n :: rest =>
      let! p := translate_node w done n in
      let! q := translate_all w (n :: done) rest in
      Ok (p ++ q)
  end.
Definition build (w : world) (order : list nid) : res program := translate_all w [] order.

(** ** Reading a program *)
Definition def_of (P : program) (v : nat) : option (dop * vkind * dftype * Z * list nat) :=
  match List.find (fun s => match s with Def r _ _ _ _ _ => Nat.eqb r v | _ => false end) P with
  | Some (Def _ o k t l a) => Some (o, k, t, l, a)
  | _ => None
  end.
Definition op_of (P : program) (v : nat) : option dop :=
  match def_of P v with Some (o, _, _, _, _) => Some o | None => None end.
(** results defined by a program, destinations of its connects *)
Definition defs (P : program) : list nat :=
  omap (fun s => match s with Def r _ _ _ _ _ => Some r | _ => None end) P.
Definition dests (P : program) : list nat :=
  omap (fun s => match s with Con d _ => Some d | _ => None end) P.

(** operations with the [ConstantInputInterface], DFCIROperations.td:38-40, 99 *)
Definition is_constant_input (o : dop) : bool :=
  match o with DIn true _ | DConst _ => true | _ => false end.
Definition is_input (o : dop) : bool := match o with DIn _ _ => true | _ => false end.
Definition is_output (o : dop) : bool := match o with DOut _ _ => true | _ => false end.
(** everything that computes from its operands (neither port, constant nor offset) *)
Definition is_oper (o : dop) : bool :=
  match o with DIn _ _ | DOut _ _ | DConst _ | DOffset _ => false | _ => true end.
(** operations with the [Scheduled] interface, DFCIROperations.td:118,145,243 *)
Definition is_scheduled (o : dop) : bool :=
  match o with
  | DBin o => negb (is_bitwise o)
  | DUn NEG | DCast | DLatency => true
  | _ => false
  end.
