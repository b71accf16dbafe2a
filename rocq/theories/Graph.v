(** * The DFCxx graph and kernel-construction API.

    Models graph.cpp, node.h, channel.cpp, io.cpp, control.cpp, offset.cpp,
    constant.cpp, vars/{var,stream,scalar,constant}.cpp, kernel_meta.cpp and the
    constructor part of kernel.cpp (all under /repo/src/model/dfcxx/lib/dfcxx).

    Objects reached through pointers live in a heap: nodes (each node is merged
    with the variable it wraps, the code keeps them 1:1) and channels are
    identified by numbers that are never reused.  Types are kept in a table: the
    type *pointer* is the table index, and since [KernelStorage::addType]
    (kernel_storage.cpp:15-27) searches a local, always empty set, every request
    allocates a new index. *)
From Coq Require Import ZArith Bool String.
From stdpp Require Import gmap list.
From Verif Require Import Types Word Value.
Local Open Scope Z_scope.

(** Result of an API call.  [Throw]: C++ exception, [Assert]: failed assertion,
    [UB]: undefined behaviour. *)
Inductive res (A : Type) : Type :=
| Ok (a : A) | Throw | Assert | UB.
Arguments Ok {A}. Arguments Throw {A}. Arguments Assert {A}. Arguments UB {A}.

Definition rbind {A B} (m : res A) (f : A -> res B) : res B :=
  match m with Ok a => f a | Throw => Throw | Assert => Assert | UB => UB end.
Notation "'let!' x := m 'in' k" := (rbind m (fun x => k))
  (at level 200, x pattern, right associativity).
Definition of_opt {A} (e : res A) (o : option A) : res A :=
  match o with Some a => Ok a | None => e end.

Notation nid := nat (only parsing).
Notation cid := nat (only parsing).
Notation kid := nat (only parsing).
Notation tid := nat (only parsing).

(** node.h:18-58: [OpType] together with the member of [NodeData] it uses; the
    value of a constant (held by [DFConstant], vars/constant.h) is in [CONST]. *)
Inductive opk : Type :=
| NONE | OFFSET (offset : Z) | IN | OUT | CONST (value : Z) | MUX
| BIN (o : bop) | UN (u : uop) | CAST
| SHL (n : Z) | SHR (n : Z) | BITS (left right : Z) | CAT.

(** vars/{stream,scalar,constant}.h *)
Inductive vkind := VStream | VScalar | VConst.

(** node.h:59-73 and vars/var.h (name, type, owning meta) *)
Record node := mkNode {
  n_op : opk; n_ty : tid; n_vk : vkind; n_name : string; n_meta : kid;
  n_ins : list cid; n_outs : list cid }.

(** channel.h *)
Record chan := mkChan { c_src : nid; c_tgt : nid; c_ind : nat; c_conn : bool }.

(** graph.h: [nodes], [startNodes], [nameMap] (latest binding first) *)
Record graph := mkGraph {
  g_nodes : list nid; g_starts : list nid; g_names : list (string * nid) }.
Definition empty_graph : graph := mkGraph [] [] [].

Record world := mkWorld {
  w_types : list dftype;
  w_nodes : gmap nat node;
  w_chans : gmap nat chan;
  w_kern : gmap nat graph;
  w_stack : list kid;          (** Kernel::kernelStack, last pushed first *)
  w_top : option kid;          (** KernelMeta::top *)
  w_next : nat }.

Definition init_world : world := mkWorld [] ∅ ∅ ∅ [] None 0.

Definition set_types w x := mkWorld x (w_nodes w) (w_chans w) (w_kern w) (w_stack w) (w_top w) (w_next w).
Definition set_nodes w x := mkWorld (w_types w) x (w_chans w) (w_kern w) (w_stack w) (w_top w) (w_next w).
Definition set_chans w x := mkWorld (w_types w) (w_nodes w) x (w_kern w) (w_stack w) (w_top w) (w_next w).
Definition set_kern w x := mkWorld (w_types w) (w_nodes w) (w_chans w) x (w_stack w) (w_top w) (w_next w).
Definition set_stack w x := mkWorld (w_types w) (w_nodes w) (w_chans w) (w_kern w) x (w_top w) (w_next w).
Definition set_top w x := mkWorld (w_types w) (w_nodes w) (w_chans w) (w_kern w) (w_stack w) x (w_next w).
Definition set_next w x := mkWorld (w_types w) (w_nodes w) (w_chans w) (w_kern w) (w_stack w) (w_top w) x.

Definition set_ins (nd : node) (l : list cid) : node :=
  mkNode (n_op nd) (n_ty nd) (n_vk nd) (n_name nd) (n_meta nd) l (n_outs nd).
Definition set_outs (nd : node) (l : list cid) : node :=
  mkNode (n_op nd) (n_ty nd) (n_vk nd) (n_name nd) (n_meta nd) (n_ins nd) l.

(** ** Types *)

(** KernelStorage::addType, kernel_storage.cpp:15-27 *)
Definition add_type (w : world) (t : dftype) : world * tid :=
  (set_types w (w_types w ++ [t]), length (w_types w)).

Definition get_type (w : world) (t : tid) : res dftype := of_opt UB (w_types w !! t).
Definition get_node (w : world) (n : nid) : res node := of_opt UB (w_nodes w !! n).

(** ** Graph primitives *)

Definition is_start_op (o : opk) : bool :=
  match o with IN | CONST _ => true | _ => false end.

(** Graph::addNode, graph.cpp:67-88.  The variable is freshly allocated by every
    caller, so the insertion always succeeds; name registration at :82-85. *)
Definition add_node (w : world) (k : kid) (o : opk) (ty : tid) (vk : vkind)
           (name : string) : res (world * nid) :=
  let! g := of_opt UB (w_kern w !! k) in
  let n := w_next w in
  let nd := mkNode o ty vk name k [] [] in
  let g' := mkGraph (n :: g_nodes g)
                    (if is_start_op o then n :: g_starts g else g_starts g)
                    (if String.eqb name EmptyString then g_names g
                     else (name, n) :: g_names g) in
  Ok (set_next (set_kern (set_nodes w (<[n := nd]> (w_nodes w)))
                         (<[k := g']> (w_kern w))) (S n), n).

(** Graph::findNode(var), graph.cpp:37-45 *)
Definition find_node (w : world) (k : kid) (v : nid) : res bool :=
  let! g := of_opt UB (w_kern w !! k) in
  Ok (bool_decide (v ∈ g_nodes g)).

(** Graph::addChannel on node pointers, graph.cpp:90-98 *)
Definition add_chan_nodes (w : world) (src tgt : nid) (ind : nat) (conn : bool)
  : res world :=
  let c := w_next w in
  let! _ := get_node w src in
  let! _ := get_node w tgt in
  let nodes1 := alter (fun nd => set_outs nd (n_outs nd ++ [c])) src (w_nodes w) in
  let nodes2 := alter (fun nd => set_ins nd (n_ins nd ++ [c])) tgt nodes1 in
  Ok (set_next (set_chans (set_nodes w nodes2)
                          (<[c := mkChan src tgt ind conn]> (w_chans w))) (S c)).

(** Graph::addChannel(var, var), graph.cpp:100-108: the source of a constant is
    looked up in the top-level graph; [assert(source && target)] at :92. *)
Definition add_chan (w : world) (k : kid) (src tgt : nid) (ind : nat) (conn : bool)
  : res world :=
  let! nd := get_node w src in
  let! ksrc := match n_vk nd with
               | VConst => of_opt UB (w_top w)
               | _ => Ok k
               end in
  let! fs := find_node w ksrc src in
  let! ft := find_node w k tgt in
  if fs && ft then add_chan_nodes w src tgt ind conn else Assert.

Fixpoint add_chans (w : world) (k : kid) (srcs : list nid) (tgt : nid) (ind : nat)
  : res world :=
  match srcs with
  | [] => Ok w
  | s :: srcs' =>
      let! w1 := add_chan w k s tgt ind false in
      add_chans w1 k srcs' tgt (S ind)
  end.

(** the common shape: allocate a stream variable, add its node, add its operands.
    Operand handles must denote live variables when the call is made (a C++ program
    cannot hold any other; a dangling one is undefined behaviour). *)
Definition mk_op (w : world) (k : kid) (o : opk) (ty : tid) (args : list nid)
  : res (world * nid) :=
  if forallb (fun a => bool_decide (is_Some (w_nodes w !! a))) args then
    let! (w1, n) := add_node w k o ty VStream EmptyString in
    let! w2 := add_chans w1 k args n 0 in
    Ok (w2, n)
  else UB.

(** DFConstant::createOrUseConst, vars/constant.cpp:35-54.  [findStartNodeIf]
    returns some start node satisfying the predicate; the model takes the first
    of the list (the set has at most one, see BuilderProofs). *)
Definition const_matches (w : world) (t : dftype) (v : Z) (n : nid) : bool :=
  match w_nodes w !! n with
  | Some nd =>
      match n_op nd, n_vk nd with
      | CONST v', VConst =>
          match w_types w !! n_ty nd with
          | Some t' => ty_eqb t' t && (v' =? v)
          | None => false
          end
      | _, _ => false
      end
  | None => false
  end.

Definition create_or_use_const (w : world) (ty : tid) (v : Z) : res (world * nid) :=
  let! t := get_type w ty in
  let! k := of_opt UB (w_top w) in
  let! g := of_opt UB (w_kern w !! k) in
  match List.find (const_matches w t v) (g_starts g) with
  | Some n => Ok (w, n)
  | None => add_node w k (CONST v) ty VConst EmptyString
  end.

Definition of_cval (c : cval) : res Z := match c with CV z => Ok z | CUB => UB end.

Section Builder.
Variable F : fltops.

Definition const_value (nd : node) : option Z :=
  match n_vk nd, n_op nd with VConst, CONST v => Some v | _, _ => None end.

(** operator+ ... operator!=: vars/stream.cpp:22-108, vars/scalar.cpp (same text),
    vars/constant.cpp:56-126,150-201. *)
Definition do_bin (w : world) (o : bop) (a b : nid) : res (world * nid) :=
  let! na := get_node w a in
  let! nb := get_node w b in
  match const_value na, const_value nb with
  | Some va, Some vb =>
      let! t := get_type w (n_ty na) in
      let! v := of_cval (fold_bin F o t va vb) in
      create_or_use_const w (n_ty na) v
  | ca, _ =>
      let k := match ca with Some _ => n_meta nb | None => n_meta na end in
      if is_comp o then
        let (w1, tb) := add_type w mkBool in
        mk_op w1 k (BIN o) tb [a; b]
      else mk_op w k (BIN o) (n_ty na) [a; b]
  end.

(** operator!, unary operator-: stream.cpp:59-73, constant.cpp:128-148 *)
Definition do_un (w : world) (u : uop) (a : nid) : res (world * nid) :=
  let! na := get_node w a in
  match const_value na with
  | Some va =>
      let! t := get_type w (n_ty na) in
      let! v := of_cval (fold_un F u t va) in
      create_or_use_const w (n_ty na) v
  | None => mk_op w (n_meta na) (UN u) (n_ty na) [a]
  end.

(** operator<<, operator>>(uint8_t): stream.cpp:110-126, constant.cpp:203-213 *)
Definition do_shift (w : world) (left : bool) (a : nid) (bits : Z)
  : res (world * nid) :=
  let bits := u8 bits in
  let! na := get_node w a in
  match const_value na with
  | Some va =>
      let! v := of_cval (if left then c_shl va bits else c_shr va bits) in
      create_or_use_const w (n_ty na) v
  | None => mk_op w (n_meta na) (if left then SHL bits else SHR bits) (n_ty na) [a]
  end.

(** operator()(first, second): var.cpp:73-92 *)
Definition do_slice (w : world) (a : nid) (first second : Z) : res (world * nid) :=
  let first := u16 first in
  let second := u16 second in
  let! na := get_node w a in
  let! t := get_type w (n_ty na) in
  let left := if second <? first then first else second in
  let right := if second <? first then second else first in
  if total_bits t <=? left then Throw
  else
    let (w1, tr) := add_type w (mkRaw (left - right + 1)) in
    mk_op w1 (n_meta na) (BITS left right) tr [a].

(** cat: var.cpp:94-105 *)
Definition do_cat (w : world) (a b : nid) : res (world * nid) :=
  let! na := get_node w a in
  let! nb := get_node w b in
  let! ta := get_type w (n_ty na) in
  let! tb := get_type w (n_ty nb) in
  let (w1, tr) := add_type w (mkRaw (total_bits ta + total_bits tb)) in
  mk_op w1 (n_meta na) CAT tr [a; b].

(** cast: var.cpp:107-118 (pointer comparison of the types) *)
Definition do_cast (w : world) (a : nid) (ty : tid) : res (world * nid) :=
  let! na := get_node w a in
  let! _ := get_type w ty in
  if Nat.eqb ty (n_ty na) then Ok (w, a)
  else mk_op w (n_meta na) CAST ty [a].

(** Control::mux, control.cpp:18-33; [args[0]] of an empty list is UB (:25). *)
Definition do_mux (w : world) (k : kid) (ctrl : nid) (args : list nid)
  : res (world * nid) :=
  match args with
  | [] => UB
  | a0 :: _ =>
      let! n0 := get_node w a0 in
      mk_op w k MUX (n_ty n0) (ctrl :: args)
  end.

(** Offset::operator(), offset.cpp:16-25 *)
Definition do_offset (w : world) (k : kid) (a : nid) (off : Z) : res (world * nid) :=
  let! na := get_node w a in
  match n_vk na with
  | VStream => mk_op w k (OFFSET off) (n_ty na) [a]
  | _ => Throw
  end.

(** DFVariable::connect, var.cpp:69-71: [a.connect(b)] drives [a] from [b]. *)
Definition do_connect (w : world) (a b : nid) : res world :=
  let! na := get_node w a in
  add_chan w (n_meta na) b a 0 true.

(** IO::*, io.cpp:19-77 *)
Definition do_io (w : world) (k : kid) (o : opk) (scalar : bool) (name : string)
           (ty : tid) : res (world * nid) :=
  let! _ := get_type w ty in
  add_node w k o ty (if scalar then VScalar else VStream) name.

(** Kernel::Kernel and KernelMeta::KernelMeta: kernel.cpp:29-35, kernel_meta.cpp:15-19 *)
Definition do_kernel (w : world) : world * kid :=
  let k := w_next w in
  let stack := k :: w_stack w in
  let top := match w_top w with None => Some k | t => t end in
  let top := match w_stack w with [] => Some k | _ => top end in
  (set_next (set_top (set_stack (set_kern w (<[k := empty_graph]> (w_kern w))) stack) top)
            (S k), k).

(** The construction API as a command language.  Variables, types and kernels are
    denoted by the handles previous calls returned. *)
Inductive cmd : Type :=
| KNew
| CType (t : dftype)                       (** result of dfUInt/dfInt/dfFloat/dfRawBits/dfBool *)
| CInput (k : kid) (scalar : bool) (name : string) (ty : tid)
| COutput (k : kid) (scalar : bool) (name : string) (ty : tid)
| CNewVar (k : kid) (scalar : bool) (ty : tid)
| CConst (ty : tid) (value : Z)
| CBin (o : bop) (a b : nid)
| CUn (u : uop) (a : nid)
| CShift (left : bool) (a : nid) (bits : Z)
| CSlice (a : nid) (first second : Z)
| CCat (a b : nid)
| CCast (a : nid) (ty : tid)
| CMux (k : kid) (ctrl : nid) (args : list nid)
| COffset (k : kid) (a : nid) (off : Z)
| CConnect (a b : nid).

(** one API call; the second component is the returned handle *)
Definition step (w : world) (c : cmd) : res (world * nat) :=
  match c with
  | KNew => Ok (do_kernel w)
  | CType t => Ok (add_type w t)
  | CInput k s name ty => do_io w k IN s name ty
  | COutput k s name ty => do_io w k OUT s name ty
  | CNewVar k s ty => do_io w k NONE s EmptyString ty
  | CConst ty v => create_or_use_const w ty (w64 v)
  | CBin o a b => do_bin w o a b
  | CUn u a => do_un w u a
  | CShift l a n => do_shift w l a n
  | CSlice a f s => do_slice w a f s
  | CCat a b => do_cat w a b
  | CCast a ty => do_cast w a ty
  | CMux k ctrl args => do_mux w k ctrl args
  | COffset k a off => do_offset w k a off
  | CConnect a b => let! w' := do_connect w a b in Ok (w', a)
  end.

Fixpoint run (w : world) (h : list cmd) : res world :=
  match h with
  | [] => Ok w
  | c :: h' => let! (w', _) := step w c in run w' h'
  end.

End Builder.

(** Kernel::check, kernel.cpp:247-269 *)
Definition check (w : world) (k : kid) : res bool :=
  let! g := of_opt UB (w_kern w !! k) in
  Ok (forallb (fun n => match w_nodes w !! n with
                        | Some nd => match n_op nd with NONE => false | _ => true end
                        | None => true
                        end) (g_nodes g)).
