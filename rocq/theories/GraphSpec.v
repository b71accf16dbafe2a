(** * What it means for a DFCxx graph to be well formed (specification side).

    Only the observable shape of the graph: which nodes exist, which channels are
    listed where, which operands a node has.  No builder helper is used. *)
From Coq Require Import ZArith Bool String.
From stdpp Require Import gmap list.
From Verif Require Import Types Word Value Graph.

(** the channels feeding node [n], in the order of its input vector *)
Definition in_chans (w : world) (n : nid) : list chan :=
  match w_nodes w !! n with
  | Some nd => omap (fun c => w_chans w !! c) (n_ins nd)
  | None => []
  end.
(** the channels leaving node [n], in the order of its output vector *)
Definition out_chans (w : world) (n : nid) : list chan :=
  match w_nodes w !! n with
  | Some nd => omap (fun c => w_chans w !! c) (n_outs nd)
  | None => []
  end.

(** the operand variables of [n], in argument order *)
Definition operands (w : world) (n : nid) : list nid := map c_src (in_chans w n).
(** the readers of [n] *)
Definition readers (w : world) (n : nid) : list nid := map c_tgt (out_chans w n).

(** how many operands the operator of a node takes *)
Definition arity_ok (o : opk) (k : nat) : Prop :=
  match o with
  | NONE | IN | OUT | CONST _ => k = 0
  | UN _ | CAST | SHL _ | SHR _ | BITS _ _ | OFFSET _ => k = 1
  | BIN _ | CAT => k = 2
  | MUX => 2 <= k
  end.

(** structural consistency between nodes, channels and kernels *)
Record consistent (w : world) : Prop := {
  (* every channel is listed at both of its ends, which exist *)
  cs_src : forall c ch, w_chans w !! c = Some ch ->
           exists nd, w_nodes w !! c_src ch = Some nd /\ c ∈ n_outs nd;
  cs_tgt : forall c ch, w_chans w !! c = Some ch ->
           exists nd, w_nodes w !! c_tgt ch = Some nd /\ c ∈ n_ins nd;
  (* every listed channel exists and belongs to the node that lists it, once *)
  cs_outs : forall n nd c, w_nodes w !! n = Some nd -> c ∈ n_outs nd ->
           exists ch, w_chans w !! c = Some ch /\ c_src ch = n;
  cs_ins : forall n nd c, w_nodes w !! n = Some nd -> c ∈ n_ins nd ->
           exists ch, w_chans w !! c = Some ch /\ c_tgt ch = n;
  cs_nd_ins : forall n nd, w_nodes w !! n = Some nd -> NoDup (n_ins nd);
  cs_nd_outs : forall n nd, w_nodes w !! n = Some nd -> NoDup (n_outs nd);
  (* the node set of a kernel is exactly the set of live nodes owned by it *)
  cs_member : forall k g n, w_kern w !! k = Some g -> n ∈ g_nodes g ->
           exists nd, w_nodes w !! n = Some nd /\ n_meta nd = k;
  cs_owned : forall n nd, w_nodes w !! n = Some nd ->
           exists g, w_kern w !! n_meta nd = Some g /\ n ∈ g_nodes g;
  cs_nd_nodes : forall k g, w_kern w !! k = Some g -> NoDup (g_nodes g);
  (* the start nodes are exactly the inputs and constants *)
  cs_starts : forall k g n, w_kern w !! k = Some g ->
           (n ∈ g_starts g <->
            n ∈ g_nodes g /\ exists nd, w_nodes w !! n = Some nd /\
                                        (n_op nd = IN \/ exists v, n_op nd = CONST v));
  cs_nd_starts : forall k g, w_kern w !! k = Some g -> NoDup (g_starts g);
  (* variables have a type; constants are owned by the top kernel *)
  cs_type : forall n nd, w_nodes w !! n = Some nd -> is_Some (w_types w !! n_ty nd);
  cs_const : forall n nd, w_nodes w !! n = Some nd ->
           ((exists v, n_op nd = CONST v) <-> n_vk nd = VConst);
  cs_const_top : forall n nd, w_nodes w !! n = Some nd -> n_vk nd = VConst ->
           w_top w = Some (n_meta nd);
  (* handles are never reused *)
  cs_fresh_n : forall n, is_Some (w_nodes w !! n) -> n < w_next w;
  cs_fresh_c : forall c, is_Some (w_chans w !! c) -> c < w_next w;
  cs_fresh_k : forall k, is_Some (w_kern w !! k) -> k < w_next w;
  cs_top : forall k, w_top w = Some k -> is_Some (w_kern w !! k);
  cs_stack : w_stack w = [] -> w_top w = None
}.

(** a node has its operator's operands in argument order 0,1,2,..., followed by the
    drivers added by [connect] *)
Definition well_shaped (w : world) : Prop :=
  forall n nd, w_nodes w !! n = Some nd ->
  exists k drivers, arity_ok (n_op nd) k /\
    map (fun ch => (c_ind ch, c_conn ch)) (in_chans w n)
    = map (fun i => (i, false)) (seq 0 k) ++ replicate drivers (0, true).

(** what one call must leave untouched: operator, type, kind, name and owner of
    every existing node, and the operands of every node but [except]; no node other
    than [except] may appear *)
Definition same_head (a b : node) : Prop :=
  n_op a = n_op b /\ n_ty a = n_ty b /\ n_vk a = n_vk b /\
  n_name a = n_name b /\ n_meta a = n_meta b.
Definition preserved (w w' : world) (except : nid) : Prop :=
  (forall n nd, w_nodes w !! n = Some nd ->
     exists nd', w_nodes w' !! n = Some nd' /\ same_head nd nd') /\
  (forall n, is_Some (w_nodes w !! n) -> n <> except -> in_chans w' n = in_chans w n) /\
  (forall t ty, w_types w !! t = Some ty -> w_types w' !! t = Some ty) /\
  (forall n, is_Some (w_nodes w' !! n) -> n <> except -> is_Some (w_nodes w !! n)).

(** type (contents) of a variable *)
Definition type_of (w : world) (n : nid) : option dftype :=
  match w_nodes w !! n with Some nd => w_types w !! n_ty nd | None => None end.

Definition const_of (w : world) (n : nid) (t : dftype) (v : Z) : Prop :=
  exists nd, w_nodes w !! n = Some nd /\ n_vk nd = VConst /\ n_op nd = CONST v /\
             w_types w !! n_ty nd = Some t.
Definition is_const (w : world) (n : nid) : Prop :=
  exists nd, w_nodes w !! n = Some nd /\ n_vk nd = VConst.

(** [r] is a node that did not exist before, with operator [o], type [ty], variable
    kind [vk], name [name], owning kernel [k], and exactly the (already existing)
    operands [args] in positions 0,1,2,... *)
Definition new_node (w w' : world) (r : nid) (k : kid) (o : opk) (ty : dftype) (vk : vkind)
           (name : string) (args : list nid) : Prop :=
  w_nodes w !! r = None /\
  (exists nd, w_nodes w' !! r = Some nd /\ n_op nd = o /\ w_types w' !! n_ty nd = Some ty /\
              n_vk nd = vk /\ n_name nd = name /\ n_meta nd = k) /\
  in_chans w' r = imap (fun i a => mkChan a r i false) args /\
  (forall a, a ∈ args -> is_Some (w_nodes w !! a)).

(** a request for the constant [v] of type [t]: an existing equal constant is reused
    and nothing changes, otherwise a new one appears *)
Definition const_result (w w' : world) (r : nid) (t : dftype) (v : Z) : Prop :=
  const_of w' r t v /\
  (w' = w \/ (w_nodes w !! r = None /\ in_chans w' r = [] /\ forall m, ~ const_of w m t v)).

(** the kernel owning a variable; for [c op x] with [c] constant the code uses [x]'s *)
Definition owner (w : world) (n : nid) : kid :=
  match w_nodes w !! n with Some nd => n_meta nd | None => 0 end.
Definition is_constb (w : world) (n : nid) : bool :=
  match w_nodes w !! n with
  | Some nd => match n_vk nd with VConst => true | _ => false end
  | None => false
  end.

(** What each API call must do, on top of leaving every other node alone. *)
Definition call_post (F : fltops) (w : world) (c : cmd) (w' : world) (r : nat) : Prop :=
  match c with
  | KNew => w_kern w !! r = None /\ w_kern w' !! r = Some empty_graph /\
      w_nodes w' = w_nodes w /\ w_chans w' = w_chans w
  | CType t => w_types w !! r = None /\ w_types w' !! r = Some t /\
      w_nodes w' = w_nodes w /\ w_chans w' = w_chans w
  | CInput k s name ty => exists t, w_types w !! ty = Some t /\
      new_node w w' r k IN t (if s then VScalar else VStream) name []
  | COutput k s name ty => exists t, w_types w !! ty = Some t /\
      new_node w w' r k OUT t (if s then VScalar else VStream) name []
  | CNewVar k s ty => exists t, w_types w !! ty = Some t /\
      new_node w w' r k NONE t (if s then VScalar else VStream) EmptyString []
  | CConst ty v => exists t, w_types w !! ty = Some t /\ const_result w w' r t (v mod 2 ^ 64)%Z
  | CBin o a b =>
      (exists ta tb va vb v, const_of w a ta va /\ const_of w b tb vb /\
         fold_bin F o ta va vb = CV v /\ const_result w w' r ta v)
      \/ (exists ta, type_of w a = Some ta /\ ~ (is_const w a /\ is_const w b) /\
          new_node w w' r (if is_constb w a then owner w b else owner w a) (BIN o) (if is_comp o then TFixed false 1 0 else ta)
                   VStream EmptyString [a; b])
  | CUn u a =>
      (exists ta va v, const_of w a ta va /\ fold_un F u ta va = CV v /\ const_result w w' r ta v)
      \/ (exists ta, type_of w a = Some ta /\ ~ is_const w a /\
          new_node w w' r (owner w a) (UN u) ta VStream EmptyString [a])
  | CShift l a n =>
      (exists ta va v, const_of w a ta va /\ const_result w w' r ta v /\
          (if l then c_shl va (n mod 256) else c_shr va (n mod 256))%Z = CV v)
      \/ (exists ta, type_of w a = Some ta /\ ~ is_const w a /\
          new_node w w' r (owner w a) ((if l then SHL else SHR) (n mod 256)%Z) ta VStream EmptyString [a])
  | CSlice a f s =>
      let f := (f mod 65536)%Z in let s := (s mod 65536)%Z in
      exists ta, type_of w a = Some ta /\ (Z.max f s < total_bits ta)%Z /\
        new_node w w' r (owner w a) (BITS (Z.max f s) (Z.min f s)) (mkRaw (Z.abs (f - s) + 1))
                 VStream EmptyString [a]
  | CCat a b => exists ta tb, type_of w a = Some ta /\ type_of w b = Some tb /\
      new_node w w' r (owner w a) CAT (mkRaw (total_bits ta + total_bits tb)) VStream EmptyString [a; b]
  | CCast a ty => exists t, w_types w !! ty = Some t /\
      ((r = a /\ w' = w /\ exists nd, w_nodes w !! a = Some nd /\ n_ty nd = ty)
       \/ new_node w w' r (owner w a) CAST t VStream EmptyString [a])
  | CMux k ctrl args => exists a0 rest t, args = a0 :: rest /\ type_of w a0 = Some t /\
      new_node w w' r k MUX t VStream EmptyString (ctrl :: args)
  | COffset k a off => exists t nd, type_of w a = Some t /\ w_nodes w !! a = Some nd /\
      n_vk nd = VStream /\ new_node w w' r k (OFFSET off) t VStream EmptyString [a]
  | CConnect a b => r = a /\ is_Some (w_nodes w !! a) /\ is_Some (w_nodes w !! b) /\
      in_chans w' a = in_chans w a ++ [mkChan b a 0 true] /\
      (forall n, is_Some (w_nodes w' !! n) <-> is_Some (w_nodes w !! n))
  end.

(** ** Discipline under which a kernel is a feed-forward network *)

(** a [connect] drives an output (or placeholder) that has no driver, that nobody has
    read yet, from a different variable *)
Definition ok_call (w : world) (c : cmd) : Prop :=
  match c with
  | CConnect a b => a <> b /\ operands w a = [] /\ readers w a = [] /\
      exists nd, w_nodes w !! a = Some nd /\ (n_op nd = OUT \/ n_op nd = NONE)
  | _ => True
  end.
Fixpoint disciplined (F : fltops) (w : world) (h : list cmd) : Prop :=
  match h with
  | [] => True
  | c :: h' => ok_call w c /\
      match step F w c with Ok (w', _) => disciplined F w' h' | _ => True end
  end.

(** complete kernels: no placeholder is left and every output is driven *)
Definition complete (w : world) (k : kid) : Prop :=
  forall n nd, w_nodes w !! n = Some nd -> n_meta nd = k ->
    n_op nd <> NONE /\ (n_op nd = OUT -> operands w n <> []).

(** all live nodes belong to kernel [k] (histories that construct one kernel) *)
Definition only_kernel (w : world) (k : kid) : Prop :=
  forall n nd, w_nodes w !! n = Some nd -> n_meta nd = k.
