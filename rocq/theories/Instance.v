(** * Sub-kernel instances.

    Models Kernel::instance and what it calls: kernel.h:78-93, kernel.cpp:162-184,
    kernel_meta.cpp:27-31, graph.cpp:29-35, 110-183 and the destructor of the sub-kernel
    (kernel.h:98-103, kernel_meta.cpp:21-25), under /repo/src/model/dfcxx.

    The constructor of the sub-kernel is a sequence of API calls of Graph.v that starts
    with [KNew]; [do_instance] is the rest of [instance], run when that constructor has
    returned. *)
From Coq Require Import ZArith Bool String.
From stdpp Require Import gmap list.
From Verif Require Import Types Word Value Graph.

(** unordered_map::find on [nameMap]; the list has the latest binding of a name first *)
Definition name_lookup (l : list (string * nid)) (s : string) : option nid :=
  match List.find (fun p => String.eqb (fst p) s) l with Some p => Some (snd p) | None => None end.

(** Graph::findNode(name), graph.cpp:29-35 *)
Definition find_name (w : world) (k : kid) (s : string) : res nid :=
  let! g := of_opt UB (w_kern w !! k) in
  of_opt Throw (name_lookup (g_names g) s).

Definition set_name (nd : node) (s : string) : node :=
  mkNode (n_op nd) (n_ty nd) (n_vk nd) s (n_meta nd) (n_ins nd) (n_outs nd).
Definition set_meta (nd : node) (k : kid) : node :=
  mkNode (n_op nd) (n_ty nd) (n_vk nd) (n_name nd) k (n_ins nd) (n_outs nd).
Definition set_src (s : nid) (ch : chan) : chan := mkChan s (c_tgt ch) (c_ind ch) (c_conn ch).
Definition set_tgt (t : nid) (ch : chan) : chan := mkChan (c_src ch) t (c_ind ch) (c_conn ch).

(** Graph::resetNodeName, graph.cpp:119-126.  The code erases the map entry and then
    reads the node through the erased iterator (:124-125), which is undefined; the model
    gives it the meaning that was intended (the iterator still shows the entry). *)
Definition reset_name (w : world) (k : kid) (s : string) : res world :=
  let! g := of_opt UB (w_kern w !! k) in
  let! n := of_opt Throw (name_lookup (g_names g) s) in
  let g' := mkGraph (g_nodes g) (g_starts g) (List.filter (fun p => negb (String.eqb (fst p) s)) (g_names g)) in
  Ok (set_kern (set_nodes w (alter (fun nd => set_name nd EmptyString) n (w_nodes w)))
               (<[k := g']> (w_kern w))).

(** Graph::deleteNode, graph.cpp:128-132, called by Kernel::deleteNode, kernel.cpp:181-184:
    the node leaves both sets of its graph; its channels are not touched *)
Definition delete_node (w : world) (k : kid) (n : nid) : res world :=
  let! g := of_opt UB (w_kern w !! k) in
  let drop := List.filter (fun m => negb (Nat.eqb m n)) in
  Ok (set_kern (set_nodes w (delete n (w_nodes w)))
               (<[k := mkGraph (drop (g_nodes g)) (drop (g_starts g)) (g_names g)]> (w_kern w))).

(** [channel->source = s] for every channel of a list *)
Definition redirect (cs : list cid) (s : nid) (m : gmap nat chan) : gmap nat chan :=
  foldl (fun m c => alter (set_src s) c m) m cs.

(** Kernel::rebindInput, kernel.cpp:162-167, and Graph::rebindInput, graph.cpp:134-139.
    The source is searched in the graph of the instantiating kernel only; if it is not
    there the null pointer is dereferenced as soon as the input has a reader. *)
Definition rebind_input (w : world) (p k : kid) (v n : nid) : res world :=
  let! nd := get_node w n in
  let! _ := get_node w v in
  let! f := find_node w p v in
  match n_outs nd with
  | [] => delete_node w k n
  | outs =>
      if f then
        let w1 := set_chans (set_nodes w (alter (fun x => set_outs x (n_outs x ++ outs)) v (w_nodes w)))
                            (redirect outs v (w_chans w)) in
        delete_node w1 k n
      else UB
  end.

(** Kernel::rebindOutput, kernel.cpp:169-179, and Graph::rebindOutput, graph.cpp:141-177.
    [v]: the bound variable of the instantiating kernel; [o]: the output of the sub-kernel.
    The channel into [o] is unlinked but not freed when [v] is a placeholder.  When the
    driver of [o] is [v] itself the loop at :164-167 appends to the vector it walks. *)
Definition rebind_output (w : world) (p k : kid) (o v : nid) : res (world * nid) :=
  let! no := get_node w o in
  let! nv := get_node w v in
  let! f := find_node w p v in
  if negb f then UB else
  match n_ins nv, n_ins no with
  | [], [c] =>
      let! ch := of_opt UB (w_chans w !! c) in
      let s := c_src ch in
      let! ns := get_node w s in
      match n_op nv with
      | NONE =>
          if Nat.eqb s v || negb (bool_decide (c ∈ n_outs ns)) then UB
          else
            let outs := List.filter (fun x => negb (Nat.eqb x c)) (n_outs ns) ++ n_outs nv in
            let w1 := set_chans (set_nodes w (alter (fun x => set_outs x outs) s (w_nodes w)))
                                (redirect (n_outs nv) s (delete c (w_chans w))) in
            let! w2 := delete_node w1 p v in
            let! w3 := delete_node w2 k o in
            Ok (w3, s)
      | OUT =>
          let w1 := set_chans (set_nodes w (alter (fun x => set_ins x [c]) v (w_nodes w)))
                              (alter (set_tgt v) c (w_chans w)) in
          let! w2 := delete_node w1 k o in
          Ok (w2, v)
      | _ => Assert
      end
  | _, _ => Assert
  end.

(** one iteration of the loop of [instance], kernel.h:82-90; the second component is the
    value the bound variable has afterwards *)
Definition bind_one (w : world) (p k : kid) (v : nid) (s : string) : res (world * nid) :=
  let! n := find_name w k s in
  let! w1 := reset_name w k s in
  let! nd := get_node w1 n in
  match n_op nd with
  | IN => let! w2 := rebind_input w1 p k v n in Ok (w2, v)
  | _ => rebind_output w1 p k n v
  end.
Fixpoint bind_all (w : world) (p k : kid) (bs : list (nid * string)) : res (world * list nid) :=
  match bs with
  | [] => Ok (w, [])
  | (v, s) :: bs' =>
      let! (w1, r) := bind_one w p k v s in
      let! (w2, rs) := bind_all w1 p k bs' in
      Ok (w2, r :: rs)
  end.

(** KernelMeta::transferFrom, kernel_meta.cpp:27-31, and Graph::transferFrom,
    graph.cpp:110-117: all nodes of the sub-kernel change owner; of its start nodes only
    the constants are taken over; its names are not *)
Definition is_const_op (o : opk) : bool := match o with CONST _ => true | _ => false end.
Definition transfer (w : world) (p k : kid) : res world :=
  let! gp := of_opt UB (w_kern w !! p) in
  let! gk := of_opt UB (w_kern w !! k) in
  let nodes := foldr (fun n m => alter (fun nd => set_meta nd p) n m) (w_nodes w) (g_nodes gk) in
  let consts := List.filter (fun n => match w_nodes w !! n with Some nd => is_const_op (n_op nd) | None => false end) (g_starts gk) in
  Ok (set_kern (set_nodes w nodes)
        (delete k (<[p := mkGraph (g_nodes gk ++ g_nodes gp) (consts ++ g_starts gp) (g_names gp)]> (w_kern w)))).

(** Kernel::~Kernel, kernel.h:98-103, then KernelMeta::~KernelMeta, kernel_meta.cpp:21-25 *)
Definition leave (w : world) (k : kid) : world :=
  let st := tail (w_stack w) in
  let top := match st with [] => None | _ => w_top w end in
  let top := match top with Some t => if Nat.eqb t k then None else Some t | None => None end in
  set_top (set_stack w st) top.

(** Kernel::instance, kernel.h:78-93, after the constructor of [k] *)
Definition do_instance (w : world) (p k : kid) (bs : list (nid * string)) : res (world * list nid) :=
  let! (w1, rs) := bind_all w p k bs in
  let! w2 := transfer w1 p k in
  Ok (leave w2 k, rs).

(** The destructor of a kernel object that was not given to [instance]: the same two
    destructors, and those of the members of KernelMeta: KernelStorage (kernel_storage.cpp:45-50)
    frees the variables and Graph (graph.cpp:18-27) the nodes and the channels that leave them.
    Handles of freed variables are not in [w_nodes] afterwards.  popping an empty vector is
    undefined.  Note that [leave] pops the stack whichever kernel dies. *)
Definition outs_of (w : world) (g : graph) : list cid :=
  flat_map (fun n => match w_nodes w !! n with Some nd => n_outs nd | None => [] end) (g_nodes g).
Definition do_drop (w : world) (k : kid) : res world :=
  let! g := of_opt UB (w_kern w !! k) in
  match w_stack w with
  | [] => UB
  | _ =>
      Ok (leave (set_kern (set_chans (set_nodes w (foldr (fun n m => delete n m) (w_nodes w) (g_nodes g)))
                                     (foldr (fun c m => delete c m) (w_chans w) (outs_of w g)))
                          (delete k (w_kern w))) k)
  end.

(** ** Histories with instances *)
Inductive icmd : Type :=
| ICall (c : cmd)
| IInst (p k : kid) (bs : list (nid * string))
| IDrop (k : kid).
Section Run.
Variable F : fltops.
(** one call; the result is the handle returned, or the new values of the bound variables *)
Definition istep (w : world) (c : icmd) : res (world * list nat) :=
  match c with
  | ICall c => let! (w', r) := step F w c in Ok (w', [r])
  | IInst p k bs => do_instance w p k bs
  | IDrop k => let! w' := do_drop w k in Ok (w', [])
  end.
Fixpoint irun (w : world) (h : list icmd) : res world :=
  match h with
  | [] => Ok w
  | c :: h' => let! (w', _) := istep w c in irun w' h'
  end.
End Run.
