(** * Model of the topological sort.

    Models /repo/src/model/dfcxx/lib/dfcxx/utils.cpp:25-62 ([topSort]) and, with
    the same text, the template copy
    /repo/src/model/dfcir/include/dfcir/passes/DFCIRGraph.h:198-236 (there [outs.at(node)] throws for a node without entry; every node has one, DFCIRGraph.h)
    ([topSortNodes]).

    Nodes are identified by natural numbers (the C++ code uses pointers and only
    compares them).  [outs n] is the list of the targets of [n->outputs], in the
    order of the vector; [starts] is the iteration order of the start-node set;
    [count] is [graph.getNodes().size()].  *)
From Coq Require Import List Arith.
Import ListNotations.

(** [checked] : the unordered_map<Node*, size_t> of utils.cpp:30. *)
Definition cmap := nat -> option nat.
Definition cempty : cmap := fun _ => None.
Definition cset (m : cmap) (k v : nat) : cmap :=
  fun x => if Nat.eqb x k then Some v else m x.
(** [operator[]] on a missing key yields a value-initialised 0. *)
Definition cget (m : cmap) (k : nat) : nat :=
  match m k with Some v => v | None => 0 end.

(** The [for] loop of utils.cpp:44-52.  [rest] is the suffix of
    [node->outputs] from index [curr]; the result is the updated map and the node
    pushed, if any ([flag == false]). *)
Fixpoint scan (node : nat) (rest : list nat) (m : cmap) : cmap * option nat :=
  match rest with
  | [] => (m, None)
  | t :: rest' =>
      match m t with
      | None =>
          let m1 := cset m t 0 in
          (cset m1 node (S (cget m1 node)), Some t)
      | Some _ => scan node rest' (cset m node (S (cget m node)))
      end
  end.

Inductive ts_out :=
| TSOk (result : list nat)     (** both asserts hold, utils.cpp:61 *)
| TSAssert                     (** assert(stack.empty()) or assert(i == 0) fails, :59-60 *)
| TSFuel.                      (** model artefact: fuel exhausted (proved unreachable) *)

(** The [while] loop of utils.cpp:39-58.  [stack] has its top first; [res] is the
    already filled tail result[i..]. *)
Fixpoint ts_loop (outs : nat -> list nat) (fuel : nat)
         (stack : list nat) (m : cmap) (i : nat) (res : list nat) : ts_out :=
  match stack, i with
  | [], O => TSOk res
  | [], S _ => TSAssert
  | _ :: _, O => TSAssert
  | node :: stack', S i' =>
      match fuel with
      | O => TSFuel
      | S fuel' =>
          match scan node (skipn (cget m node) (outs node)) m with
          | (m', Some t) => ts_loop outs fuel' (t :: stack) m' i res
          | (m', None) => ts_loop outs fuel' stack' m' i' (node :: res)
          end
      end
  end.

(** utils.cpp:33-36: all start nodes are pushed and marked before the loop. *)
Definition ts_init (starts : list nat) : list nat * cmap :=
  fold_left (fun (sm : list nat * cmap) s => (s :: fst sm, cset (snd sm) s 0))
            starts ([], cempty).

(** utils.cpp:25-62.  The fuel [2 * count + 1] is proved sufficient. *)
Definition top_sort (outs : nat -> list nat) (starts : list nat) (count : nat)
  : ts_out :=
  let (stack, m) := ts_init starts in
  ts_loop outs (2 * count + 1) stack m count [].
