(** * Sorting the nodes of a kernel: [topSort(meta.graph)], called by
    Kernel::simulate (kernel.cpp:237) and DFCIRBuilder (dfcir_builder.cpp). *)
From Coq Require Import ZArith.
From stdpp Require Import gmap list.
From Verif Require Import Graph TopSort.

(** [node->outputs[i]->target] for all i (utils.cpp:41,45-46); a dangling channel
    pointer would be undefined behaviour, the consistency invariant excludes it. *)
Definition targets (w : world) (n : nid) : list nid :=
  match w_nodes w !! n with
  | Some nd => omap (fun c => c_tgt <$> w_chans w !! c) (n_outs nd)
  | None => []
  end.

(** [startNodes] is an unordered_set of pointers (graph.h:61): [hash] is the order in which
    utils.cpp:31-34 meets its elements *)
Definition sort_by (hash : list nid -> list nid) (w : world) (k : kid) : option ts_out :=
  match w_kern w !! k with
  | Some g => Some (top_sort (targets w) (hash (g_starts g)) (length (g_nodes g)))
  | None => None
  end.
(** [order] is what the sort can return *)
Definition sorts (w : world) (k : kid) (order : list nid) : Prop :=
  exists hash, (forall l, Permutation (hash l) l) /\ sort_by hash w k = Some (TSOk order).
(** one of the orders, for examples: latest start node first *)
Definition sort_kernel : world -> kid -> option ts_out := sort_by (fun l => l).
Lemma sort_sorts w k order : sort_kernel w k = Some (TSOk order) -> sorts w k order.
Proof. intro H. exists (fun l => l). split; [reflexivity|exact H]. Qed.
