(** * Combinational pipelining.

    Models /repo/src/model/dfcir/lib/dfcir/passes/DFCIRPipelineUtils.cpp,
    DFCIRCombPipelinePass.cpp and the part of include/dfcir/passes/DFCIRGraph.h not
    modelled in Sched.v.  The single-precision arithmetic of the cascade division is
    exact arithmetic followed by a rounding function [rnd], which is a parameter;
    [eps] is the constant floatEps.  [None] means that the pass does not complete. *)
From Coq Require Import ZArith Bool QArith.
From stdpp Require Import list.
From Verif Require Import Types Value Graph Dfcir Sched.
Local Open Scope Z_scope.

(** findNearestNodeValue, DFCIRPipelineUtils.cpp:13-21: [foundConnect] is not updated in the
    loop, so the loop does not end once it is entered *)
Definition comb_source (P : program) (v : nat) : option nat :=
  match con_of P v with Some _ => None | None => Some v end.

(** :94-102.  Channels reuse the record of Sched.v; they have no offset.  A source that is
    not a node (an offset) is a null pointer, which :100 dereferences. *)
Fixpoint comb_chans (P : program) (done : list nat) (tgt : nat) (i : Z) (args : list nat)
  : option (list schan) :=
  match args with
  | [] => Some []
  | a :: rest =>
      match comb_source P a with
      | None => None
      | Some s =>
          if bool_decide (s ∈ done) then
            match comb_chans P done tgt (i + 1) rest with
            | Some l => Some (mkSChan s tgt (wrap8 i) 0 :: l)
            | None => None
            end
          else None
      end
  end.

(** process, :23-109.  The weight of a node (0 for inputs, outputs and constants, 1 for
    operations) is a function of the operation, see [comb_weight]; [s_lat] is not used. *)
Definition comb_process (P : program) (done : list nat) (s : stmt)
  : option (list snode * list schan) :=
  match s with
  | Def r o _ _ _ args =>
      match o with
      | DIn _ _ | DOut _ _ | DConst _ => Some ([mkSNode r o 0], [])
      | DOffset _ => Some ([], [])
      | _ => match comb_chans P (r :: done) r 0 args with
             | Some cs => Some ([mkSNode r o 0], cs)
             | None => None
             end
      end
  | Con d v =>
      match op_of P d with
      | Some (DOut _ _) =>
          match comb_source P v with
          | None => None
          | Some s =>
              if bool_decide (s ∈ done) && bool_decide (d ∈ done)
              then Some ([], [mkSChan s d (-1) 0]) else None
          end
      | _ => Some ([], [])
      end
  end.
(** constructFrom, DFCIRGraph.h:134-146 *)
Fixpoint comb_construct (P : program) (done : list nat) (rest : program)
  : option (list snode * list schan) :=
  match rest with
  | [] => Some ([], [])
  | s :: rest' =>
      match comb_process P done s with
      | None => None
      | Some (ns, cs) =>
          match comb_construct P (map s_id ns ++ done) rest' with
          | Some (ns', cs') => Some (ns ++ ns', cs ++ cs')
          | None => None
          end
      end
  end.
Definition cgraph (P : program) : option (list snode * list schan) := comb_construct P [] P.

Definition comb_weight (o : dop) : Q :=
  match o with DIn _ _ | DOut _ _ | DConst _ => 0%Q | _ => 1%Q end.

(** ** divideIntoLayers, :111-151 *)
(** :131-137 *)
Definition lay_chans (x : Z) (l : list schan) (m : lats) : lats :=
  fold_left (fun m c => if m (sc_tgt c) <? x then upd m (sc_tgt c) x else m) l m.
(** :122-138 *)
Fixpoint lay_nodes (cs : list schan) (rest : list snode) (m : lats) (mx : Z) : lats * Z :=
  match rest with
  | [] => (m, mx)
  | n :: rest' =>
      let x := m (s_id n) + 1 in
      let out := outputs_of cs (s_id n) in
      lay_nodes cs rest' (lay_chans x out m)
                (if negb (bool_decide (out = [])) && (mx <? x) then x else mx)
  end.
Definition comb_layers (ns : list snode) (cs : list schan) : lats * Z :=
  lay_nodes cs ns (fun _ => 0) 0.
(** :141-150: the weight of each of the layers 0 .. maxLayerId *)
Definition layer_weight (ns : list snode) (m : lats) (l : Z) : Q :=
  fold_left (fun acc n => if m (s_id n) =? l
                          then (if Qle_bool (comb_weight (s_op n)) acc then acc else comb_weight (s_op n))
                          else acc) ns 0%Q.
Definition layer_weights (ns : list snode) (m : lats) (mx : Z) : list Q :=
  map (fun k => layer_weight ns m (Z.of_nat k)) (seq 0 (S (Z.to_nat mx))).

(** ** divideIntoCascades, :153-215 *)
Section Float.
Variables (rnd : Q -> Q) (eps : Q).
Definition gt_eps (x : Q) : bool := negb (Qle_bool x eps).
(** :174-209.  [first]: [i = 0]; [left], [cur], [sum], [tot], [avg] are leftCascades,
    currCascade, currSum, latSum and latAvg.  The first equation with [left <= 1] is the
    loop at :205-209. *)
Fixpoint casc_loop (n : Z) (first : bool) (ls : list Q) (left cur : Z) (sum tot avg : Q)
  : option (list Z) :=
  match ls with
  | [] => Some []
  | l :: ls' =>
      if left <=? 1 then Some (map (fun _ => n - 1) ls) else
      let sum' := rnd (sum + l) in
      if gt_eps (rnd (avg - sum')) then
        match casc_loop n false ls' left cur sum' tot avg with
        | Some r => Some (cur :: r) | None => None end
      else if gt_eps (rnd (rnd (rnd (sum' - avg) - avg) + sum)) then
        if first then None else                                     (* assert, :188 *)
        let tot' := rnd (tot - sum) in
        match casc_loop n false ls' (left - 1) (cur + 1) l tot' (rnd (tot' / rnd (inject_Z (left - 1)))) with
        | Some r => Some (cur + 1 :: r) | None => None end
      else
        let tot' := rnd (tot - sum') in
        match casc_loop n false ls' (left - 1) (cur + 1) 0%Q tot' (rnd (tot' / rnd (inject_Z (left - 1)))) with
        | Some r => Some (cur :: r) | None => None end
  end.
(** :159-172 and :210-214 *)
Definition lat_sum (ls : list Q) : Q := fold_left (fun acc l => rnd (acc + l)) ls 0%Q.
Definition cascades (n : Z) (ls : list Q) : option (list Z) :=
  if n <=? 0 then None else                                          (* assert, :156 *)
  match casc_loop n true ls n 0 0%Q (lat_sum ls) (rnd (lat_sum ls / rnd (inject_Z n))) with
  | None => None
  | Some r => match r with [] => None                                (* layerCascades[-1] *)
              | _ => Some (<[(length r - 1)%nat := n - 1]> r) end
  end.

(** ** calculateFIFOs, :217-262 *)
Definition casc_at (ks : list Z) (l : Z) : Z := nth (Z.to_nat l) ks 0.
Fixpoint comb_buffers (ns : list snode) (m : lats) (ks : list Z) (cs : list schan)
  : option (list (schan * Z)) :=
  match cs with
  | [] => Some []
  | c :: cs' =>
      match comb_buffers ns m ks cs' with
      | None => None
      | Some bs =>
          if node_is_const ns (sc_src c) then Some bs else
          let d := wrap32 (casc_at ks (m (sc_tgt c)) - casc_at ks (m (sc_src c))) in   (* int32_t *)
          match (if m (sc_tgt c) =? Z.of_nat (length ks) - 1 then i32 (d + 1) else Some d) with
          | None => None
          | Some delta => if delta =? 0 then Some bs else Some ((c, delta) :: bs)
          end
      end
  end.

(** ** runOnOperation, DFCIRCombPipelinePass.cpp:31-54 *)
Definition comb_pass (n : Z) (order : list (schan * Z) -> list (schan * Z)) (P : program) : option program :=
  if n =? 0 then Some P else
  let P1 := apply_config (fun _ => Some 0) P in      (* setLatency(0), DFCIRPipelineUtils.cpp:26-30 *)
  match cgraph P1 with
  | None => None
  | Some (ns, cs) =>
      let (m, mx) := comb_layers ns cs in
      match cascades n (layer_weights ns m mx) with
      | None => None
      | Some ks =>
          match comb_buffers ns m ks cs with
          | None => None
          | Some bs => insert_buffers P1 (order bs) (fresh P1)
          end
      end
  end.
End Float.
