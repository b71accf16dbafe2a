(** * Scheduling graph, latency configuration, ASAP scheduler, buffer insertion.

    Models /repo/src/model/dfcir: lib/dfcir/passes/DFCIRScheduleUtils.cpp,
    DFCIRASAPSchedulerPass.cpp, DFCIRPassesUtils.cpp and include/dfcir/passes/DFCIRGraph.h.
    [None] means that the pass does not complete: failed assertion, null-pointer
    access, signed 32-bit overflow, or a loop that does not end. *)
From Coq Require Import ZArith Bool.
From stdpp Require Import gmap list.
From Verif Require Import Types Word Value Graph Dfcir.
Local Open Scope Z_scope.

(** int32_t arithmetic: overflow is undefined *)
Definition i32 (z : Z) : option Z :=
  if (- 2 ^ 31 <=? z) && (z <? 2 ^ 31) then Some z else None.
(** static_cast<int32_t>(int64_t): keeps the low 32 bits *)
Definition wrap32 (z : Z) : Z := (z + 2 ^ 31) mod 2 ^ 32 - 2 ^ 31.
(** conversion of an operand number to int8_t, DFCIRScheduleUtils.cpp:133 *)
Definition wrap8 (z : Z) : Z := (z + 128) mod 256 - 128.

(** ** Latency configuration *)

(** DFCIRPasses.h:23-50: [ADD_INT], [ADD_FLOAT], ... and [UNDEFINED] *)
Inductive ocls : Type := OBin (o : bop) (flt : bool) | ONeg (flt : bool) | OUndef.
Definition latcfg := ocls -> option Z.

(** resolveInternalOpType, DFCIRPassesUtils.cpp:28-62: decided by the type of the
    *result* *)
Definition op_class (o : dop) (t : dftype) : ocls :=
  match o with
  | DBin b => if is_bitwise b then OUndef else OBin b (is_float t)
  | DUn NEG => ONeg (is_float t)
  | _ => OUndef
  end.

(** applyConfig, DFCIRScheduleUtils.cpp:13-42, for one operation: the value given to
    the latency attribute (and to the node) *)
Definition config_latency (cfg : latcfg) (o : dop) (t : dftype) : Z :=
  match cfg (op_class o t) with Some l => l | None => 1 end.
Definition apply_config (cfg : latcfg) (P : program) : program :=
  map (fun s => match s with
                | Def r o k t l a => Def r o k t (if is_scheduled o then config_latency cfg o t else l) a
                | Con d s => Con d s
                end) P.

(** ** The scheduling graph *)
Record snode := mkSNode { s_id : nat; s_op : dop; s_lat : Z }.
Record schan := mkSChan { sc_src : nat; sc_tgt : nat; sc_ind : Z; sc_off : Z }.

(** connectionMap, DFCIRGraph.h:131-133: the last connect of a destination counts *)
Definition con_of (P : program) (v : nat) : option nat :=
  match List.find (fun s => match s with Con d _ => Nat.eqb d v | _ => false end) (rev P) with
  | Some (Con _ s) => Some s
  | _ => None
  end.

(** findNearestNodeValue, DFCIRScheduleUtils.cpp:44-67.  One unit of fuel per
    iteration; [None]: more iterations than statements (the loop never ends) or
    overflow of the sum. *)
Fixpoint resolve (P : program) (fuel : nat) (v : nat) (acc : Z) : option (nat * Z) :=
  match fuel with
  | O => None
  | S f =>
      match op_of P v, def_of P v with
      | Some (DOffset d), Some (_, _, _, _, s :: _) =>
          match i32 (acc + wrap32 d) with
          | None => None
          | Some acc' =>
              match con_of P s with
              | Some s' => resolve P f s' acc'
              | None => resolve P f s acc'
              end
          end
      | _, _ =>
          match con_of P v with
          | Some s => resolve P f s acc
          | None => Some (v, acc)
          end
      end
  end.
Definition nearest (P : program) (v : nat) : option (nat * Z) :=
  resolve P (S (length P)) v 0.

(** process, DFCIRScheduleUtils.cpp:69-145.  The channel list is in creation order;
    [done] is the set of operations already in [map]. *)
Fixpoint op_chans (P : program) (done : list nat) (tgt : nat) (i : Z) (args : list nat)
  : option (list schan) :=
  match args with
  | [] => Some []
  | a :: rest =>
      match nearest P a with
      | None => None
      | Some (s, off) =>
          if bool_decide (s ∈ done) then
            match op_chans P done tgt (i + 1) rest with
            | Some l => Some (mkSChan s tgt (wrap8 i) off :: l)
            | None => None
            end
          else None
      end
  end.

Definition process (P : program) (done : list nat) (s : stmt)
  : option (list snode * list schan) :=
  match s with
  | Def r o _ _ l args =>
      match o with
      | DIn _ _ | DOut _ _ | DConst _ => Some ([mkSNode r o 0], [])
      | DOffset _ => Some ([], [])
      | _ => match op_chans P (r :: done) r 0 args with
             | Some cs => Some ([mkSNode r o (if is_scheduled o then l else 0)], cs)
             | None => None
             end
      end
  | Con d v =>
      match op_of P d with
      | Some (DOut _ _) =>
          match nearest P v with
          | None => None
          | Some (s, off) =>
              if bool_decide (s ∈ done) && bool_decide (d ∈ done)
              then Some ([], [mkSChan s d (-1) off]) else None
          end
      | _ => Some ([], [])
      end
  end.

(** constructFrom, DFCIRGraph.h:128-141.  Latencies are already those of applyConfig:
    construction does not read them (it is called first in the code). *)
Fixpoint construct (P : program) (done : list nat) (rest : program)
  : option (list snode * list schan) :=
  match rest with
  | [] => Some ([], [])
  | s :: rest' =>
      match process P done s with
      | None => None
      | Some (ns, cs) =>
          match construct P (map s_id ns ++ done) rest' with
          | Some (ns', cs') => Some (ns ++ ns', cs ++ cs')
          | None => None
          end
      end
  end.
Definition sgraph (P : program) : option (list snode * list schan) := construct P [] P.

(** ** ASAP, DFCIRASAPSchedulerPass.cpp:36-72 *)
Definition lats := nat -> Z.     (** unordered_map<SchedNode*, int32_t>, default 0 *)
Definition upd (m : lats) (k : nat) (z : Z) : lats := fun x => if Nat.eqb x k then z else m x.

Definition node_is_output (ns : list snode) (v : nat) : bool :=
  existsb (fun n => Nat.eqb (s_id n) v && is_output (s_op n)) ns.
Definition node_lat (ns : list snode) (v : nat) : Z :=
  match List.find (fun n => Nat.eqb (s_id n) v) ns with Some n => s_lat n | None => 0 end.
Definition node_is_const (ns : list snode) (v : nat) : bool :=
  existsb (fun n => Nat.eqb (s_id n) v && is_constant_input (s_op n)) ns.

(** :44-56, the channels of one node *)
Fixpoint asap_chans (ns : list snode) (n : snode) (cs : list schan) (m : lats) (mx : Z)
  : option (lats * Z) :=
  match cs with
  | [] => Some (m, mx)
  | c :: cs' =>
      match i32 (m (s_id n) + s_lat n) with
      | None => None
      | Some x =>
          match i32 (x + sc_off c) with
          | None => None
          | Some lat =>
              let m' := if m (sc_tgt c) <? lat then upd m (sc_tgt c) lat else m in
              let mx' := if node_is_output ns (sc_tgt c) && (mx <? lat) then lat else mx in
              asap_chans ns n cs' m' mx'
          end
      end
  end.
Definition outputs_of (cs : list schan) (v : nat) : list schan :=
  List.filter (fun c => Nat.eqb (sc_src c) v) cs.
(** :41-57 *)
Fixpoint asap_nodes (ns : list snode) (cs : list schan) (rest : list snode) (m : lats) (mx : Z)
  : option (lats * Z) :=
  match rest with
  | [] => Some (m, mx)
  | n :: rest' =>
      if s_lat n <? 0 then None else
      match asap_chans ns n (outputs_of cs (s_id n)) m mx with
      | None => None
      | Some (m', mx') => asap_nodes ns cs rest' m' mx'
      end
  end.
(** :59-71.  The buffers are listed per channel; the code fills an unordered_map. *)
Fixpoint asap_buffers (ns : list snode) (m : lats) (cs : list schan)
  : option (list (schan * Z)) :=
  match cs with
  | [] => Some []
  | c :: cs' =>
      match i32 (m (sc_src c) + node_lat ns (sc_src c)) with
      | None => None
      | Some x =>
          match i32 (x + sc_off c) with
          | None => None
          | Some y =>
              match i32 (m (sc_tgt c) - y) with
              | None => None
              | Some delta =>
                  match asap_buffers ns m cs' with
                  | None => None
                  | Some l =>
                      if negb (delta =? 0) && negb (node_is_const ns (sc_src c))
                      then Some ((c, delta) :: l) else Some l
                  end
              end
          end
      end
  end.
Definition asap (ns : list snode) (cs : list schan)
  : option (lats * list (schan * Z) * Z) :=
  match asap_nodes ns cs ns (fun _ => 0) 0 with
  | None => None
  | Some (m, mx) =>
      match asap_buffers ns m cs with
      | None => None
      | Some b => Some (m, b, mx)
      end
  end.

(** ** insertBuffer, DFCIRGraph.h:147-180.  [f]: name of the new operation's result.
    For a connect the code looks the destination up in [connectionMap]; the model
    rewrites every connect of that destination (the builder emits at most one). *)
Definition val_ty (P : program) (v : nat) : vkind * dftype :=
  match def_of P v with Some (_, k, t, _, _) => (k, t) | None => (VStream, TRaw 0) end.
Definition insert_buffer (P : program) (c : schan) (lat : Z) (f : nat) : option program :=
  if lat <=? 0 then None
  else if 0 <=? sc_ind c then
    match def_of P (sc_tgt c) with
    | None => None
    | Some (_, _, _, _, args) =>
        match args !! Z.to_nat (sc_ind c) with
        | None => None
        | Some v =>
            let (k, t) := val_ty P v in
            Some (mjoin (map (fun s =>
              match s with
              | Def r o k' t' l a =>
                  if Nat.eqb r (sc_tgt c)
                  then [Def f DLatency k t lat [v]; Def r o k' t' l (<[Z.to_nat (sc_ind c) := f]> a)]
                  else [s]
              | _ => [s]
              end) P))
        end
    end
  else if sc_ind c =? -1 then
    match con_of P (sc_tgt c) with
    | None => None
    | Some v =>
        let (k, t) := val_ty P v in
        Some (mjoin (map (fun s =>
          match s with
          | Con d _ => if Nat.eqb d (sc_tgt c) then [Def f DLatency k t lat [v]; Con d f] else [s]
          | _ => [s]
          end) P))
    end
  else None.                       (* getResult(n) with n > 0: no such result *)

Fixpoint insert_buffers (P : program) (bs : list (schan * Z)) (f : nat) : option program :=
  match bs with
  | [] => Some P
  | (c, lat) :: bs' =>
      match insert_buffer P c lat f with
      | Some P' => insert_buffers P' bs' (S f)
      | None => None
      end
  end.

(** ** eraseOffsets, DFCIRPassesUtils.cpp:17-26 *)
Definition subst_val (a b v : nat) : nat := if Nat.eqb v a then b else v.
Definition subst_stmt (a b : nat) (s : stmt) : stmt :=
  match s with
  | Def r o k t l args => Def r o k t l (map (subst_val a b) args)
  | Con d v => Con (subst_val a b d) (subst_val a b v)
  end.
Definition is_def (v : nat) (s : stmt) : bool :=
  match s with Def r _ _ _ _ _ => Nat.eqb r v | _ => false end.
Definition erase_offset (P : program) (v : nat) : program :=
  match def_of P v with
  | Some (DOffset _, _, _, _, s :: _) =>
      map (subst_stmt v s) (List.filter (fun x => negb (is_def v x)) P)
  | _ => P
  end.
Definition offset_ids (P : program) : list nat :=
  omap (fun s => match s with Def r (DOffset _) _ _ _ _ => Some r | _ => None end) P.
Definition erase_offsets (P : program) : program := fold_left erase_offset (offset_ids P) P.

(** a name not used by the program *)
Definition fresh (P : program) : nat :=
  S (foldr Nat.max 0%nat (mjoin (map (fun s => match s with
      | Def r _ _ _ _ a => r :: a | Con d v => [d; v] end) P))).

(** runOnOperation, DFCIRASAPSchedulerPass.cpp:78-105.  [order]: the order in which the
    hash map yields the buffers (any permutation). *)
Definition asap_pass (cfg : latcfg) (order : list (schan * Z) -> list (schan * Z)) (P : program)
  : option (program * Z) :=
  let P1 := apply_config cfg P in
  match sgraph P1 with
  | None => None
  | Some (ns, cs) =>
      match asap ns cs with
      | None => None
      | Some (m, bs, mx) =>
          match insert_buffers P1 (order bs) (fresh P1) with
          | None => None
          | Some P2 => Some (erase_offsets P2, mx)
          end
      end
  end.
