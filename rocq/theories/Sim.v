(** * The DFCxx simulator: one tick.

    Models /repo/src/model/dfcxx/lib/dfcxx/simulator.cpp:47-239 (the processing
    functions, [processOp], [runSim]).  The value map [RecordedValues] is a finite
    map; [vals[x]] on a missing key yields 0 (the C++ [operator[]] additionally
    inserts that 0; every operand is itself a node of the sorted list, so the entry
    is there anyway after the first complete tick). *)
From Coq Require Import ZArith Bool String.
From stdpp Require Import gmap list.
From Verif Require Import Types Word Value Graph.
Local Open Scope Z_scope.

(** result of a simulation step: [SFail] = the function returned false *)
Inductive simres (A : Type) : Type :=
| SOk (a : A) | SFail | SThrow | SUndef.
Arguments SOk {A}. Arguments SFail {A}. Arguments SThrow {A}. Arguments SUndef {A}.
Definition sbind {A B} (m : simres A) (f : A -> simres B) : simres B :=
  match m with SOk a => f a | SFail => SFail | SThrow => SThrow | SUndef => SUndef end.

Definition vget (v : gmap nat Z) (n : nat) : Z := default 0 (v !! n).

(** [node->inputs[i]->source]; an index beyond the vector is undefined *)
Definition src_at (w : world) (nd : node) (i : nat) : simres nat :=
  match n_ins nd !! i with
  | Some c => match w_chans w !! c with Some ch => SOk (c_src ch) | None => SUndef end
  | None => SUndef
  end.

(** operand value [vals[node->inputs[i]->source]] *)
Definition opnd (w : world) (v : gmap nat Z) (nd : node) (i : nat) : simres Z :=
  sbind (src_at w nd i) (fun s => SOk (vget v s)).

Definition of_c (c : cval) : simres Z := match c with CV z => SOk z | CUB => SUndef end.

Section Sim.
Variable F : fltops.
Variable w : world.
(** [inData.at(name)[ind]] of the current tick; [None]: no such name *)
Variable inp : string -> option Z.

(** simulator.cpp:47-195 ([processOp] dispatch :188-195, table :201-228; operators
    without an entry make [processOp] return false) *)
Definition process (v : gmap nat Z) (n : nat) : simres Z :=
  match w_nodes w !! n with
  | None => SUndef
  | Some nd =>
    match n_op nd with
    | IN => match inp (n_name nd) with Some x => SOk x | None => SThrow end   (* :47-52 *)
    | OUT => opnd w v nd 0                                                    (* :54-60 *)
    | CONST c => SOk c                                                        (* :62-66 *)
    | MUX => sbind (opnd w v nd 0) (fun c =>                                  (* :68-73 *)
             let i := w64 (c + 1) in
             if i <? Z.of_nat (length (n_ins nd)) then opnd w v nd (Z.to_nat i) else SUndef)
    | BIN o =>
        match w_types w !! n_ty nd with
        | None => SUndef
        | Some t =>
            match opnd w v nd 0, opnd w v nd 1 with
            | SOk a, SOk b => match sim_bin F o t a b with Some c => of_c c | None => SFail end
            | _, _ => SUndef
            end
        end
    | UN u =>
        match w_types w !! n_ty nd with
        | None => SUndef
        | Some t =>
            sbind (opnd w v nd 0) (fun a =>
            match sim_un F u t a with Some c => of_c c | None => SFail end)
        end
    | SHL k => sbind (opnd w v nd 0) (fun a => of_c (c_shl a k))              (* :176-180 *)
    | SHR k => sbind (opnd w v nd 0) (fun a => of_c (c_shr a k))              (* :182-186 *)
    | NONE | OFFSET _ | CAST | BITS _ _ | CAT => SFail
    end
  end.

(** runSim, simulator.cpp:231-245 *)
Fixpoint run_sim (v : gmap nat Z) (order : list nat) : simres (gmap nat Z) :=
  match order with
  | [] => SOk v
  | n :: order' => sbind (process v n) (fun x => run_sim (<[n := x]> v) order')
  end.

End Sim.
