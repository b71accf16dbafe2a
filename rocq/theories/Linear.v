(** * The linear-programming scheduler.

    Models /repo/src/model/dfcir/lib/dfcir/passes/DFCIRLinearSchedulerPass.cpp and the
    wrapper DFCIRLPUtils.cpp.  lp_solve itself is a parameter: a function from the
    problem to a status and a vector of column values.  Doubles are rationals (the
    coefficients are -1, 0, 1 and the right-hand sides integers); column numbers are
    those of the code, which start with 1. *)
From Coq Require Import ZArith Bool QArith.
From stdpp Require Import list.
From Verif Require Import Types Value Graph Dfcir Sched.
Local Open Scope Z_scope.

(** DFCIRLPUtils.h:22-26, :52-66 *)
Inductive lpop := LpEq | LpGe.
Record lpc := mkLpc { lp_terms : list (nat * Z); lp_op : lpop; lp_rhs : Z }.
(** columns, constraints, columns of the objective (all with coefficient 1) *)
Record lp := mkLp { lp_cols : nat; lp_cons : list lpc; lp_obj : list nat }.

(** DFCIRLPUtils.h:29-40; [Optimal] or [Suboptimal], anything else *)
Inductive status := Solved | Failed.
Definition solver := lp -> status * (nat -> Q).

(** nodeMap[node]; [operator\[\]] gives 0 for a missing key *)
Definition col_of (nm : list (nat * nat)) (v : nat) : nat :=
  match List.find (fun p => Nat.eqb (fst p) v) nm with Some p => snd p | None => 0%nat end.

(** DFCIRLinearSchedulerPass.cpp:107-116; [col] is the next column *)
Fixpoint lp_nodes (ns : list snode) (col : nat) : option (list (nat * nat) * list lpc * nat) :=
  match ns with
  | [] => Some ([], [], col)
  | n :: ns' =>
      if s_lat n <? 0 then None else
      match lp_nodes ns' (S col) with
      | None => None
      | Some (nm, cs, col') =>
          Some ((s_id n, col) :: nm,
                (if is_input (s_op n) then [mkLpc [(col, 1)] LpEq 0] else []) ++ cs, col')   (* :43-51 *)
      end
  end.

(** the channels in the order of :121-122 *)
Definition inputs_of (cs : list schan) (v : nat) : list schan :=
  List.filter (fun c => Nat.eqb (sc_tgt c) v) cs.
Definition lp_order (ns : list snode) (cs : list schan) : list schan :=
  mjoin (map (fun n => inputs_of cs (s_id n)) ns).

(** :53-100 for one channel: latency, delta and buffer constraints *)
Definition chan_cons (nm : list (nat * nat)) (c : schan) (w : Z) (delta buf : nat) : list lpc :=
  let t := col_of nm (sc_tgt c) in let s := col_of nm (sc_src c) in
  [ mkLpc [(t, 1); (s, -1)] LpGe w;
    mkLpc [(delta, 1); (t, -1); (s, 1)] LpEq 0;
    mkLpc [(buf, 1); (t, -1); (s, 1)] LpEq (- w);
    mkLpc [(buf, 1)] LpGe 0 ].

(** :121-128: (channel, delta column, buffer column) and the constraints *)
Fixpoint lp_chans (ns : list snode) (nm : list (nat * nat)) (cs : list schan) (col : nat)
  : option (list (schan * nat * nat) * list lpc * nat) :=
  match cs with
  | [] => Some ([], [], col)
  | c :: cs' =>
      match i32 (node_lat ns (sc_src c) + sc_off c) with
      | None => None
      | Some w =>
          match lp_chans ns nm cs' (S (S col)) with
          | None => None
          | Some (l, k, col') => Some ((c, col, S col) :: l, chan_cons nm c w col (S col) ++ k, col')
          end
      end
  end.

(** :107-133 *)
Definition lp_build (ns : list snode) (cs : list schan)
  : option (lp * list (nat * nat) * list (schan * nat * nat)) :=
  match lp_nodes ns 1 with
  | None => None
  | Some (nm, k1, col) =>
      match lp_chans ns nm (lp_order ns cs) col with
      | None => None
      | Some (l, k2, col') =>
          Some (mkLp (col' - 1) (k1 ++ k2) (map (fun x => snd (fst x)) l), nm, l)
      end
  end.

(** conversion of a double to int32_t: towards zero, undefined out of range *)
Definition trunc (q : Q) : option Z := i32 (Z.quot (Qnum q) (Z.pos (Qden q))).

(** :140-149.  [get_variables] fills [result[0 .. cols-1]] with columns 1.. *)
Definition results (p : lp) (x : nat -> Q) : list Q := map x (seq 1 (lp_cols p)).
Fixpoint lp_buffers (ns : list snode) (res : list Q) (l : list (schan * nat * nat))
  : option (list (schan * Z)) :=
  match l with
  | [] => Some []
  | (c, _, id) :: l' =>
      match res !! (id - 1)%nat with
      | None => None
      | Some q =>
          match trunc q with
          | None => None
          | Some z =>
              match lp_buffers ns res l' with
              | None => None
              | Some bs => if negb (z =? 0) && negb (node_is_const ns (sc_src c))
                           then Some ((c, z) :: bs) else Some bs
              end
          end
      end
  end.

(** schedule, :102-164: on failure the status is printed and there are no buffers *)
Definition lp_schedule (solve : solver) (ns : list snode) (cs : list schan) : option (list (schan * Z)) :=
  match lp_build ns cs with
  | None => None
  | Some (p, _, l) =>
      match solve p with
      | (Solved, x) => lp_buffers ns (results p x) l
      | (Failed, _) => Some []
      end
  end.

(** runOnOperation, :170-195.  The reported latency is 0 (:161). *)
Definition linear_pass (solve : solver) (cfg : latcfg) (order : list (schan * Z) -> list (schan * Z))
           (P : program) : option (program * Z) :=
  let P1 := apply_config cfg P in
  match sgraph P1 with
  | None => None
  | Some (ns, cs) =>
      match lp_schedule solve ns cs with
      | None => None
      | Some bs =>
          match insert_buffers P1 (order bs) (fresh P1) with
          | None => None
          | Some P2 => Some (erase_offsets P2, 0)
          end
      end
  end.
