(** * Linear programs: what a solver is trusted to return (specification). *)
From Coq Require Import ZArith QArith.
From stdpp Require Import list.
From Verif Require Import Types Value Graph Dfcir Sched SchedSpec Linear.
Local Open Scope Q_scope.

Definition lhs (ts : list (nat * Z)) (x : nat -> Q) : Q :=
  foldr (fun p acc => inject_Z (snd p) * x (fst p) + acc) 0 ts.
Definition holds (x : nat -> Q) (c : lpc) : Prop :=
  match lp_op c with
  | LpEq => lhs (lp_terms c) x == inject_Z (lp_rhs c)
  | LpGe => inject_Z (lp_rhs c) <= lhs (lp_terms c) x
  end.
(** a point of the polyhedron; columns are non-negative by default in lp_solve *)
Definition lp_point (p : lp) (x : nat -> Q) : Prop :=
  (forall i, (1 <= i <= lp_cols p)%nat -> 0 <= x i) /\ (forall c, c ∈ lp_cons p -> holds x c).
(** a corner: not the midpoint of two other points (the simplex method returns corners) *)
Definition lp_vertex (p : lp) (x : nat -> Q) : Prop :=
  lp_point p x /\
  forall y z, lp_point p y -> lp_point p z ->
    (forall i, (1 <= i <= lp_cols p)%nat -> x i == (y i + z i) / 2) ->
    forall i, (1 <= i <= lp_cols p)%nat -> y i == x i.
(** a solution in whole numbers *)
Definition lp_integral (p : lp) (x : nat -> Q) : Prop :=
  lp_point p x /\ forall i, (1 <= i <= lp_cols p)%nat -> exists z, x i == inject_Z z.
Definition lp_value (p : lp) (x : nat -> Q) : Q := foldr (fun i acc => x i + acc) 0 (lp_obj p).
Definition lp_optimal (p : lp) (x : nat -> Q) : Prop :=
  forall y, lp_point p y -> lp_value p x <= lp_value p y.

(** a simplex solver: what it calls solved is an optimal corner, *)
Definition sound_on (s : solver) (p : lp) : Prop :=
  forall x, s p = (Solved, x) -> lp_vertex p x /\ lp_optimal p x.
(** ... and it solves a problem that has a solution (the objectives used here are sums of
    non-negative columns, hence bounded) *)
Definition complete_on (s : solver) (p : lp) : Prop :=
  forall x, lp_point p x -> fst (s p) = Solved.
(** the solver works on the problem made from this program *)
Definition trusted_solver (s : solver) (cfg : latcfg) (P : program) : Prop :=
  forall ns cs p nm l, sgraph (apply_config cfg P) = Some (ns, cs) -> lp_build ns cs = Some (p, nm, l) ->
    sound_on s p /\ complete_on s p.

(** the schedules among which the program chooses *)
Local Open Scope Z_scope.
Definition lp_schedule_of (ns : list snode) (cs : list schan) (t : nat -> Z) : Prop :=
  feasible ns cs t /\
  (forall n, n ∈ ns -> is_input (s_op n) = true -> t (s_id n) = 0) /\
  (forall c, c ∈ cs -> t (sc_src c) <= t (sc_tgt c)).
Definition total_distance (cs : list schan) (t : nat -> Z) : Z :=
  foldr (fun c acc => t (sc_tgt c) - t (sc_src c) + acc) 0 cs.
