(** Concrete kernels and linear programs for PropertiesLinear.v. *)
From Coq Require Import ZArith Bool String QArith Lqa Lia.
From stdpp Require Import gmap list.
From Verif Require Import Types Word Value Graph GraphSpec GraphFacts BuilderTopo KernelSort TopSort
     Dfcir StreamSpec Sched SchedSpec SchedProofs SchedFinal KernelSpec KernelFlow SchedProgress SchedFacts SchedGraph Linear LinearSpec.
Local Open Scope Z_scope.

(** o.connect((x * x) + x) *)
Definition unb : list cmd :=
  [ CType (dfUInt 8); CInput 0 false "x" 0; CBin MUL 1 1; CBin ADD 2 1; COutput 0 false "o" 0; CConnect 8 5 ].
Definition unb_P : program :=
  let t := TFixed false 8 0 in
  [ Def 1 (DIn false "x") VStream t (-1) []; Def 2 (DBin MUL) VStream t (-1) [1%nat; 1%nat];
    Def 5 (DBin ADD) VStream t (-1) [2%nat; 1%nat]; Def 8 (DOut false "o") VStream t (-1) []; Con 8 5 ].
Lemma unb_flow : flow_ok noflt0 unb unb_P (fun w => out_at 8 w && schedulableb w) = true.
Proof. vm_compute. reflexivity. Qed.

(** a solver that gives up *)
Definition give_up : solver := fun _ => (Failed, fun _ => 0%Q).
Definition unb_Q : program :=
  let t := TFixed false 8 0 in
  [ Def 1 (DIn false "x") VStream t (-1) []; Def 2 (DBin MUL) VStream t 1 [1%nat; 1%nat];
    Def 5 (DBin ADD) VStream t 1 [2%nat; 1%nat]; Def 8 (DOut false "o") VStream t (-1) []; Con 8 5 ].
Lemma unb_pass : linear_pass give_up (fun _ => None) (fun b => b) unb_P = Some (unb_Q, 0).
Proof. vm_compute. reflexivity. Qed.
Definition unb_sig (v : nat) (c : Z) : Z :=
  match v with 1%nat => c | 2%nat => 2 * (c - 1) | _ => 2 * (c - 2) + (c - 1) end.
Lemma unb_circuit : circuit sumI unb_Q unb_sig.
Proof.
  intros s Hs. unfold unb_Q in Hs. rewrite !elem_of_cons, elem_of_nil in Hs.
  repeat (destruct Hs as [->|Hs]; [cbn; unfold delay; cbn; intros; try (match goal with H : Some _ = Some _ |- _ => injection H as <- end); try lia; auto|]).
  contradiction.
Qed.
Lemma unb_dval i : 0 <= i -> dval sumI unb_P 8 i (3 * i).
Proof.
  intro Hi.
  assert (D1 : dval sumI unb_P 1 i i) by (apply (dv_stream sumI unb_P 1 "x" VStream (TFixed false 8 0) (-1) [] i); [unfold unb_P; rewrite !elem_of_cons; eauto 20|lia]).
  assert (D2 : dval sumI unb_P 2 i (i + i)).
  { eapply dv_op with (o := DBin MUL) (xs := [i; i]); [unfold unb_P; rewrite !elem_of_cons; eauto 20|reflexivity|lia| |reflexivity]. repeat constructor; assumption. }
  eapply dv_out; [unfold unb_P; rewrite !elem_of_cons; eauto 20|unfold unb_P; rewrite !elem_of_cons; eauto 20|].
  replace (3 * i) with (i + i + i) by lia.
  eapply dv_op with (o := DBin ADD) (xs := [i + i; i]); [unfold unb_P; rewrite !elem_of_cons; eauto 20|reflexivity|lia| |reflexivity]. repeat constructor; assumption.
Qed.

(** ** A solved problem: the multiplication takes 3 cycles *)
Definition unb_cfg : latcfg := fun c => match c with OBin MUL _ => Some 3 | _ => None end.
Definition unb_lp : lp := match sgraph (apply_config unb_cfg unb_P) with
  | Some (ns, cs) => match lp_build ns cs with Some (p, _, _) => p | None => mkLp 0 [] [] end
  | None => mkLp 0 [] [] end.
Definition unb_x (i : nat) : Q := inject_Z (nth i [0; 0; 0; 3; 4; 0; 0; 0; 0; 3; 0; 3; 3; 1; 0] 0).
Definition unb_solver : solver := fun _ => (Solved, unb_x).

Lemma lp_point_list p x : lp_point p x <->
  Forall (fun i => 0 <= x i)%Q (seq 1 (lp_cols p)) /\ Forall (holds x) (lp_cons p).
Proof.
  unfold lp_point. rewrite !Forall_forall. split; intros [A B]; (split; [|exact B]).
  - intros i Hi. apply elem_of_seq in Hi. apply A. lia.
  - intros i Hi. apply A. apply elem_of_seq. lia.
Qed.
Lemma unb_point y : lp_point unb_lp y ->
  (y 1%nat == 0 /\ 0 <= y 2%nat /\ 3 <= y 3%nat - y 2%nat /\ 1 <= y 4%nat - y 3%nat /\
   y 5%nat == y 2%nat /\ y 6%nat == y 2%nat /\ y 7%nat == y 2%nat /\ y 8%nat == y 2%nat /\
   y 9%nat == y 3%nat - y 2%nat /\ y 10%nat == y 3%nat - y 2%nat - 3 /\ y 11%nat == y 3%nat /\ y 12%nat == y 3%nat /\
   y 13%nat == y 4%nat - y 3%nat /\ y 14%nat == y 4%nat - y 3%nat - 1)%Q.
Proof.
  intro H. apply lp_point_list in H as [A B].
  change (lp_cols unb_lp) with 14%nat in A. cbn [seq] in A. rewrite !Forall_cons in A.
  let v := eval vm_compute in (lp_cons unb_lp) in change (lp_cons unb_lp) with v in B.
  rewrite !Forall_cons in B. unfold holds, lhs in B. cbn -[Qplus Qmult Qle Qeq inject_Z] in B.
  destruct A as (A1 & A2 & _). destruct B as (B1 & B2 & B3 & B4 & B5 & B6 & B7 & B8 & B9 & B10 & B11 & B12 & B13 & B14 & B15 & B16 & B17 & B18 & B19 & B20 & B21 & _).
  change (inject_Z 0) with 0%Q in *. change (inject_Z 1) with 1%Q in *. change (inject_Z (-1)) with (-1)%Q in *. change (inject_Z 3) with 3%Q in *. change (inject_Z (-3)) with (-3)%Q in *.
  repeat split; lra.
Qed.
Lemma unb_vertex : lp_vertex unb_lp unb_x /\ lp_optimal unb_lp unb_x.
Proof.
  assert (Px : lp_point unb_lp unb_x).
  { apply lp_point_list. change (lp_cols unb_lp) with 14%nat. let v := eval vm_compute in (lp_cons unb_lp) in change (lp_cons unb_lp) with v.
    split; repeat constructor; vm_compute; first [reflexivity|discriminate]. }
  split; [split; [exact Px|]|].
  - intros y z Hy Hz Hm i Hi. apply unb_point in Hy, Hz. change (lp_cols unb_lp) with 14%nat in *.
    assert (X : forall j, (1 <= j <= 14)%nat -> (unb_x j + unb_x j == y j + z j)%Q) by (intros j Hj; rewrite (Hm j Hj); field).
    pose proof (X 1%nat ltac:(lia)) as X1. pose proof (X 2%nat ltac:(lia)) as X2. pose proof (X 3%nat ltac:(lia)) as X3. pose proof (X 4%nat ltac:(lia)) as X4.
    change (unb_x 1%nat) with 0%Q in X1. change (unb_x 2%nat) with 0%Q in X2. change (unb_x 3%nat) with 3%Q in X3. change (unb_x 4%nat) with 4%Q in X4.
    do 15 (destruct i as [|i]; [first [lia|change (unb_x ?k) with (inject_Z (nth k [0; 0; 0; 3; 4; 0; 0; 0; 0; 3; 0; 3; 3; 1; 0] 0)); cbn [nth]; change (inject_Z 0) with 0%Q; change (inject_Z 1) with 1%Q; change (inject_Z 3) with 3%Q; change (inject_Z 4) with 4%Q; lra]|]). lia.
  - intros y Hy. apply unb_point in Hy. unfold lp_value. let v := eval vm_compute in (lp_obj unb_lp) in change (lp_obj unb_lp) with v.
    cbn [foldr]. change (unb_x 5%nat) with 0%Q. change (unb_x 7%nat) with 0%Q. change (unb_x 9%nat) with 3%Q. change (unb_x 11%nat) with 3%Q. change (unb_x 13%nat) with 1%Q. lra.
Qed.
Lemma unb_trusted : trusted_solver unb_solver unb_cfg unb_P.
Proof.
  intros ns cs p nm l EG EB.
  assert (p = unb_lp) as -> by (unfold unb_lp; rewrite EG, EB; reflexivity). split.
  - intros x E. injection E as <-. exact unb_vertex.
  - intros x _. reflexivity.
Qed.
Lemma unb_solved : match linear_pass unb_solver unb_cfg (fun b => b) unb_P with
  | Some (Q, L) => bool_decide (Q = [ Def 1 (DIn false "x") VStream (TFixed false 8 0) (-1) []; Def 2 (DBin MUL) VStream (TFixed false 8 0) 3 [1%nat; 1%nat];
      Def 9 DLatency VStream (TFixed false 8 0) 3 [1%nat]; Def 5 (DBin ADD) VStream (TFixed false 8 0) 1 [2%nat; 9%nat];
      Def 8 (DOut false "o") VStream (TFixed false 8 0) (-1) []; Con 8 5 ]) && (L =? 0)
  | None => false end = true.
Proof. vm_compute. reflexivity. Qed.
