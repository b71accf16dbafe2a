(** Concrete kernels for PropertiesLatency.v. *)
From Coq Require Import ZArith Bool String Lia.
From stdpp Require Import gmap list.
From Verif Require Import Types Word Value Graph GraphSpec GraphFacts Dfcir Sched SchedFacts Latency LatencySpec.
Local Open Scope Z_scope.

(** o.connect(x < y) with floating-point x, y; p.connect(x + y) *)
Definition fcmp_h : list cmd :=
  [ CType (TFloat 8 23); CType mkBool; CInput 0 false "x" 0; CInput 0 false "y" 0; CBin LESS 1 2;     (* 1 2 3 *)
    COutput 0 false "o" 1; CConnect 6 3; CBin ADD 1 2; COutput 0 false "p" 0; CConnect 11 8 ].
Definition fcmp_P : program :=
  let t := TFloat 8 23 in let b := TFixed false 1 0 in
  [ Def 2 (DIn false "y") VStream t (-1) []; Def 1 (DIn false "x") VStream t (-1) [];
    Def 8 (DBin ADD) VStream t (-1) [1%nat; 2%nat]; Def 11 (DOut false "p") VStream t (-1) []; Con 11 8;
    Def 3 (DBin LESS) VStream b (-1) [1%nat; 2%nat]; Def 6 (DOut false "o") VStream b (-1) []; Con 6 3 ].
Definition fcmp_node (w : world) : bool :=
  match w_nodes w !! 3%nat, operands w 3 with
  | Some nd, [a; b] => match n_op nd, type_of w a with BIN LESS, Some (TFloat 8 23) => true | _, _ => false end
  | _, _ => false
  end &&
  match w_nodes w !! 8%nat, operands w 8 with
  | Some nd, [a; b] => match n_op nd, type_of w a with BIN ADD, Some (TFloat 8 23) => true | _, _ => false end
  | _, _ => false
  end.
Lemma fcmp_flow : flow_ok noflt0 fcmp_h fcmp_P fcmp_node = true.
Proof. vm_compute. reflexivity. Qed.
Lemma fcmp_nodes w : fcmp_node w = true ->
  (exists nd, w_nodes w !! 3%nat = Some nd /\ n_op nd = BIN LESS /\ args_float w 3 true) /\
  (exists nd, w_nodes w !! 8%nat = Some nd /\ n_op nd = BIN ADD /\ args_float w 8 true).
Proof.
  unfold fcmp_node. intro H. apply andb_true_iff in H as [H1 H2].
  split; [clear H2; rename H1 into H|clear H1; rename H2 into H].
  - destruct (w_nodes w !! 3%nat) as [nd|]; [|discriminate]. destruct (operands w 3) as [|a [|b [|]]] eqn:E; try discriminate.
    exists nd. split; [reflexivity|]. destruct (n_op nd) as [| | | | | |[]| | | | | |]; try discriminate. split; [reflexivity|].
    destruct (type_of w a) as [t|] eqn:Et; [|discriminate]. exists a, [b], t. split; [exact E|]. split; [exact Et|]. destruct t; try discriminate; reflexivity.
  - destruct (w_nodes w !! 8%nat) as [nd|]; [|discriminate]. destruct (operands w 8) as [|a [|b [|]]] eqn:E; try discriminate.
    exists nd. split; [reflexivity|]. destruct (n_op nd) as [| | | | | |[]| | | | | |]; try discriminate. split; [reflexivity|].
    destruct (type_of w a) as [t|] eqn:Et; [|discriminate]. exists a, [b], t. split; [exact E|]. split; [exact Et|]. destruct t; try discriminate; reflexivity.
Qed.
(** LESS_FLOAT = 5, ADD_FLOAT = 7 *)
Definition fcmp_cfg : latcfg := cfg_set (cfg_set no_cfg (OBin LESS true) 5) (OBin ADD true) 7.
Definition fcmp_Q : program :=
  let t := TFloat 8 23 in let b := TFixed false 1 0 in
  [ Def 2 (DIn false "y") VStream t (-1) []; Def 1 (DIn false "x") VStream t (-1) [];
    Def 8 (DBin ADD) VStream t 7 [1%nat; 2%nat]; Def 11 (DOut false "p") VStream t (-1) []; Con 11 8;
    Def 3 (DBin LESS) VStream b 1 [1%nat; 2%nat]; Def 6 (DOut false "o") VStream b (-1) []; Con 6 3 ].
Lemma fcmp_pass : asap_pass (processor_cfg fcmp_cfg) (fun b => b) fcmp_P = Some (fcmp_Q, 7).
Proof. vm_compute. reflexivity. Qed.
