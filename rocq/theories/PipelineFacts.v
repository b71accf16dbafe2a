(** Concrete kernels for PropertiesPipeline.v. *)
From Coq Require Import ZArith Bool String QArith Lia.
From stdpp Require Import gmap list.
From Verif Require Import Types Word Value Graph GraphSpec GraphFacts BuilderTopo KernelSort TopSort
     Dfcir StreamSpec Sched SchedSpec SchedProofs SchedFinal KernelSpec KernelFlow SchedProgress SchedFacts Pipeline PipelineSpec PipelineMain.
Local Open Scope Z_scope.

Definition combinationalb (w : world) : bool :=
  forallb (fun p : nat * node => let (n, nd) := p in
    match n_op nd with OFFSET k => false | OUT => match readers w n with [] => true | _ => false end | _ => true end &&
    (length (operands w n) <=? 128)%nat) (map_to_list (w_nodes w)).
Lemma combinationalb_sound w : combinationalb w = true -> combinational w.
Proof.
  unfold combinationalb. intro H. constructor.
  - intros n nd k Hn Ho. pose proof (map_forallb w _ H n nd Hn) as X. cbn in X. rewrite Ho in X. discriminate.
  - intros n nd Hn Ho. pose proof (map_forallb w _ H n nd Hn) as X. cbn in X. rewrite Ho in X. destruct (readers w n); [reflexivity|discriminate].
  - intro n. left. destruct (w_nodes w !! n) as [nd|] eqn:Hn.
    + pose proof (map_forallb w _ H n nd Hn) as X. cbn [fst] in X. apply andb_true_iff in X as [_ X]. apply Nat.leb_le. exact X.
    + unfold operands, in_chans. rewrite Hn. cbn. lia.
Qed.

(** floatEps, DFCIRPipelineUtils.h:66 *)
Definition feps : Q := (1 # 1000000)%Q.
Definition exact_q : Q -> Q := fun q => q.
Lemma exact_rounding : rounding exact_q.
Proof. split; [auto|reflexivity]. Qed.

(** a.connect(x); b.connect(x + x) *)
Definition shl_h : list cmd :=
  [ CType (dfUInt 8); CInput 0 false "x" 0; COutput 0 false "a" 0; CConnect 2 1; CBin ADD 1 1; COutput 0 false "b" 0; CConnect 7 4 ].
Definition shl_P : program :=
  let t := TFixed false 8 0 in
  [ Def 1 (DIn false "x") VStream t (-1) []; Def 4 (DBin ADD) VStream t (-1) [1%nat; 1%nat];
    Def 7 (DOut false "b") VStream t (-1) []; Con 7 4; Def 2 (DOut false "a") VStream t (-1) []; Con 2 1 ].
Definition shl_Q : program :=
  let t := TFixed false 8 0 in
  [ Def 1 (DIn false "x") VStream t (-1) []; Def 4 (DBin ADD) VStream t 0 [1%nat; 1%nat];
    Def 7 (DOut false "b") VStream t (-1) []; Def 8 DLatency VStream t 2 [4%nat]; Con 7 8;
    Def 2 (DOut false "a") VStream t (-1) []; Con 2 1 ].
Lemma shl_flow : flow_ok noflt0 shl_h shl_P (fun w => out_at 2 w && out_at 7 w && combinationalb w) = true.
Proof. vm_compute. reflexivity. Qed.
Lemma shl_pass : comb_pass exact_q feps 2 (fun b => b) shl_P = Some shl_Q.
Proof. vm_compute. reflexivity. Qed.
Definition shl_sig (v : nat) (c : Z) : Z :=
  match v with 1%nat | 2%nat => c | 4%nat => c + c | _ => (c - 2) + (c - 2) end.
Lemma shl_circuit : circuit sumI shl_Q shl_sig.
Proof.
  intros s Hs. unfold shl_Q in Hs. rewrite !elem_of_cons, elem_of_nil in Hs.
  repeat (destruct Hs as [->|Hs]; [cbn; unfold delay; cbn; intros; try (match goal with H : Some _ = Some _ |- _ => injection H as <- end); try lia; auto|]).
  contradiction.
Qed.
Lemma shl_dval i : 0 <= i -> dval sumI shl_P 2 i i.
Proof.
  intro Hi. eapply dv_out; [unfold shl_P; rewrite !elem_of_cons; eauto 20|unfold shl_P; rewrite !elem_of_cons; eauto 20|].
  apply (dv_stream sumI shl_P 1 "x" VStream (TFixed false 8 0) (-1) [] i); [unfold shl_P; rewrite !elem_of_cons; eauto 20|lia].
Qed.

(** a.connect(x); b.connect(a + x) *)
Definition rdo_h : list cmd :=
  [ CType (dfUInt 8); CInput 0 false "x" 0; COutput 0 false "a" 0; CConnect 2 1; CBin ADD 2 1; COutput 0 false "b" 0; CConnect 7 4 ].
Definition rdo_P : program :=
  let t := TFixed false 8 0 in
  [ Def 1 (DIn false "x") VStream t (-1) []; Def 2 (DOut false "a") VStream t (-1) []; Con 2 1;
    Def 4 (DBin ADD) VStream t (-1) [2%nat; 1%nat]; Def 7 (DOut false "b") VStream t (-1) []; Con 7 4 ].
Lemma rdo_flow : flow_ok noflt0 rdo_h rdo_P schedulableb = true.
Proof. vm_compute. reflexivity. Qed.
Lemma rdo_graph : cgraph (apply_config cfg0 rdo_P) = None.
Proof. vm_compute. reflexivity. Qed.
