(** Concrete kernels for PropertiesSched.v, and checkers for their hypotheses. *)
From Coq Require Import ZArith Bool Lia String.
From stdpp Require Import gmap list.
From Verif Require Import Instance InstanceSpec InstanceFlow Types Word Value Graph GraphSpec BuilderProofs2 BuilderTopo GraphFacts KernelSort TopSort
     Dfcir StreamSpec Sched SchedSpec DfcirProofs SchedProofs SchedStream SchedMain SchedFinal DfcirBuild KernelSpec KernelFlow SchedProgress.
Local Open Scope Z_scope.

Global Instance dftype_eq_dec : EqDecision dftype.
Proof. unfold EqDecision, Decision. repeat decide equality. Defined.
Global Instance vkind_eq_dec : EqDecision vkind.
Proof. unfold EqDecision, Decision. decide equality. Defined.
Global Instance stmt_eq_dec : EqDecision stmt.
Proof. unfold EqDecision, Decision. repeat decide equality. Defined.

Definition is_constant_nodeb (w : world) (n : nat) : bool :=
  match w_nodes w !! n with
  | Some nd => match n_op nd, n_vk nd with CONST _, _ => true | IN, VStream => false | IN, _ => true | _, _ => false end
  | None => false
  end.
Definition schedulableb (w : world) : bool :=
  forallb (fun p : nat * node => let (n, nd) := p in
    match n_op nd with OFFSET k => (- 2 ^ 31 <=? k) && (k <? 2 ^ 31) | _ => true end &&
    ((length (operands w n) <=? 128)%nat || forallb (is_constant_nodeb w) (tl (operands w n)))) (map_to_list (w_nodes w)) &&
  (forallb (fun p : nat * node => let (n, nd) := p in
     match n_op nd with OUT => match readers w n with [] => true | _ => false end | _ => true end) (map_to_list (w_nodes w)) ||
   forallb (fun p : nat * node => let (n, nd) := p in
     match n_op nd with OFFSET k => 0 <=? k | _ => true end) (map_to_list (w_nodes w))).
Lemma map_forallb (w : world) f : forallb f (map_to_list (w_nodes w)) = true -> forall n nd, w_nodes w !! n = Some nd -> f (n, nd) = true.
Proof.
  intros H n nd Hn. rewrite forallb_forall in H. apply H. apply elem_of_list_In. apply elem_of_map_to_list. assumption.
Qed.
Lemma schedulableb_sound w : schedulableb w = true -> schedulable w.
Proof.
  unfold schedulableb. intro H. apply andb_true_iff in H as [H1 H2]. constructor.
  - intros n nd k Hn Ho. pose proof (map_forallb w _ H1 n nd Hn) as X. cbn in X. rewrite Ho in X. apply andb_true_iff in X as [X _].
    apply andb_true_iff in X as [X1 X2]. lia.
  - intro n. destruct (w_nodes w !! n) as [nd|] eqn:Hn.
    + pose proof (map_forallb w _ H1 n nd Hn) as X. cbn [fst] in X. apply andb_true_iff in X as [_ X]. apply orb_true_iff in X as [X|X].
      * left. apply Nat.leb_le. assumption.
      * right. intros a Ha. rewrite forallb_forall in X. apply elem_of_list_In in Ha. apply X in Ha.
        unfold is_constant_nodeb in Ha. destruct (w_nodes w !! a) as [na|] eqn:Ea; [|discriminate]. exists na. split; [assumption|].
        destruct (n_op na); try discriminate Ha; [right|left; eauto]. split; [reflexivity|]. destruct (n_vk na); congruence.
    + left. unfold operands, in_chans. rewrite Hn. cbn. lia.
  - apply orb_true_iff in H2 as [H2|H2]; [left|right].
    + intros n nd Hn Ho. pose proof (map_forallb w _ H2 n nd Hn) as X. cbn in X. rewrite Ho in X. destruct (readers w n); [reflexivity|discriminate].
    + intros n nd k Hn Ho. pose proof (map_forallb w _ H2 n nd Hn) as X. cbn in X. rewrite Ho in X. lia.
Qed.

(** everything about one concrete single-kernel history, checked by computation *)
Definition flow_ok (F : fltops) (h : list cmd) (P : program) (f : world -> bool) : bool :=
  match run F init_world (KNew :: h) with
  | Ok w => f w && disciplinedb F init_world (KNew :: h) && forallb (fun c => negb (is_knew c)) h && completeb w 0 &&
      match sort_kernel w 0 with
      | Some (TSOk o) => match build w o with Ok P' => bool_decide (P' = P) | _ => false end
      | _ => false
      end
  | _ => false
  end.
(** the same history in the language with instances *)
Definition calls (h : list cmd) : list icmd := ICall KNew :: map ICall h.
Lemma flow_check_first F h P f : flow_ok F h P f = true -> exists w order,
  irun F init_world (calls h) = Ok w /\ idisciplined F init_world (calls h) /\
  only_kernel w 0 /\ complete w 0 /\
  sort_kernel w 0 = Some (TSOk order) /\ build w order = Ok P /\ f w = true.
Proof.
  unfold flow_ok. intro H. destruct (run F init_world (KNew :: h)) as [w| | |] eqn:E; try discriminate H.
  destruct (sort_kernel w 0) as [[o| |]|] eqn:Es; rewrite ?andb_false_r in H; try discriminate H.
  destruct (build w o) as [P'| | |] eqn:Eb; rewrite ?andb_false_r in H; try discriminate H.
  apply andb_true_iff in H as [H H5]. apply andb_true_iff in H as [H H4]. apply andb_true_iff in H as [H H3]. apply andb_true_iff in H as [H1 H2].
  apply bool_decide_eq_true in H5. subst P'.
  exists w, o. split; [rewrite <- E; exact (irun_calls F (KNew :: h) init_world)|]. split; [apply (calls_disciplined F (KNew :: h)), disciplinedb_sound; exact H2|].
  split; [exact (proj1 (single_kernel_owns F h w E H3))|].
  split; [apply completeb_sound; exact H4|]. split; [exact Es|]. split; [exact Eb|exact H1].
Qed.
Lemma flow_check F h P f : flow_ok F h P f = true -> exists w order,
  irun F init_world (calls h) = Ok w /\ idisciplined F init_world (calls h) /\
  only_kernel w 0 /\ complete w 0 /\
  sorts w 0 order /\ build w order = Ok P /\ f w = true.
Proof. intro H. destruct (flow_check_first F h P f H) as (w & o & H1 & H2 & H3 & H4 & S & H5). exists w, o. pose proof (sort_sorts _ _ _ S). auto 8. Qed.

Definition noflt0 : fltops := {| fl_bin := fun _ _ _ => 0%Z; fl_neg := fun _ => 0%Z |}.
Definition out_at (d : nat) (w : world) : bool :=
  match w_nodes w !! d with Some nd => match n_op nd with OUT => true | _ => false end | None => false end.
Lemma out_at_sound d w : out_at d w = true -> exists nd, w_nodes w !! d = Some nd /\ n_op nd = OUT.
Proof. unfold out_at. destruct (w_nodes w !! d) as [nd|]; [|discriminate]. destruct (n_op nd) eqn:E; try discriminate. eauto. Qed.

(** integers as values, [+] as the only operator, the stream 0, 1, 2, ... as input *)
Definition sumI : interp Z := {|
  i_op := fun _ _ xs => match xs with [a; b] => Some (a + b) | _ => None end;
  i_idx := Z.to_nat; i_const := fun _ c => c; i_scalar := fun _ => 0; i_stream := fun _ i => i |}.

(** o.connect(x.offset(-1)); p.connect(o + x) *)
Definition dbl : list cmd :=
  [ CType (dfUInt 8); CInput 0 false "x" 0; COutput 0 false "o" 0; COffset 0 1 (-1);
    CConnect 2 3; CBin ADD 2 1; COutput 0 false "p" 0; CConnect 9 6 ].
Definition dbl_P : program :=
  let t := TFixed false 8 0 in
  [ Def 1 (DIn false "x") VStream t (-1) []; Def 3 (DOffset (-1)) VStream t (-1) [1%nat];
    Def 2 (DOut false "o") VStream t (-1) []; Con 2 3;
    Def 6 (DBin ADD) VStream t (-1) [2%nat; 1%nat];
    Def 9 (DOut false "p") VStream t (-1) []; Con 9 6 ].
Definition dbl_Q : program :=
  let t := TFixed false 8 0 in
  [ Def 1 (DIn false "x") VStream t (-1) []; Def 2 (DOut false "o") VStream t (-1) [];
    Def 10 DLatency VStream t 1 [1%nat]; Con 2 10;
    Def 11 DLatency VStream t 1 [2%nat];
    Def 6 (DBin ADD) VStream t 0 [11%nat; 1%nat];
    Def 9 (DOut false "p") VStream t (-1) []; Con 9 6 ].
Definition dbl_sig (v : nat) (c : Z) : Z :=
  match v with 1%nat => c | 2%nat | 10%nat => c - 1 | 11%nat => c - 2 | _ => c - 2 + c end.

Lemma dbl_flow : flow_ok noflt0 dbl dbl_P (out_at 9) = true.
Proof. vm_compute. reflexivity. Qed.
Lemma dbl_pass : asap_pass (fun _ => Some 0) (fun b => b) dbl_P = Some (dbl_Q, 0).
Proof. vm_compute. reflexivity. Qed.
Lemma dbl_circuit : circuit sumI dbl_Q dbl_sig.
Proof.
  intros s Hs. unfold dbl_Q in Hs. rewrite !elem_of_cons, elem_of_nil in Hs.
  repeat (destruct Hs as [->|Hs]; [cbn; unfold delay; cbn; intros; try (match goal with H : Some _ = Some _ |- _ => injection H as <- end); try lia; auto|]).
  contradiction.
Qed.
Lemma dbl_dval : dval sumI dbl_P 9 1 1.
Proof.
  eapply dv_out; [unfold dbl_P; rewrite !elem_of_cons; eauto 20|unfold dbl_P; rewrite !elem_of_cons; eauto 20|].
  eapply dv_op with (o := DBin ADD) (xs := [0; 1]); [unfold dbl_P; rewrite !elem_of_cons; eauto 20|reflexivity|lia| |reflexivity].
  constructor; [|constructor; [|constructor]].
  - eapply dv_out; [unfold dbl_P; rewrite !elem_of_cons; eauto 20|unfold dbl_P; rewrite !elem_of_cons; eauto 20|].
    eapply dv_offset; [unfold dbl_P; rewrite !elem_of_cons; eauto 20|].
    apply (dv_stream sumI dbl_P 1 "x" VStream (TFixed false 8 0) (-1) [] 0); [unfold dbl_P; rewrite !elem_of_cons; eauto 20|lia].
  - apply (dv_stream sumI dbl_P 1 "x" VStream (TFixed false 8 0) (-1) [] 1); [unfold dbl_P; rewrite !elem_of_cons; eauto 20|lia].
Qed.

Lemma dbl_refuted : exists F h w order P Q L,
  irun F init_world h = Ok w /\ idisciplined F init_world h /\
  only_kernel w 0 /\ complete w 0 /\
  sorts w 0 order /\ build w order = Ok P /\
  asap_pass (fun _ => Some 0) (fun b => b) P = Some (Q, L) /\
  exists (I : interp Z) sig d nd, circuit I Q sig /\ w_nodes w !! d = Some nd /\ n_op nd = OUT /\
    forall D, ~ (forall i x, 0 <= i -> kval I w d i x -> sig d (i + D) = x).
Proof.
  destruct (flow_check _ _ _ _ dbl_flow) as (w & o & R & Di & K & C & S & B & Ou).
  apply out_at_sound in Ou as (nd & Hn & Ho).
  exists noflt0, (calls dbl), w, o, dbl_P, dbl_Q, 0.
  split; [exact R|]. split; [exact Di|]. split; [exact K|]. split; [exact C|]. split; [exact S|]. split; [exact B|]. split; [exact dbl_pass|].
  exists sumI, dbl_sig, 9%nat, nd. split; [exact dbl_circuit|]. split; [exact Hn|]. split; [exact Ho|].
  intros D H. destruct (kernel_translates noflt0 (calls dbl) w o R Di K C S) as (P & B' & _ & _ & KD). rewrite B in B'. injection B' as <-.
  assert (X : dbl_sig 9 (1 + D) = 1). { apply H; [lia|]. apply KD; [eauto|]. exact dbl_dval. }
  cbn in X. lia.
Qed.

(** o1.connect(x); o2.connect(x + x) *)
Definition mis : list cmd :=
  [ CType (dfUInt 8); CInput 0 false "x" 0; COutput 0 false "o1" 0; CConnect 2 1;
    CBin ADD 1 1; COutput 0 false "o2" 0; CConnect 7 4 ].
Definition mis_P : program :=
  let t := TFixed false 8 0 in
  [ Def 1 (DIn false "x") VStream t (-1) []; Def 4 (DBin ADD) VStream t (-1) [1%nat; 1%nat];
    Def 7 (DOut false "o2") VStream t (-1) []; Con 7 4;
    Def 2 (DOut false "o1") VStream t (-1) []; Con 2 1 ].
Definition mis_Q : program :=
  let t := TFixed false 8 0 in
  [ Def 1 (DIn false "x") VStream t (-1) []; Def 4 (DBin ADD) VStream t 1 [1%nat; 1%nat];
    Def 7 (DOut false "o2") VStream t (-1) []; Con 7 4;
    Def 2 (DOut false "o1") VStream t (-1) []; Con 2 1 ].
Definition mis_sig (v : nat) (c : Z) : Z := match v with 1%nat | 2%nat => c | _ => 2 * (c - 1) end.
Lemma mis_flow : flow_ok noflt0 mis mis_P (fun w => out_at 2 w && out_at 7 w) = true.
Proof. vm_compute. reflexivity. Qed.
Lemma mis_pass : asap_pass (fun _ => None) (fun b => b) mis_P = Some (mis_Q, 1).
Proof. vm_compute. reflexivity. Qed.
Lemma mis_circuit : circuit sumI mis_Q mis_sig.
Proof.
  intros s Hs. unfold mis_Q in Hs. rewrite !elem_of_cons, elem_of_nil in Hs.
  repeat (destruct Hs as [->|Hs]; [cbn; unfold delay; cbn; intros; try (match goal with H : Some _ = Some _ |- _ => injection H as <- end); try lia; auto|]).
  contradiction.
Qed.
Lemma mis_refuted : exists F h w order P Q L,
  irun F init_world h = Ok w /\ idisciplined F init_world h /\
  only_kernel w 0 /\ complete w 0 /\ schedulable w /\
  sorts w 0 order /\ build w order = Ok P /\
  asap_pass (fun _ => None) (fun b => b) P = Some (Q, L) /\
  exists (I : interp Z) sig, circuit I Q sig /\
    forall D, ~ (forall d nd i x, w_nodes w !! d = Some nd -> n_op nd = OUT -> 0 <= i -> kval I w d i x -> sig d (i + D) = x).
Proof.
  assert (Fl : flow_ok noflt0 mis mis_P (fun w => out_at 2 w && out_at 7 w && schedulableb w) = true) by (vm_compute; reflexivity).
  destruct (flow_check _ _ _ _ Fl) as (w & o & R & Di & K & C & S & B & Ou).
  apply andb_true_iff in Ou as [Ou Sc]. apply schedulableb_sound in Sc.
  apply andb_true_iff in Ou as [Ou1 Ou2]. apply out_at_sound in Ou1 as (nd1 & Hn1 & Ho1). apply out_at_sound in Ou2 as (nd2 & Hn2 & Ho2).
  exists noflt0, (calls mis), w, o, mis_P, mis_Q, 1.
  split; [exact R|]. split; [exact Di|]. split; [exact K|]. split; [exact C|]. split; [exact Sc|]. split; [exact S|]. split; [exact B|]. split; [exact mis_pass|].
  exists sumI, mis_sig. split; [exact mis_circuit|].
  intros D H. destruct (kernel_translates noflt0 (calls mis) w o R Di K C S) as (P & B' & _ & _ & KD). rewrite B in B'. injection B' as <-.
  assert (X0 : forall i, 0 <= i -> dval sumI mis_P 1 i i).
  { intros i Hi. apply (dv_stream sumI mis_P 1 "x" VStream (TFixed false 8 0) (-1) [] i); [unfold mis_P; rewrite !elem_of_cons; eauto 20|lia]. }
  assert (X1 : mis_sig 2 (0 + D) = 0).
  { eapply H; [exact Hn1|exact Ho1|lia|]. apply KD; [eauto|].
    eapply dv_out; [unfold mis_P; rewrite !elem_of_cons; eauto 20|unfold mis_P; rewrite !elem_of_cons; eauto 20|]. apply X0. lia. }
  assert (X2 : mis_sig 7 (0 + D) = 0).
  { eapply H; [exact Hn2|exact Ho2|lia|]. apply KD; [eauto|].
    eapply dv_out; [unfold mis_P; rewrite !elem_of_cons; eauto 20|unfold mis_P; rewrite !elem_of_cons; eauto 20|].
    eapply dv_op with (o := DBin ADD) (xs := [0; 0]); [unfold mis_P; rewrite !elem_of_cons; eauto 20|reflexivity|lia| |reflexivity].
    constructor; [apply X0; lia|constructor; [apply X0; lia|constructor]]. }
  cbn in X1, X2. lia.
Qed.
