(** * Property theorems: the example kernels compute what they are meant to (C57). *)
From Coq Require Import ZArith Bool String Lia.
From stdpp Require Import gmap list.
From Verif Require Import TypingSpec Instance InstanceSpec InstanceFlow InstanceFacts Types Word Value OpSpec Graph GraphSpec GraphFacts BuilderTopo KernelSort TopSort Dfcir DfcirBuild StreamSpec
     Sched SchedFacts KernelSpec KernelFlow Linear LinearSpec Pipeline PipelineSpec Golden
     ProgTyping RtlSpec RtlFlow RtlFacts PropertiesSched PropertiesRtl PropertiesAsm StdSpec Examples.
Local Open Scope string_scope.
Local Open Scope Z_scope.

(** ** C57 *)
(** the calls of examples/muxmul/muxmul.h:19-36; those of AddConst, MovingSum, Scalar3,
    MatrixMul2 and Polynomial2 are in Golden.v, where they are also shown to produce the
    DFCIR files of the repository (C55) *)
Definition muxmul : list cmd :=
  [ CType u32_t; CType (TFixed false 1 0); CInput 0 false "x" 0; CInput 0 false "ctrl" 1; CConst 0 0; CConst 0 1; CMux 0 2 [3; 4]%nat;
    CBin ADD 1 1; CBin MUL 9 5; COutput 0 false "out" 0; CConnect 15 12 ].
(** examples/polynomial2_inst/polynomial2_inst.h:19-76 *)
Definition polynomial2_inst : list icmd :=
  (map ICall [KNew; CType u32_t; CInput 0 false "x" 0; CNewVar 0 false 0] ++
   map ICall [KNew; CType u32_t; CInput 3 false "x" 1; CBin MUL 4 4; CBin ADD 5 4; CBin ADD 8 4; COutput 3 false "out" 1; CConnect 14 11] ++
   [IInst 0 3 [(1%nat, "x"); (2%nat, "out")]] ++ map ICall [COutput 0 false "out" 0; CConnect 16 11])%list.

(** [d] is the output port called [s] *)
Definition out_port (w : world) (s : string) (d : nat) : Prop := exists nd, w_nodes w !! d = Some nd /\ n_op nd = OUT /\ n_name nd = s.
(** one of the schedulers that balance paths (the only ones for kernels with offsets, C47) *)
Definition balanced (F : fltops) (h : list icmd) (w : world) (Q : program) : Prop :=
  exists order P, built F h w order /\ build w order = Ok P /\
   ((exists cfg perm L, (forall bs, perm bs ≡ₚ bs) /\ asap_pass cfg perm P = Some (Q, L)) \/
    (exists solve cfg perm L, trusted_solver solve cfg P /\ (forall bs, perm bs ≡ₚ bs) /\ linear_pass solve cfg perm P = Some (Q, L))).

(** *** from a concrete history to the circuit *)
Definition program_of (h : list icmd) : option (list nat * program) :=
  match irun noflt0 init_world h with Ok w => match sort_kernel w 0 with Some (TSOk o) => match build w o with Ok P => Some (o, P) | _ => None end | _ => None end | _ => None end.
Definition addconst_P : program := Eval vm_compute in match program_of (calls addconst) with Some (_, P) => P | None => [] end.
Definition movingsum_P : program := Eval vm_compute in match program_of (calls movingsum) with Some (_, P) => P | None => [] end.
Definition muxmul_P : program := Eval vm_compute in match program_of (calls muxmul) with Some (_, P) => P | None => [] end.
Definition scalar3_P : program := Eval vm_compute in match program_of (calls scalar3) with Some (_, P) => P | None => [] end.
Definition matrixmul2_P : program := Eval vm_compute in match program_of (calls matrixmul2) with Some (_, P) => P | None => [] end.
Definition polynomial2_P : program := Eval vm_compute in match program_of (calls polynomial2) with Some (_, P) => P | None => [] end.
Definition inst_P : program := Eval vm_compute in match program_of polynomial2_inst with Some (_, P) => P | None => [] end.

(** everything about one history, checked by computation *)
Definition ready (F : fltops) (rank : nat -> nat) (h : list icmd) (P : program) (f : world -> bool) : bool :=
  irun_ok F rank h (fun w =>
    completeb w 0 && forallb (fun q : nat * node => Nat.eqb (n_meta (snd q)) 0) (map_to_list (w_nodes w)) && bindings_typedb F init_world h &&
    match sort_kernel w 0 with Some (TSOk o) => match build w o with Ok P' => bool_decide (P' = P) | _ => false end | _ => false end && f w).
Lemma ready_ok F rank h P f : ready F rank h P f = true -> made_types h -> exists w order, irun F init_world h = Ok w /\ built F h w order /\ good_types F h /\ build w order = Ok P /\ f w = true.
Proof.
  intros X MT. destruct (irun_check _ _ _ _ X) as (w & R & D & _ & Y). clear X. rewrite !andb_true_iff in Y. destruct Y as [[[[Y1 Y2] Y3] Y4] Y5].
  destruct (sort_kernel w 0) as [[o| |]|] eqn:ES; try discriminate Y4. destruct (build w o) as [P'| | |] eqn:EB; try discriminate Y4. apply bool_decide_eq_true in Y4 as ->.
  exists w, o. split; [exact R|]. split; [|split; [split; [exact MT|apply bindings_typedb_sound, Y3]|]; auto].
  exists 0%nat. split; [exact R|]. split; [exact D|]. split; [|split; [apply completeb_sound, Y1|exact (sort_sorts _ _ _ ES)]].
  intros n nd Hn. pose proof (map_forallb w _ Y2 n nd Hn) as Z. apply Nat.eqb_eq, Z.
Qed.
(** unsigned types only *)
Definition plain_types (h : list icmd) : bool := forallb (fun c => match c with ICall (CType (TFixed false i 0)) => (1 <=? i) && (i <? 65536) | ICall (CType _) => false | _ => true end) h.
Lemma plain_ok h : plain_types h = true -> made_types h.
Proof.
  intros H t I. apply elem_of_list_In in I. unfold plain_types in H. rewrite forallb_forall in H. specialize (H _ I). cbn in H.
  destruct t as [[] n [| |]| |]; try discriminate H. apply andb_true_iff in H as [H1 H2]. cbn. lia.
Qed.
Ltac types_ok := apply plain_ok; reflexivity.
Lemma out_port_is w s d : output_is s d w = true -> out_port w s d.
Proof.
  unfold output_is. intro H. apply andb_true_iff in H as [H _]. destruct (w_nodes w !! d) as [nd|] eqn:Hn; [|discriminate H]. destruct (n_op nd) eqn:Ho; try discriminate H.
  exists nd. split; [exact Hn|]. split; [exact Ho|]. apply String.eqb_eq, H.
Qed.
Lemma mod32 z : 0 <= z mod 2 ^ 32 < 2 ^ 32.
Proof. apply Z.mod_pos_bound. lia. Qed.

(** the value of an output whose expression is [z], up to ring equalities *)
Ltac node P Hi leaf := first [leaf | eapply d_add; [unfold P; mem|exact Hi|node P Hi leaf|node P Hi leaf] | eapply d_mul; [unfold P; mem|exact Hi|node P Hi leaf|node P Hi leaf] | eapply d_const; unfold P; mem].
Ltac calc P Hi leaf := match goal with |- dval (hw ?e) P ?v ?i (_, ?z mod _) =>
  let z' := fresh "z" in let H := fresh "H" in evar (z' : Z); assert (H : has32 e P v i z'); [subst z'; eapply d_out; [unfold P; mem|unfold P; mem|]; node P Hi leaf|];
  replace z with z' by (subst z'; ring); exact H end.

(** every output of the list shows the value of its expression *)
Lemma example F rank h P ins outs : ready F rank h P (fun w => fine ins w && offsetless w && forallb (fun q : string * nat => output_is (fst q) (snd q) w) outs) = true -> plain_types h = true ->
  exists w, irun F init_world h = Ok w /\ (forall s d, (s, d) ∈ outs -> out_port w s d) /\
  forall Q, scheduled F h w Q -> forall s out, (s, out) ∈ outs -> exists d, 0 <= d /\
    forall e y, (forall s V, (s, V) ∈ ins -> 0 < V < 65536 /\ exists x, fed e s V x) -> (forall i, 0 <= i -> dval (hw e) P out i (uint 32, y i mod 2 ^ 32)) -> displays e Q out d (fun i => y i mod 2 ^ 32).
Proof.
  intros X PT. destruct (ready_ok _ _ _ _ _ X (plain_ok _ PT)) as (w & order & R & B & GT & EB & Y). clear X. rewrite !andb_true_iff in Y. destruct Y as [[FN OL] OU].
  assert (O : forall s d, (s, d) ∈ outs -> output_is s d w = true). { intros s d H. rewrite forallb_forall in OU. apply elem_of_list_In in H. exact (OU _ H). }
  exists w. split; [exact R|]. split; [intros s d H; exact (out_port_is _ _ _ (O s d H))|]. intros Q SC s out H.
  destruct (works_shows F _ w order P _ B EB FN Q out s (scheduled_works F _ w _ GT FN Q OL SC) (O s out H)) as (d & Hd & SH). exists d. split; [exact Hd|].
  intros e y FE DV. destruct (SH e FE) as [RN V]. split; [exact RN|]. intros sig RT i Hi. apply (V sig RT i); [exact Hi|exact (DV i Hi)|apply mod32].
Qed.
Ltac is_in := apply elem_of_list_In; repeat (first [left; reflexivity | right]).
Ltac fed_all := let s := fresh in let V := fresh in let H := fresh in intros s V H; repeat (apply elem_of_cons in H as [H|H]; [injection H as -> ->; split; [lia|eauto]|]); inversion H.
Ltac leaf P Hi := eapply d_in; [unfold P; mem|exact Hi|eassumption].

(** AddConst: out = 3x + 5 *)
Theorem C57_addconst :
  forall F, exists w out, irun F init_world (calls addconst) = Ok w /\ out_port w "out" out /\
  forall Q, scheduled F (calls addconst) w Q -> exists d, 0 <= d /\
    forall e x, fed e "x" 32 x -> displays e Q out d (fun i => (3 * x i + 5) mod 2 ^ 32).
Proof.
  intro F. destruct (example F (fun n => n) (calls addconst) addconst_P [("x", 32)] [("out", 12%nat)] ltac:(vm_compute; reflexivity) eq_refl) as (w & R & O & SH).
  exists w, 12%nat. split; [exact R|]. split; [apply O; is_in|]. intros Q SC. destruct (SH Q SC "out" 12%nat ltac:(is_in)) as (d & Hd & V). exists d. split; [exact Hd|].
  intros e x FX. apply V; [fed_all|]. intros i Hi. calc addconst_P Hi ltac:(leaf addconst_P Hi).
Qed.
(** Polynomial2: out = x^2 + 2x *)
Theorem C57_polynomial2 :
  forall F, exists w out, irun F init_world (calls polynomial2) = Ok w /\ out_port w "out" out /\
  forall Q, scheduled F (calls polynomial2) w Q -> exists d, 0 <= d /\
    forall e x, fed e "x" 32 x -> displays e Q out d (fun i => (x i ^ 2 + 2 * x i) mod 2 ^ 32).
Proof.
  intro F. destruct (example F (fun n => n) (calls polynomial2) polynomial2_P [("x", 32)] [("out", 11%nat)] ltac:(vm_compute; reflexivity) eq_refl) as (w & R & O & SH).
  exists w, 11%nat. split; [exact R|]. split; [apply O; is_in|]. intros Q SC. destruct (SH Q SC "out" 11%nat ltac:(is_in)) as (d & Hd & V). exists d. split; [exact Hd|].
  intros e x FX. apply V; [fed_all|]. intros i Hi. calc polynomial2_P Hi ltac:(leaf polynomial2_P Hi).
Qed.
(** the same through an instance *)
Definition inst_rank (n : nat) : nat := if Nat.eqb n 2 then 15%nat else n.
Theorem C57_polynomial2_inst :
  forall F, exists w out, irun F init_world polynomial2_inst = Ok w /\ out_port w "out" out /\
  forall Q, scheduled F polynomial2_inst w Q -> exists d, 0 <= d /\
    forall e x, fed e "x" 32 x -> displays e Q out d (fun i => (x i ^ 2 + 2 * x i) mod 2 ^ 32).
Proof.
  intro F. destruct (example F inst_rank polynomial2_inst inst_P [("x", 32)] [("out", 16%nat)] ltac:(vm_compute; reflexivity) eq_refl) as (w & R & O & SH).
  exists w, 16%nat. split; [exact R|]. split; [apply O; is_in|]. intros Q SC. destruct (SH Q SC "out" 16%nat ltac:(is_in)) as (d & Hd & V). exists d. split; [exact Hd|].
  intros e x FX. apply V; [fed_all|]. intros i Hi. calc inst_P Hi ltac:(leaf inst_P Hi).
Qed.
(** Scalar3: out = x1 y1 + x2 y2 + x3 y3 *)
Theorem C57_scalar3 :
  forall F, exists w out, irun F init_world (calls scalar3) = Ok w /\ out_port w "out" out /\
  forall Q, scheduled F (calls scalar3) w Q -> exists d, 0 <= d /\
    forall e x1 y1 x2 y2 x3 y3, fed e "x1" 32 x1 -> fed e "y1" 32 y1 -> fed e "x2" 32 x2 -> fed e "y2" 32 y2 -> fed e "x3" 32 x3 -> fed e "y3" 32 y3 ->
    displays e Q out d (fun i => (x1 i * y1 i + x2 i * y2 i + x3 i * y3 i) mod 2 ^ 32).
Proof.
  intro F. destruct (example F (fun n => n) (calls scalar3) scalar3_P [("x1", 32); ("y1", 32); ("x2", 32); ("y2", 32); ("x3", 32); ("y3", 32)] [("out", 22%nat)] ltac:(vm_compute; reflexivity) eq_refl) as (w & R & O & SH).
  exists w, 22%nat. split; [exact R|]. split; [apply O; is_in|]. intros Q SC. destruct (SH Q SC "out" 22%nat ltac:(is_in)) as (d & Hd & V). exists d. split; [exact Hd|].
  intros e x1 y1 x2 y2 x3 y3 A1 A2 A3 A4 A5 A6. apply V; [fed_all|]. intros i Hi. calc scalar3_P Hi ltac:(leaf scalar3_P Hi).
Qed.
(** MatrixMul2: the product of two 2x2 matrices.  Each output has its own delay: outputs of
    one position need not appear in the same cycle (C23), though here they do. *)
Theorem C57_matrixmul2 :
  forall F, exists w, irun F init_world (calls matrixmul2) = Ok w /\ exists o11 o12 o21 o22,
  out_port w "out11" o11 /\ out_port w "out12" o12 /\ out_port w "out21" o21 /\ out_port w "out22" o22 /\
  forall Q, scheduled F (calls matrixmul2) w Q -> exists d11 d12 d21 d22, 0 <= d11 /\ 0 <= d12 /\ 0 <= d21 /\ 0 <= d22 /\
    forall e x11 x12 x21 x22 y11 y12 y21 y22, fed e "x11" 32 x11 -> fed e "x12" 32 x12 -> fed e "x21" 32 x21 -> fed e "x22" 32 x22 ->
    fed e "y11" 32 y11 -> fed e "y12" 32 y12 -> fed e "y21" 32 y21 -> fed e "y22" 32 y22 ->
    displays e Q o11 d11 (fun i => (x11 i * y11 i + x12 i * y21 i) mod 2 ^ 32) /\ displays e Q o12 d12 (fun i => (x11 i * y12 i + x12 i * y22 i) mod 2 ^ 32) /\
    displays e Q o21 d21 (fun i => (x21 i * y11 i + x22 i * y21 i) mod 2 ^ 32) /\ displays e Q o22 d22 (fun i => (x21 i * y12 i + x22 i * y22 i) mod 2 ^ 32).
Proof.
  intro F. destruct (example F (fun n => n) (calls matrixmul2) matrixmul2_P [("x11", 32); ("x12", 32); ("x21", 32); ("x22", 32); ("y11", 32); ("y12", 32); ("y21", 32); ("y22", 32)]
    [("out11", 45%nat); ("out12", 47%nat); ("out21", 49%nat); ("out22", 51%nat)] ltac:(vm_compute; reflexivity) eq_refl) as (w & R & O & SH).
  exists w. split; [exact R|]. exists 45%nat, 47%nat, 49%nat, 51%nat. do 4 (split; [apply O; is_in|]). intros Q SC.
  destruct (SH Q SC "out11" 45%nat ltac:(is_in)) as (d11 & H11 & V11). destruct (SH Q SC "out12" 47%nat ltac:(is_in)) as (d12 & H12 & V12).
  destruct (SH Q SC "out21" 49%nat ltac:(is_in)) as (d21 & H21 & V21). destruct (SH Q SC "out22" 51%nat ltac:(is_in)) as (d22 & H22 & V22).
  exists d11, d12, d21, d22. do 4 (split; [assumption|]). intros e x11 x12 x21 x22 y11 y12 y21 y22 A1 A2 A3 A4 A5 A6 A7 A8.
  split; [apply V11|split; [apply V12|split; [apply V21|apply V22]]]; try (fed_all); intros i Hi; calc matrixmul2_P Hi ltac:(leaf matrixmul2_P Hi).
Qed.
(** MuxMul: out = 2x if ctrl is 1, 0 if it is 0 *)
Theorem C57_muxmul :
  forall F, exists w out, irun F init_world (calls muxmul) = Ok w /\ out_port w "out" out /\
  forall Q, scheduled F (calls muxmul) w Q -> exists d, 0 <= d /\
    forall e x c, fed e "x" 32 x -> fed e "ctrl" 1 c -> displays e Q out d (fun i => (if c i =? 1 then 2 * x i else 0) mod 2 ^ 32).
Proof.
  intro F. destruct (example F (fun n => n) (calls muxmul) muxmul_P [("x", 32); ("ctrl", 1)] [("out", 15%nat)] ltac:(vm_compute; reflexivity) eq_refl) as (w & R & O & SH).
  exists w, 15%nat. split; [exact R|]. split; [apply O; is_in|]. intros Q SC. destruct (SH Q SC "out" 15%nat ltac:(is_in)) as (d & Hd & V). exists d. split; [exact Hd|].
  intros e x c FX FC. apply (V e (fun i => if c i =? 1 then 2 * x i else 0)); [fed_all|]. intros i Hi.
  assert (M : has32 e muxmul_P 5 i (c i)).
  { destruct (FC i Hi) as [EC RC]. change (2 ^ 1) with 2 in RC.
    eapply dv_op; [unfold muxmul_P; mem|reflexivity|exact Hi|constructor;
      [eapply (dv_stream (hw e) muxmul_P 2 "ctrl"); [unfold muxmul_P; mem|exact Hi]|
       constructor; [exact (d_const e muxmul_P 4 1 VConst (-1) i ltac:(unfold muxmul_P; mem))|constructor; [exact (d_const e muxmul_P 3 0 VConst (-1) i ltac:(unfold muxmul_P; mem))|constructor]]]|].
    cbn [d_op]. cbn [hw i_idx i_stream]. rewrite EC. cbn [snd].
    assert (c i = 0 \/ c i = 1) as [E|E] by lia; rewrite E; reflexivity. }
  assert (X : has32 e muxmul_P 15 i ((x i + x i) * c i)).
  { eapply d_out; [unfold muxmul_P; mem|unfold muxmul_P; mem|]. eapply d_mul; [unfold muxmul_P; mem|exact Hi| |exact M]. eapply d_add; [unfold muxmul_P; mem|exact Hi| |]; leaf muxmul_P Hi. }
  replace (if c i =? 1 then 2 * x i else 0) with ((x i + x i) * c i); [exact X|].
  destruct (FC i Hi) as [_ RC]. change (2 ^ 1) with 2 in RC. assert (c i = 0 \/ c i = 1) as [E|E] by lia; rewrite E; cbn [Z.eqb Pos.eqb]; ring.
Qed.
(** MovingSum: out[i] = x[i-1] + x[i] + x[i+1], from the second position on *)
Theorem C57_movingsum :
  forall F, exists w out, irun F init_world (calls movingsum) = Ok w /\ out_port w "out" out /\
  forall Q, balanced F (calls movingsum) w Q -> exists d, 0 <= d /\
    forall e x, fed e "x" 32 x -> (exists sig, rtl Q e sig) /\ forall sig, rtl Q e sig -> forall i, 1 <= i -> sig out (i + d) = (x (i - 1) + x i + x (i + 1)) mod 2 ^ 32.
Proof.
  intro F. assert (X : ready F (fun n => n) (calls movingsum) movingsum_P (fun w => fine [("x", 32)] w && output_is "out" 12 w) = true) by (vm_compute; reflexivity).
  destruct (ready_ok _ _ _ _ _ X) as (w & order & R & B & GT & EB & Y); [types_ok|]. clear X. rewrite !andb_true_iff in Y. destruct Y as [FN OU].
  exists w, 12%nat. split; [exact R|]. split; [exact (out_port_is _ _ _ OU)|]. intros Q SC.
  destruct (works_shows F _ w order movingsum_P _ B EB FN Q 12%nat "out" (balanced_works F _ w _ GT FN Q SC) OU) as (d & Hd & SH). exists d. split; [exact Hd|].
  intros e x FX. destruct (SH e) as [RN V]; [fed_all|]. split; [exact RN|]. intros sig RT i Hi. apply (V sig RT i); [lia| |apply mod32].
  assert (Hi0 : 0 <= i) by lia. assert (L : forall j, 0 <= j -> has32 e movingsum_P 1 j (x j)) by (intros j Hj; leaf movingsum_P Hj).
  change (has32 e movingsum_P 12 i (x (i - 1) + x i + x (i + 1))). eapply d_out; [unfold movingsum_P; mem|unfold movingsum_P; mem|].
  eapply d_add; [unfold movingsum_P; mem|exact Hi0|eapply d_add; [unfold movingsum_P; mem|exact Hi0| |apply L; lia]|].
  - eapply d_off; [unfold movingsum_P; mem|]. apply L. lia.
  - eapply d_off; [unfold movingsum_P; mem|]. apply L. lia.
Qed.

(** the hypotheses can be met: a stream, and a circuit of each kind *)
Definition ramp (s : string) : env := {| e_stream := fun n i => if String.eqb n s then (uint 32, i mod 2 ^ 32) else (uint 1, i mod 2); e_scalar := fun _ => (uint 1, 0) |}.
Definition buffered (s : stmt) : bool := match s with Def _ DLatency _ _ _ _ => true | _ => false end.
Example C57_case : exists e, fed e "x" 32 (fun i => i mod 2 ^ 32) /\ fed e "ctrl" 1 (fun i => i mod 2) /\
  (exists w Q, irun noflt0 init_world (calls muxmul) = Ok w /\ scheduled noflt0 (calls muxmul) w Q) /\
  (exists w Q, irun noflt0 init_world (calls movingsum) = Ok w /\ balanced noflt0 (calls movingsum) w Q /\ existsb buffered Q = true).
Proof.
  exists (ramp "x"). split; [intros i Hi; split; [reflexivity|apply mod32]|]. split; [intros i Hi; split; [reflexivity|change (2 ^ 1) with 2; apply Z.mod_pos_bound; lia]|]. split.
  - assert (X : ready noflt0 (fun n => n) (calls muxmul) muxmul_P (fun _ => true) = true) by (vm_compute; reflexivity).
    destruct (ready_ok _ _ _ _ _ X) as (w & order & R & B & _ & EB & _); [types_ok|].
    assert (A : match asap_pass rt_cfg (fun b => b) muxmul_P with Some _ => true | None => false end = true) by (vm_compute; reflexivity).
    destruct (asap_pass rt_cfg (fun b => b) muxmul_P) as [[Q L]|] eqn:E; [|discriminate A]. exists w, Q. split; [exact R|]. exists order, muxmul_P. split; [exact B|]. split; [exact EB|].
    right. left. exists rt_cfg, (fun b => b), L. auto.
  - assert (X : ready noflt0 (fun n => n) (calls movingsum) movingsum_P (fun _ => true) = true) by (vm_compute; reflexivity).
    destruct (ready_ok _ _ _ _ _ X) as (w & order & R & B & _ & EB & _); [types_ok|].
    assert (A : match asap_pass rt_cfg (fun b => b) movingsum_P with Some (Q, _) => existsb buffered Q | None => false end = true) by (vm_compute; reflexivity).
    destruct (asap_pass rt_cfg (fun b => b) movingsum_P) as [[Q L]|] eqn:E; [|discriminate A]. exists w, Q. split; [exact R|]. split; [|exact A].
    exists order, movingsum_P. split; [exact B|]. split; [exact EB|]. left. exists rt_cfg, (fun b => b), L. auto.
Qed.

Definition PropertiesExamples_theorems := (C57_addconst, C57_polynomial2, C57_polynomial2_inst, C57_scalar3, C57_matrixmul2, C57_muxmul, C57_movingsum).
Print Assumptions PropertiesExamples_theorems.
