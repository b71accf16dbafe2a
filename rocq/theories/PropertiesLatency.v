(** * Property theorems: types of variables, latency configuration. *)
From Coq Require Import ZArith Bool String Lia.
From stdpp Require Import gmap list.
From Verif Require Import DfcirBuild Instance InstanceSpec Types Word Value Graph GraphSpec GraphFacts BuilderProofs2 BuilderTopo KernelSort TopSort TypingSpec TypingProofs
     Dfcir StreamSpec Sched SchedSpec SchedFacts Linear Pipeline Latency LatencySpec LatencyProofs LatencyFacts PropertiesSched.
Local Open Scope Z_scope.

(** ** C48 *)
Theorem C48_types :
  forall F h w, run F init_world h = Ok w ->
  forall n nd t, w_nodes w !! n = Some nd -> w_types w !! n_ty nd = Some t ->
  exists args, Forall2 (fun a ta => type_of w a = Some ta) (operands w n) args /\ typing (n_op nd) t args.
Proof. intros F h w R. exact (run_typed F h init_world w R init_WF init_typed). Qed.

(** the slice in the kernel [demo]-like history below has type bits 4 *)
Example C48_case : exists w nd, run noflt0 init_world
    [KNew; CType (dfUInt 8); CInput 0 false "x" 0; CSlice 1 6 3; CCat 2 1] = Ok w /\
  w_nodes w !! 4%nat = Some nd /\ n_op nd = CAT /\ w_types w !! n_ty nd = Some (TRaw 12).
Proof.
  assert (X : match run noflt0 init_world [KNew; CType (dfUInt 8); CInput 0 false "x" 0; CSlice 1 6 3; CCat 2 1] with
    | Ok w => match w_nodes w !! 4%nat with
              | Some nd => match n_op nd with CAT => bool_decide (w_types w !! n_ty nd = Some (TRaw 12)) | _ => false end
              | None => false end
    | _ => false end = true) by (vm_compute; reflexivity).
  destruct (run _ _ _) as [w| | |]; try discriminate X. destruct (w_nodes w !! 4%nat) as [nd|] eqn:E; [|discriminate].
  exists w, nd. split; [reflexivity|]. split; [exact E|]. destruct (n_op nd); try discriminate. apply bool_decide_eq_true in X. auto.
Qed.

(** ** C26 *)
(** [Q] is what the schedulers that use latencies make of [P], compiled with the
    configuration [cfg] *)
Definition scheduled_with (cfg : latcfg) (P Q : program) : Prop :=
  (exists perm L, asap_pass (processor_cfg cfg) perm P = Some (Q, L)) \/
  (exists solve perm L, linear_pass solve (processor_cfg cfg) perm P = Some (Q, L)).

(** floats are compared with the latency of the integer comparison *)
Theorem C26_refuted : exists F h w order P Q cfg n nd c, built F h w order /\ build w order = Ok P /\
  scheduled_with cfg P Q /\ w_nodes w !! n = Some nd /\ doc_class (n_op nd) true = Some c /\ args_float w n true /\
  ~ has_latency Q n (default 1 (cfg c)).
Proof.
  destruct (flow_check _ _ _ _ fcmp_flow) as (w & o & R & D & K & C & S & B & Ou).
  destruct (fcmp_nodes w Ou) as [(nd & Hn & Ho & Hf) _].
  exists noflt0, (calls fcmp_h), w, o, fcmp_P, fcmp_Q, fcmp_cfg, 3%nat, nd, (OBin LESS true).
  split; [exact (ex_intro _ 0%nat (conj R (conj D (conj K (conj C S)))))|]. split; [exact B|].
  split; [left; eexists _, _; exact fcmp_pass|]. split; [exact Hn|]. split; [rewrite Ho; reflexivity|]. split; [exact Hf|].
  intros [_ H]. specialize (H (DBin LESS) VStream (TFixed false 1 0) 1 [1%nat; 2%nat]).
  assert (X : 1 = default 1 (fcmp_cfg (OBin LESS true))) by (apply H; unfold fcmp_Q; rewrite !elem_of_cons; auto 20). discriminate X.
Qed.

(** missing: comparisons of floating-point values *)
Theorem C26_partial :
  forall F h w order P Q cfg, built F h w order -> bindings_typed F init_world h -> build w order = Ok P -> scheduled_with cfg P Q ->
  forall n nd, w_nodes w !! n = Some nd ->
  (forall float c, doc_class (n_op nd) float = Some c -> args_float w n float ->
     is_comparison (n_op nd) && float = false -> has_latency Q n (default 1 (cfg c))) /\
  (n_op nd = CAST -> has_latency Q n 0).
Proof.
  intros F h w order P Q cfg (kern & R & D & K & C & S) BT EB SW n nd Hn.
  assert (X : exists bs P2, insert_buffers (apply_config (processor_cfg cfg) P) bs (fresh (apply_config (processor_cfg cfg) P)) = Some P2 /\ Q = erase_offsets P2).
  { destruct SW as [(perm & L & E)|(solve & perm & L & E)].
    - unfold asap_pass in E. destruct (sgraph _) as [[ns cs]|]; [|discriminate]. destruct (asap ns cs) as [[[m bs] mx]|]; [|discriminate].
      destruct (insert_buffers _ _ _) as [P2|] eqn:E2; [|discriminate]. injection E as <- _. eauto.
    - unfold linear_pass in E. destruct (sgraph _) as [[ns cs]|]; [|discriminate]. destruct (lp_schedule _ _ _) as [bs|]; [|discriminate].
      destruct (insert_buffers _ _ _) as [P2|] eqn:E2; [|discriminate]. injection E as <- _. eauto. }
  destruct X as (bs & P2 & E & ->).
  destruct (node_stmt F h w order R D K C S P EB n nd Hn) as (o & t & a & Ht & T & _).
  assert (NR : (forall k, n_op nd <> OFFSET k) -> w_types w !! n_ty nd = Some t) by (intro NF; rewrite <- (result_other w nd a NF); exact Ht). clear Ht. split.
  - intros f c Dc Af Nc. assert (Ht := NR ltac:(intros k X; rewrite X in Dc; discriminate Dc)). destruct (doc_class_spec F h w R D BT cfg n nd t o a f c Hn Ht T Dc Af Nc) as [Sc <-].
    eapply kernel_latency; eassumption.
  - intro Ec. assert (Ht := NR ltac:(intros k X; rewrite X in Ec; discriminate Ec)). destruct (cast_class w cfg n nd t o a Hn T Ec) as [Sc <-]. eapply kernel_latency; eassumption.
Qed.

Example C26_case : exists w order nd, built noflt0 (calls fcmp_h) w order /\ build w order = Ok fcmp_P /\ scheduled_with fcmp_cfg fcmp_P fcmp_Q /\
  w_nodes w !! 8%nat = Some nd /\ doc_class (n_op nd) true = Some (OBin ADD true) /\ args_float w 8 true /\
  is_comparison (n_op nd) && true = false /\ fcmp_cfg (OBin ADD true) = Some 7.
Proof.
  destruct (flow_check _ _ _ _ fcmp_flow) as (w & o & R & D & K & C & S & B & Ou).
  destruct (fcmp_nodes w Ou) as [_ (nd & Hn & Ho & Hf)]. exists w, o, nd.
  split; [exact (ex_intro _ 0%nat (conj R (conj D (conj K (conj C S)))))|]. split; [exact B|]. split; [left; eexists _, _; exact fcmp_pass|].
  split; [exact Hn|]. rewrite Ho. split; [reflexivity|]. split; [exact Hf|]. split; reflexivity.
Qed.

(** combinational pipelining gives every operation latency 0 *)
Theorem C26_combinational :
  forall F h w order rnd eps m perm P Q, built F h w order -> build w order = Ok P -> 0 < m ->
  comb_pass rnd eps m perm P = Some Q ->
  forall n nd float c, w_nodes w !! n = Some nd -> doc_class (n_op nd) float = Some c \/ n_op nd = CAST -> has_latency Q n 0.
Proof.
  intros F h w order rnd eps m perm P Q (kern & R & D & K & C & S) EB Hm E n nd f c Hn Ho.
  destruct (node_stmt F h w order R D K C S P EB n nd Hn) as (o & t & a & Ht & T & _).
  eapply (comb_latency F h w order R D K C S P EB); [exact Hn|exact T| |exact Hm|exact E].
  unfold translate_op in T. destruct Ho as [Ho|Ho].
  - destruct (n_op nd) as [| | | | | |b|u| | | | |]; try discriminate Ho; cbn in Ho.
    + destruct (is_bitwise b) eqn:Eb; [discriminate|]. destruct (operands w n) as [|x [|y r]]; try discriminate. injection T as <- _. cbn. rewrite Eb. reflexivity.
    + destruct u; [discriminate|]. destruct (operands w n) as [|x r]; [discriminate|]. injection T as <- _. reflexivity.
  - rewrite Ho in T. destruct (operands w n) as [|x r]; [discriminate|]. injection T as <- _. reflexivity.
Qed.

(** ** C49 *)
(** the file in the documentation has no effect *)
Theorem C49_refuted : exists l key c, doc_value l key = 3 /\ class_name c = key /\
  exists cfg, parse_internal (JObj (members l)) = Some cfg /\ default 1 (cfg c) = 1.
Proof.
  exists [("MUL_INT", 3); ("ADD_INT", 1); ("SUB_INT", 1)]%string, "MUL_INT"%string, (OBin MUL false).
  split; [reflexivity|]. split; [reflexivity|]. eexists. split; reflexivity.
Qed.
(** latencies are taken modulo 2^16 *)
Theorem C49_refuted_large : exists l c cfg, doc_value l (class_name c) = 65536 /\
  parse_internal (JObj [("dfcir"%string, JObj (members l))]) = Some cfg /\ cfg c = Some 0.
Proof. exists [("MUL_INT"%string, 65536)], (OBin MUL false). eexists. split; [reflexivity|]. split; reflexivity. Qed.

(** missing: files without the member "dfcir"; latencies beyond 16 bits.  Other members
    ("external", ...) do not matter, nor do unknown names. *)
Theorem C49_partial :
  forall j l, member j "dfcir" = Some (JObj (members l)) -> (forall k z, (k, z) ∈ l -> 0 <= z < 65536) ->
  exists cfg, parse_internal j = Some cfg /\
  forall o float c, doc_class o float = Some c ->
  exists base, doc_name o = Some base /\ default 1 (cfg c) = doc_value l (base ++ doc_suffix float)%string.
Proof.
  intros j l Hj Hl. unfold parse_internal. rewrite Hj.
  destruct (add_fields_spec l no_cfg (OBin ADD false) ltac:(discriminate)) as (cfg & E & _). exists cfg. split; [exact E|].
  intros o f c Dc. destruct (doc_key o f c Dc) as (b & Hb & Ec). exists b. split; [exact Hb|].
  destruct (add_fields_spec l no_cfg c (doc_known o f c Dc)) as (cfg' & E' & V). rewrite E in E'. injection E' as <-.
  rewrite V, <- Ec. apply (fold_value l (class_name c) None Hl).
Qed.
Example C49_case : exists cfg, parse_internal (JObj [("external", JOther); ("dfcir", JObj (members [("MUL_INT", 3); ("ADD_FLOAT", 9); ("XOR_INT", 0)]))]%string) = Some cfg /\
  cfg (OBin MUL false) = Some 3 /\ cfg (OBin ADD true) = Some 9 /\ cfg (OBin SUB false) = None.
Proof. eexists. split; [reflexivity|]. repeat split. Qed.

(** names of operations: reading and printing are inverse *)
Theorem C49_names :
  (forall c, class_name c <> "<unknown>"%string -> field_class (class_name c) = c) /\
  (forall s, field_class s <> OUndef -> class_name (field_class s) = s).
Proof. split; [exact field_name|exact field_inv]. Qed.

(** one report for all theorems of this file *)
Definition PropertiesLatency_theorems :=
  (C48_types,
   C26_refuted,
   C26_partial,
   C26_combinational,
   C49_refuted,
   C49_partial,
   C49_names).
Print Assumptions PropertiesLatency_theorems.
