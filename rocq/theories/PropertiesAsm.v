(** * Property theorems: the text of the DFCIR dialect (C55). *)
From Coq Require Import ZArith Bool String Lia Permutation.
From stdpp Require Import gmap list.
From Verif Require Import TypingSpec Instance InstanceSpec InstanceFlow InstanceFacts Types Word Value OpSpec Graph GraphSpec GraphFacts BuilderTopo KernelSort TopSort Dfcir DfcirBuild StreamSpec Sched SchedSpec SchedFacts KernelSpec KernelFlow
     Linear Pipeline ProgTyping RtlSpec RtlFlow Verify VerifySpec VerifyProofs VerifyFlow Asm AsmSpec AsmProofs AsmBuild AsmFlow Golden PropertiesSched PropertiesInstance PropertiesRtl PropertiesVerify.
Local Open Scope Z_scope.

(** ** C55: DFCIR files can be read back *)
(** the text of a well-formed program is parsed to that program, up to the names of values,
    and printing the result gives the same text *)
Theorem C55_roundtrip : forall name P, wellformed ∅ P ->
  exists P', parse_module (print_module name P) = Some (name, P') /\ same P P' /\ print_module name P' = print_module name P.
Proof. exact roundtrip. Qed.
(** different programs have different texts *)
Theorem C55_injective : forall n n' P P', wellformed ∅ P -> wellformed ∅ P' -> print_module n P = print_module n' P' -> n = n' /\ same P P'.
Proof. exact print_injective. Qed.

(** the program [Q] can be written to a file and read back *)
Definition readable (Q : program) : Prop :=
  exists D, to_asm Q = Some D /\
  forall name, exists D', parse_module (print_module name D) = Some (name, D') /\ same D D' /\ print_module name D' = print_module name D.
Lemma wf_readable Q : (exists D, to_asm Q = Some D /\ wellformed ∅ D) -> readable Q.
Proof. intros (D & E & W). exists D. split; [exact E|]. intro name. exact (roundtrip name D W). Qed.

(** what the compiler writes: the output of the schedulers that erase offsets, whenever it
    verifies *)
Theorem C55_scheduled : forall F h w order P, built F h w order -> good_types F h -> build w order = Ok P ->
  (forall cfg perm Q L, asap_pass cfg perm P = Some (Q, L) -> verified Q -> readable Q) /\
  (forall solve cfg perm Q L, linear_pass solve cfg perm P = Some (Q, L) -> verified Q -> readable Q).
Proof.
  intros F h w order P (kern & R & D & K & C & S) GT EB. split.
  - intros cfg perm Q L E V. apply wf_readable. assert (SC : scheduled P Q) by (left; eauto). apply (kernel_asm F h w order R D K C S P EB GT); [right; exact SC|exact V|].
    apply (kernel_offs_typed F h w order R D K C S P EB GT); [right; exact SC|right; left; eauto].
  - intros solve cfg perm Q L E V. apply wf_readable. assert (SC : scheduled P Q) by (right; left; eauto 6). apply (kernel_asm F h w order R D K C S P EB GT); [right; exact SC|exact V|].
    apply (kernel_offs_typed F h w order R D K C S P EB GT); [right; exact SC|right; right; eauto 6].
Qed.
(** the unscheduled program, and what pipelining makes of it, whenever it verifies and its
    offsets are of the types of their operands *)
Theorem C55_unscheduled : forall F h w order P, built F h w order -> good_types F h -> build w order = Ok P -> offsets_plain w -> verified P ->
  readable P /\ forall rnd eps n perm Q, comb_pass rnd eps n perm P = Some Q -> verified Q /\ readable Q.
Proof.
  intros F h w order P (kern & R & D & K & C & S) GT EB OP V. split.
  - apply wf_readable, (kernel_asm F h w order R D K C S P EB GT); [left; reflexivity|exact V|]. apply (kernel_offs_typed F h w order R D K C S P EB GT); [left; reflexivity|left; exact OP].
  - intros rnd eps n perm Q E. destruct (comb_same F h w order R D K C S P EB _ _ _ _ _ E) as [VQ _]. apply VQ in V. split; [exact V|]. apply wf_readable.
    assert (SC : scheduled P Q) by (right; right; eauto 6). apply (kernel_asm F h w order R D K C S P EB GT); [right; exact SC|exact V|].
    apply (kernel_offs_typed F h w order R D K C S P EB GT); [right; exact SC|left; exact OP].
Qed.
(** a kernel without instances verifies, before scheduling and after, exactly if [-], [~]
    and the controls of the muxes are applied to streams, and then everything the compiler
    writes about it can be read back *)
Theorem C55_flat : forall F h w order P, built F (calls h) w order -> good_types F (calls h) -> build w order = Ok P ->
  (verified P <-> stream_operands w) /\
  (forall rnd eps n perm Q, comb_pass rnd eps n perm P = Some Q -> (verified Q <-> stream_operands w)) /\
  (stream_operands w -> readable P /\ forall Q, scheduled P Q -> verified Q /\ readable Q).
Proof.
  intros F h w order P B GT EB. pose proof B as (kern & R & D & K & C & S). destruct (C54_flat F h w order B) as [OP AC].
  destruct (C54_partial F (calls h) w order P B EB OP) as (V1 & V2 & V3 & V4). assert (VP : verified P <-> stream_operands w) by (rewrite V4; exact AC). split; [exact VP|]. split.
  - intros rnd eps n perm Q E. rewrite (V3 _ _ _ _ _ E). exact AC.
  - intro ST. destruct (C55_unscheduled F (calls h) w order P B GT EB OP (proj2 VP ST)) as [RP RC]. split; [exact RP|].
    destruct (C55_scheduled F (calls h) w order P B GT EB) as (R1 & R2).
    intros Q [(cfg & perm & L & E)|[(solve & cfg & perm & L & E)|(rnd & eps & n & perm & E)]].
    + assert (V : verified Q) by (apply (V1 _ _ _ _ E), AC, ST). split; [exact V|exact (R1 _ _ _ _ E V)].
    + assert (V : verified Q) by (apply (V2 _ _ _ _ _ E), AC, ST). split; [exact V|exact (R2 _ _ _ _ _ E V)].
    + exact (RC _ _ _ _ _ E).
Qed.

(** The reference files of the repository: the calls of the examples lead, for some order of
    the start nodes, to these tokens (test/examples/polynomial2, addconst, movingsum, scalar3,
    matrixmul2), so the hypotheses above are met and the model of the compiler agrees with
    what the compiler wrote *)
Definition writes (hash : list nat -> list nat) (name : string) (h : list cmd) (text : list tok) : Prop :=
  (forall l, Permutation (hash l) l) /\
  exists w order P D D', built noflt0 (calls h) w order /\ sort_by hash w 0 = Some (TSOk order) /\ build w order = Ok P /\ to_asm P = Some D /\
    print_module name D = text /\ parse_module text = Some (name, D') /\ good_types noflt0 (calls h) /\ stream_operands w.
Definition small_types (h : list cmd) : bool :=
  forallb (fun c => match c with CType (TFixed s i f) => (0 <=? i) && (0 <=? f) && (0 <? i + f + Z.b2z s) && (i + f + Z.b2z s <? 2 ^ 16) | CType _ => false | _ => true end) h.
Definition written (hash : list nat -> list nat) (name : string) (h : list cmd) : option (list tok) :=
  match run noflt0 init_world (KNew :: h) with
  | Ok w => if disciplinedb noflt0 init_world (KNew :: h) && forallb (fun c => negb (is_knew c)) h && completeb w 0 && small_types h && streamsb w then
      match sort_by hash w 0 with Some (TSOk o) => match build w o with Ok P => match to_asm P with Some D => Some (print_module name D) | None => None end | _ => None end | _ => None end
    else None
  | _ => None
  end.
Lemma small_types_sound h : small_types h = true -> good_types noflt0 (calls h).
Proof.
  intro H. split; [|exact (calls_typed noflt0 (KNew :: h) init_world)]. intros t I. unfold calls in I. apply elem_of_cons in I as [I|I]; [discriminate I|].
  apply elem_of_list_fmap in I as (c & E & I). injection E as <-. unfold small_types in H. rewrite forallb_forall in H. apply elem_of_list_In in I. specialize (H _ I). cbn in H.
  destruct t as [s i f| |]; try discriminate H. rewrite !andb_true_iff, !Z.leb_le, !Z.ltb_lt in H. cbn. destruct s; cbn in H |- *; lia.
Qed.
Lemma written_writes hash name h text : (forall l, Permutation (hash l) l) -> match parse_module text with Some (n, _) => String.eqb n name | None => false end = true -> written hash name h = Some text -> writes hash name h text.
Proof.
  intros PH PT. unfold written. destruct (run noflt0 init_world (KNew :: h)) as [w| | |] eqn:E1; try discriminate. destruct (_ && _) eqn:EC; [|discriminate].
  destruct (sort_by hash w 0) as [[o| |]|] eqn:E2; try discriminate.
  destruct (build w o) as [P| | |] eqn:E3; try discriminate. destruct (to_asm P) as [D|] eqn:E4; [|discriminate]. intro H. split; [exact PH|].
  destruct (parse_module text) as [[n D']|] eqn:E5; [|discriminate PT]. apply String.eqb_eq in PT as ->. exists w, o, P, D, D'.
  rewrite !andb_true_iff in EC. destruct EC as [[[[C1 C2] C3] C4] C5].
  split.
  { exists 0%nat. split; [rewrite <- E1; exact (irun_calls noflt0 (KNew :: h) init_world)|]. split; [apply (calls_disciplined noflt0 (KNew :: h)), disciplinedb_sound; exact C1|].
    split; [exact (proj1 (single_kernel_owns noflt0 h w E1 C2))|]. split; [apply completeb_sound, C3|]. exists hash. auto. }
  split; [exact E2|]. split; [exact E3|]. split; [exact E4|]. split; [congruence|]. split; [reflexivity|]. split; [apply small_types_sound, C4|apply streamsb_sound, C5].
Qed.
Definition rotate5 (l : list nat) : list nat := match l with (a :: b :: c :: d :: e :: r)%list => (b :: c :: d :: e :: a :: r)%list | _ => l end.
Lemma rotate5_perm l : Permutation (rotate5 l) l.
Proof. destruct l as [|a [|b [|c [|d [|e r]]]]]; try reflexivity. cbn. symmetry. exact (Permutation_middle [b; c; d; e] r a). Qed.
Example C55_golden :
  writes (fun l => l) "Polynomial2" polynomial2 polynomial2_text /\ writes (fun l => l) "AddConst" addconst addconst_text /\
  writes (fun l => l) "MovingSum" movingsum movingsum_text /\ writes (fun l => l) "Scalar3" scalar3 scalar3_text /\
  writes rotate5 "MatrixMul2" matrixmul2 matrixmul2_text.
Proof.
  split; [|split; [|split; [|split]]]; apply written_writes; try (intro l; reflexivity); try exact rotate5_perm; vm_compute; reflexivity.
Qed.

(** ** Programs that verify and cannot be read back *)
(** A sub-kernel that delays its input by two, instantiated on a stream of raw bits: the
    first offset has another type than the variable it is taken of, which the verifier
    accepts, but the text gives one type for both, so parsing the file fails *)
Fixpoint bindings_typedb (F : fltops) (w : world) (h : list icmd) : bool :=
  match h with
  | [] => true
  | c :: h' => match c with IInst _ k bs => types_matchb w k bs | _ => true end && match istep F w c with Ok (w', _) => bindings_typedb F w' h' | _ => true end
  end.
Lemma bindings_typedb_sound F : forall h w, bindings_typedb F w h = true -> bindings_typed F w h.
Proof.
  induction h as [|c h IH]; intros w H; [exact Logic.I|]. cbn in H |- *. apply andb_true_iff in H as [H1 H2]. split.
  - destruct c; try exact Logic.I. apply types_matchb_sound, H1.
  - destruct (istep F w c) as [[w' r]| | |]; auto.
Qed.
Definition odd_h : list icmd := (map ICall
  [ KNew; CType (TRaw 8); CInput 0 false "y" 0; CType (TFixed false 8 0); CNewVar 0 false 1;
    KNew; CInput 3 false "x" 1; COffset 3 4 (-1); COffset 3 5 (-1); COutput 3 false "out" 1; CConnect 9 7 ] ++
  [ IInst 0 3 [(1%nat, "x"); (2%nat, "out")] ] ++ map ICall [ COutput 0 false "res" 1; CConnect 11 7 ])%list%string.
Definition odd_flow (w : world) : bool :=
  completeb w 0 && forallb (fun q : nat * node => Nat.eqb (n_meta (snd q)) 0) (map_to_list (w_nodes w)) && schedulableb w && bindings_typedb noflt0 init_world odd_h &&
  match sort_kernel w 0 with
  | Some (TSOk r) => match build w r with
      | Ok P => check_program verify_op ∅ P && match to_asm P with Some D => match parse_module (print_module "K" D) with None => true | Some _ => false end | None => false end
      | _ => false
      end
  | _ => false
  end.
Theorem C55_refuted : exists w order P D, built noflt0 odd_h w order /\ good_types noflt0 odd_h /\ schedulable w /\ build w order = Ok P /\ verified P /\
  to_asm P = Some D /\ parse_module (print_module "K" D) = None.
Proof.
  assert (X : irun_ok noflt0 (fun n => if Nat.eqb n 2 then 20%nat else n) odd_h odd_flow = true) by (vm_compute; reflexivity).
  destruct (irun_check _ _ _ _ X) as (w & R & D & _ & Y). clear X. exists w. unfold odd_flow in Y. rewrite !andb_true_iff in Y. destruct Y as [[[[Y1 Y2] Y3] Y4] Y5].
  destruct (sort_kernel w 0) as [[r| |]|] eqn:ES; try discriminate Y5. destruct (build w r) as [P| | |] eqn:EB; try discriminate Y5. apply andb_true_iff in Y5 as [V Y5].
  destruct (to_asm P) as [A|] eqn:EA; [|discriminate Y5]. exists r, P, A. split.
  { exists 0%nat. split; [exact R|]. split; [exact D|]. split; [|split; [apply completeb_sound, Y1|exact (sort_sorts _ _ _ ES)]].
    intros n nd Hn. apply Nat.eqb_eq. exact (map_forallb w (fun q : nat * node => Nat.eqb (n_meta (snd q)) 0) Y2 n nd Hn). }
  split; [split|].
  { intros t I. unfold odd_h in I. cbn in I. repeat (apply elem_of_cons in I as [I|I]; [try discriminate I; injection I as ->; cbn; lia|]). inversion I. }
  { apply bindings_typedb_sound, Y4. }
  split; [apply schedulableb_sound, Y3|]. split; [exact EB|]. split; [exact V|]. split; [exact EA|].
  destruct (parse_module (print_module "K" A)); [discriminate Y5|reflexivity].
Qed.

(** ** C54 again: with instances the scheduler matters *)
(** A sub-kernel with an offset, instantiated on a scalar: without scheduling (and so with
    pipelining) the program does not verify, while ASAP scheduling erases the offset and
    leaves a program that does *)
Definition scal_h : list icmd := (map ICall
  [ KNew; CType (TFixed false 8 0); CInput 0 true "s" 0; CNewVar 0 false 0;
    KNew; CInput 3 false "x" 0; COffset 3 4 (-1); COutput 3 false "out" 0; CConnect 7 5 ] ++
  [ IInst 0 3 [(1%nat, "x"); (2%nat, "out")] ] ++ map ICall [ COutput 0 false "res" 0; CConnect 9 5 ])%list%string.
Definition scal_flow (w : world) : bool :=
  completeb w 0 && forallb (fun q : nat * node => Nat.eqb (n_meta (snd q)) 0) (map_to_list (w_nodes w)) && bindings_typedb noflt0 init_world scal_h && match check w 0 with Ok b => b | _ => false end &&
  match sort_kernel w 0 with
  | Some (TSOk r) => match build w r with
      | Ok P => negb (check_program verify_op ∅ P) && match asap_pass (fun _ => Some 1) (fun b => b) P with Some (Q, _) => check_program verify_op ∅ Q | None => false end
      | _ => false
      end
  | _ => false
  end.
Theorem C54_scheduler_refuted : exists w order P Q L, built noflt0 scal_h w order /\ good_types noflt0 scal_h /\ check w 0 = Ok true /\ build w order = Ok P /\
  (forall rnd eps n perm R, comb_pass rnd eps n perm P = Some R -> ~ verified R) /\
  asap_pass (fun _ => Some 1) (fun b => b) P = Some (Q, L) /\ verified Q.
Proof.
  assert (X : irun_ok noflt0 (fun n => if Nat.eqb n 2 then 20%nat else n) scal_h scal_flow = true) by (vm_compute; reflexivity).
  destruct (irun_check _ _ _ _ X) as (w & R & D & _ & Y). clear X. exists w. unfold scal_flow in Y. rewrite !andb_true_iff in Y. destruct Y as [[[[Y1 Y2] Y4] Y6] Y5].
  destruct (sort_kernel w 0) as [[r| |]|] eqn:ES; try discriminate Y5. destruct (build w r) as [P| | |] eqn:EB; try discriminate Y5. apply andb_true_iff in Y5 as [V Y5].
  destruct (asap_pass _ _ P) as [[Q L]|] eqn:EA; [|discriminate Y5]. apply negb_true_iff in V.
  assert (K : only_kernel w 0) by (intros n nd Hn; apply Nat.eqb_eq; exact (map_forallb w (fun q : nat * node => Nat.eqb (n_meta (snd q)) 0) Y2 n nd Hn)).
  pose proof (completeb_sound _ _ Y1) as C. pose proof (sort_sorts _ _ _ ES) as S.
  exists r, P, Q, L. split; [exists 0%nat; auto|]. split; [split|].
  { intros t I. unfold scal_h in I. cbn in I. repeat (apply elem_of_cons in I as [I|I]; [try discriminate I; injection I as ->; cbn; lia|]). inversion I. }
  { apply bindings_typedb_sound, Y4. }
  split; [destruct (check w 0) as [[]| | |]; congruence|]. split; [exact EB|]. split; [|split; [exact EA|exact Y5]].
  intros rnd eps n perm Q' E. rewrite (proj1 (comb_same noflt0 scal_h w r R D K C S P EB _ _ _ _ _ E)). unfold verified. congruence.
Qed.

(** what the text says: every operation is there under its name, with its operands, type and
    numbers (constants as their value in their type) *)
Theorem C55_text : forall P D, to_asm P = Some D -> forall r o k t l a, Def r o k t l a ∈ P -> fit t o l ->
  exists x, ADef r x ∈ D /\ mnemonic x = spelling o /\ map printed_value (attributes x) = numbers t o l /\ uses x = a /\ result_type x = (k, t).
Proof. exact asm_text. Qed.
(** the text determines the program, but for the names of values *)
Theorem C55_determines : forall n n' P P' D D', to_asm P = Some D -> to_asm P' = Some D' -> wellformed ∅ D -> wellformed ∅ D' ->
  print_module n D = print_module n' D' -> n = n' /\ same_program P P'.
Proof. intros n n' P P' D D' E E' W W' X. destruct (print_injective _ _ _ _ W W' X) as [-> S]. split; [reflexivity|]. exact (same_asm _ _ _ _ E E' S). Qed.
(** two kernels for which ASAP or linear scheduling yields the same text have the same
    scheduled programs *)
Theorem C55_kernels : forall F h w order P F' h' w' order' P' Q Q' D D' n n',
  built F h w order -> good_types F h -> build w order = Ok P -> built F' h' w' order' -> good_types F' h' -> build w' order' = Ok P' ->
  (exists cfg perm L, asap_pass cfg perm P = Some (Q, L)) \/ (exists solve cfg perm L, linear_pass solve cfg perm P = Some (Q, L)) ->
  (exists cfg perm L, asap_pass cfg perm P' = Some (Q', L)) \/ (exists solve cfg perm L, linear_pass solve cfg perm P' = Some (Q', L)) ->
  verified Q -> verified Q' -> to_asm Q = Some D -> to_asm Q' = Some D' -> print_module n D = print_module n' D' -> n = n' /\ same_program Q Q'.
Proof.
  assert (K : forall F h w order P Q D, built F h w order -> good_types F h -> build w order = Ok P ->
    (exists cfg perm L, asap_pass cfg perm P = Some (Q, L)) \/ (exists solve cfg perm L, linear_pass solve cfg perm P = Some (Q, L)) ->
    verified Q -> to_asm Q = Some D -> wellformed ∅ D).
  { intros F h w order P Q D (kern & R & DI & K & C & S) GT EB SC V ED.
    assert (SQ : Q = P \/ scheduled P Q) by (right; destruct SC as [SC|SC]; [left; exact SC|right; left; exact SC]).
    destruct (kernel_asm F h w order R DI K C S P EB GT Q SQ V (kernel_offs_typed F h w order R DI K C S P EB GT Q SQ ltac:(destruct SC as [SC|SC]; [right; left; exact SC|right; right; exact SC]))) as (D' & E' & W').
    congruence. }
  intros F h w order P F' h' w' order' P' Q Q' D D' n n' B GT EB B' GT' EB' SC SC' V V' ED ED' X.
  exact (C55_determines n n' Q Q' D D' ED ED' (K _ _ _ _ _ _ _ B GT EB SC V ED) (K _ _ _ _ _ _ _ B' GT' EB' SC' V' ED') X).
Qed.

Definition PropertiesAsm_theorems := (C55_text, C55_determines, C55_kernels, C55_roundtrip, C55_injective, C55_scheduled, C55_unscheduled, C55_flat, C55_golden, C55_refuted, C54_scheduler_refuted).
Print Assumptions PropertiesAsm_theorems.
