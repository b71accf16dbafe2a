(** * Property theorems: the command-line driver (C52). *)
From Coq Require Import ZArith QArith Bool String Lia Permutation.
From stdpp Require Import gmap list.
From Verif Require Import TypingSpec Instance InstanceSpec InstanceFlow Types Word Value OpSpec Graph GraphSpec GraphFacts KernelSort TopSort Dfcir StreamSpec Sched SchedSpec SchedFinal SchedFacts KernelSpec KernelFlow
     Linear LinearSpec Pipeline PipelineSpec PipelineFacts PipelineProofs Latency Stubs Naming RtlSpec RtlFlow RtlFacts Verify VerifySpec VerifyFlow Sim SimInput SimRunSpec Dot DotSpec DotProofs Driver DriverSpec DriverProofs
     ProgTyping PropertiesSched PropertiesLinear PropertiesPipeline PropertiesRtl PropertiesVerify PropertiesDot.
Local Open Scope Z_scope.

(** ** C52: which files are written, and what the exit code means *)
(** nothing is touched if the arguments are wrong, the kernel is not valid, or it cannot be
    turned into a program *)
Theorem C52_untouched : forall T read w k a,
  (args_ok a = false -> exists c, hls T read w k a = ([], Exits c) /\ c <> 0) /\
  (args_ok a = true -> is_Some (latency_config read a) -> check w k = Ok false -> hls T read w k a = ([], Exits 1)) /\
  (args_ok a = true -> latency_config read a = None -> hls T read w k a = ([], Dies)) /\
  (args_ok a = true -> is_Some (latency_config read a) -> check w k = Ok true -> build_module T w k = None -> hls T read w k a = ([], Dies)).
Proof.
  intros T read w k a. unfold hls. split; [|split; [|split]].
  - intros ->. exists 106. split; [reflexivity|discriminate].
  - intros -> [cfg ->] E. unfold hls_main. rewrite E. reflexivity.
  - intros -> ->. reflexivity.
  - intros -> [cfg ->] E E2. unfold hls_main. rewrite E. unfold compile. rewrite E2. reflexivity.
Qed.

(** a run that ends: every requested file holds the artefact of its format, no other
    file is touched; the exit code is 0 exactly if a circuit was made (and exported, if
    SystemVerilog is requested) *)
Theorem C52_files : forall T w k cfg paths o es c fs, hls_main T w k cfg paths o = (es, Exits c) -> check w k = Ok true -> distinct paths ->
  exists order P Q, sort_by (t_hash T) w k = Some (TSOk order) /\ build w order = Ok P /\ schedule T cfg o P = Some Q /\
    (forall f, paths f <> ""%string -> exists l, after es fs !! paths f = Some l /\ artefact T w k P Q f l) /\
    (forall p, (forall f, paths f <> ""%string -> paths f <> p) -> after es fs !! p = fs !! p) /\
    (c = 0 <-> accepted T Q /\ (paths SystemVerilog <> ""%string -> exists s, t_verilog T Q = Some s)).
Proof.
  intros T w k cfg paths o es c fs H E D. unfold hls_main in H. rewrite E in H. destruct (compile T w k cfg paths o) as [es' [b|]] eqn:C; [|discriminate H]. injection H as <- <-.
  destruct (compile_spec T w k cfg paths o es' b C D fs) as (P & Q & B & S & F1 & F2 & F3). unfold build_module in B.
  destruct (sort_by (t_hash T) w k) as [[order| |]|]; try discriminate B. destruct (build w order) as [P'| | |] eqn:EB; try discriminate B. injection B as ->.
  exists order, P, Q. split; [reflexivity|]. split; [exact EB|]. split; [exact S|]. split; [exact F1|]. split; [exact F2|]. rewrite <- F3. destruct b; cbn; split; congruence.
Qed.

(** what a file holds does not depend on what else is requested, nor on earlier contents *)
Theorem C52_independent : forall T w k cfg o paths paths' es es' c c' fs fs' f, check w k = Ok true -> distinct paths -> distinct paths' ->
  hls_main T w k cfg paths o = (es, Exits c) -> hls_main T w k cfg paths' o = (es', Exits c') ->
  paths f <> ""%string -> paths' f <> ""%string -> after es fs !! paths f = after es' fs' !! paths' f.
Proof.
  intros T w k cfg o paths paths' es es' c c' fs fs' f E D D' H H' R R'.
  destruct (C52_files T w k cfg paths o es c fs H E D) as (o1 & P & Q & S1 & B1 & C1 & F & _). destruct (C52_files T w k cfg paths' o es' c' fs' H' E D') as (o2 & P2 & Q2 & S2 & B2 & C2 & F' & _).
  rewrite S1 in S2. injection S2 as <-. rewrite B1 in B2. injection B2 as <-. rewrite C1 in C2. injection C2 as <-.
  destruct (F f R) as (l & -> & A). destruct (F' f R') as (l' & -> & A'). f_equal. exact (artefact_fun _ _ _ _ _ _ _ _ A A').
Qed.

(** the scheduler of the command line: ASAP with [-a], linear programming with [-l], pipelining
    with [--pipeline n] and without any of them, with 0 stages if no number is given *)
Theorem C52_scheduler : forall a, args_ok a = true ->
  (a_asap a = true -> o_sched (sched_opts a) = SASAP) /\
  (a_linear a = true -> o_sched (sched_opts a) = SLinear) /\
  (forall n, a_pipeline a = Some (Some n) -> sched_opts a = mkOpts SCombPipelining n) /\
  (a_asap a = false -> a_linear a = false -> (a_pipeline a = None \/ a_pipeline a = Some None) -> sched_opts a = mkOpts SCombPipelining 0).
Proof.
  intros a OK. unfold args_ok in OK. apply andb_true_iff in OK as [OK _]. apply Nat.leb_le in OK. unfold sched_opts, given in *.
  destruct (a_asap a), (a_linear a), (a_pipeline a) as [[n|]|]; cbn in *; try lia; repeat split; intros; try discriminate; try reflexivity; try congruence; destruct H1 as [H1|H1]; discriminate.
Qed.
(** the arguments: accepted iff at most one scheduler is named and at least one output is
    requested; the paths are those given, the documented default for an option without a
    value, and none for an option that is not there *)
Theorem C52_arguments : forall T read w k a,
  ((exists f, a_out a f <> None) /\
   ~ (a_asap a = true /\ a_linear a = true) /\ ~ (a_asap a = true /\ a_pipeline a <> None) /\ ~ (a_linear a = true /\ a_pipeline a <> None)
   <-> args_ok a = true) /\
  (args_ok a = false -> hls T read w k a = ([], Exits 106)) /\
  (args_ok a = true -> forall cfg, latency_config read a = Some cfg -> hls T read w k a = hls_main T w k cfg (out_paths a) (sched_opts a)) /\
  (forall f p, a_out a f = Some (Some p) -> out_paths a f = p) /\
  (forall f, a_out a f = Some None -> out_paths a f = default_path f /\ default_path f <> ""%string /\ forall g, default_path f = default_path g -> f = g) /\
  (forall f, a_out a f = None -> out_paths a f = ""%string).
Proof.
  intros T read w k a. split; [|split; [|split; [|split; [|split]]]].
  - unfold args_ok. rewrite andb_true_iff, Nat.leb_le, existsb_exists. unfold given. split.
    + intros ((f & H) & N1 & N2 & N3). split.
      * destruct (a_asap a), (a_linear a), (a_pipeline a); cbn; try lia; exfalso; (apply N1 + apply N2 + apply N3); split; (reflexivity || discriminate).
      * exists f. split; [destruct f; cbn; auto 10|]. destruct (a_out a f); [reflexivity|contradiction].
    + intros (N & f & _ & H). split; [exists f; intro E; rewrite E in H; discriminate H|].
      destruct (a_asap a), (a_linear a), (a_pipeline a); cbn in N; try lia; repeat split; intros (? & ?); congruence.
  - intro E. unfold hls. rewrite E. reflexivity.
  - intros E cfg L. unfold hls. rewrite E, L. reflexivity.
  - intros f p E. unfold out_paths. rewrite E. reflexivity.
  - intros f E. unfold out_paths. rewrite E. split; [reflexivity|]. destruct f; (split; [discriminate|]); intros []; cbn; intro X; (reflexivity || discriminate X).
  - intros f E. unfold out_paths. rewrite E. reflexivity.
Qed.
(** the overload of [compile] that takes a map from formats to paths and a scheduler does
    what the other does for the paths in the map, with 0 stages *)
Theorem C52_overload : forall T w k cfg m s, NoDup (map fst m) -> exists paths,
  (forall f p, (f, p) ∈ m -> paths f = p) /\ (forall f, f ∉ map fst m -> paths f = ""%string) /\
  compile_sched T w k cfg m s = compile T w k cfg paths (mkOpts s 0).
Proof.
  intros T w k cfg m s ND. exists (to_vector m).
  assert (G : forall l acc f, f ∉ map fst l -> fold_left (fun acc (p : fmt * string) => if bool_decide (fst p = f) then snd p else acc) l acc = acc).
  { induction l as [|[g q] l IH]; intros acc f N; [reflexivity|]. cbn in N |- *. rewrite bool_decide_false by (intros ->; apply N; left). apply IH. intro X. apply N. right. exact X. }
  split; [|split; [|reflexivity]].
  - unfold to_vector. generalize ""%string. induction m as [|[g q] l IH]; intros acc f p I; [apply elem_of_nil in I; contradiction|].
    cbn in ND. apply NoDup_cons in ND as [N ND]. apply elem_of_cons in I as [I|I].
    + injection I as <- <-. cbn. rewrite bool_decide_true by reflexivity. apply G, N.
    + cbn. apply (IH ND), I.
  - intros f N. apply G, N.
Qed.
Example C52_overload_case : NoDup (map fst [(DOT, "k.dot"%string); (FIRRTL, "k.fir"%string)]).
Proof. repeat (apply NoDup_cons; split; [intro X; repeat (apply elem_of_cons in X as [X|X]; [discriminate X|]); apply elem_of_nil in X; contradiction|]). apply NoDup_nil. exact I. Qed.
(** pipelining does not look at the latency configuration; with 0 stages the scheduled
    program is the unscheduled one *)
Theorem C52_pipelining : forall T w k cfg cfg' paths n,
  hls_main T w k cfg paths (mkOpts SCombPipelining n) = hls_main T w k cfg' paths (mkOpts SCombPipelining n) /\
  forall es c fs P, hls_main T w k cfg paths (mkOpts SCombPipelining 0) = (es, Exits c) -> check w k = Ok true -> distinct paths -> paths ScheduledDFCIR <> ""%string -> paths UnscheduledDFCIR <> ""%string ->
    after es fs !! paths UnscheduledDFCIR = Some [XDfcir P] -> after es fs !! paths ScheduledDFCIR = Some [XDfcir P] \/ (c = 1 /\ after es fs !! paths ScheduledDFCIR = Some []).
Proof.
  intros T w k cfg cfg' paths n. split; [reflexivity|]. intros es c fs P H E D R1 R2 A.
  destruct (C52_files T w k cfg paths _ es c fs H E D) as (o1 & P1 & Q & _ & _ & C1 & F & _ & CC). cbn in C1. injection C1 as <-.
  destruct (F _ R2) as (l & Hl & Al). rewrite A in Hl. injection Hl as <-. inversion Al; subst.
  destruct (F _ R1) as (l' & -> & Al'). inversion Al'; subst; auto; [|repeat match goal with X : _ ∈ _ :: _ |- _ => apply elem_of_cons in X as [X|X]; [discriminate X|] | X : _ ∈ [] |- _ => inversion X end].
  right. split; [|reflexivity]. unfold hls_main in H. rewrite E in H. destruct (compile _ _ _ _ _ _) as [? [[]|]]; cbn in H; try congruence. injection H as _ <-. exfalso. destruct (proj1 CC eq_refl) as [[V _] _]. contradiction.
Qed.

(** ** from the command line to the circuit *)
(** the kernel, with its constants and types, is one the selected scheduler handles *)
Definition supported (T : tools) (cfg : latcfg) (o : opts) (w : world) (P : program) : Prop :=
  match o_sched o with
  | SASAP => schedulable w /\ realizable w (node_latency (processor_cfg cfg))
  | SLinear => schedulable w /\ realizable w (node_latency (processor_cfg cfg)) /\ trusted_solver (t_solve T) (processor_cfg cfg) P
  | SCombPipelining => combinational w /\ realizable w no_latency /\ 0 <= o_stages o < 2 ^ 31
  end.
(** If the run exits with 0, the files hold a circuit (and its library) that computes the
    kernel's function *)
Theorem C52_circuit : forall F h w k order P T cfg paths o es fs,
  irun F init_world h = Ok w -> idisciplined F init_world h -> only_kernel w k -> complete w k -> sort_by (t_hash T) w k = Some (TSOk order) -> build w order = Ok P -> good_types F h ->
  (forall bs, t_perm T bs ≡ₚ bs) -> (forall l, Permutation (t_hash T l) l) -> distinct paths -> supported T cfg o w P -> hls_main T w k cfg paths o = (es, Exits 0) ->
  exists Q (delay_of : nat -> Z), shows w Q delay_of /\
    (paths FIRRTL <> ""%string -> after es fs !! paths FIRRTL = Some [XFirrtl Q]) /\
    (paths SVLibrary <> ""%string -> after es fs !! paths SVLibrary = Some [XLibrary (gen_library (ext_modules Q))]) /\
    (paths SystemVerilog <> ""%string -> exists s, t_verilog T Q = Some s /\ after es fs !! paths SystemVerilog = Some [XVerilog s]).
Proof.
  intros F h w k order P T cfg paths o es fs R D K C S EB GT PM PH DI SU H.
  assert (SO : sorts w k order) by exact (ex_intro _ (t_hash T) (conj PH S)).
  assert (Bu : built F h w order) by exact (ex_intro _ k (conj R (conj D (conj K (conj C SO))))).
  assert (CK : check w k = Ok true) by (unfold hls_main in H; destruct (check w k) as [[]| | |]; congruence).
  destruct (C52_files T w k cfg paths o es 0 fs H CK DI) as (o1 & P1 & Q & S1 & B1 & C1 & F1 & _ & CC). rewrite S in S1. injection S1 as <-. rewrite EB in B1. injection B1 as <-.
  destruct (proj1 CC eq_refl) as [AC VE]. exists Q.
  assert (X : exists dl, shows w Q dl).
  { unfold supported, schedule in *. destruct (o_sched o).
    - destruct SU as (Sc & RZ & TS). destruct (linear_pass _ _ _ P) as [[Q' L]|] eqn:E; [|discriminate C1]. injection C1 as ->.
      destruct (C50_linear F h w order _ _ _ P Q L Bu GT Sc RZ EB TS PM E) as (dl & _ & SH). eauto.
    - destruct SU as (Sc & RZ). destruct (asap_pass _ _ P) as [[Q' L]|] eqn:E; [|discriminate C1]. injection C1 as ->.
      destruct (C50_asap F h w order _ _ P Q L Bu GT Sc RZ EB PM E) as (dl & _ & SH). eauto.
    - destruct SU as (Co & RZ & N). destruct (decide (o_stages o = 0)) as [Z0|Z0].
      + rewrite Z0 in C1. exists (fun _ => 0). exact (C50_default F h w order _ _ _ P Q Bu GT Co RZ EB C1).
      + destruct (C50_pipelined F h w order _ _ (o_stages o) _ P Q Bu GT Co RZ EB PM ltac:(lia) C1) as (dl & _ & SH). eauto. }
  destruct X as (dl & SH). exists dl. split; [exact SH|].
  split; [|split]; intros N; destruct (F1 _ N) as (l & El & Al).
  - rewrite El. f_equal. refine (artefact_fun _ _ _ _ _ _ _ _ Al _). now constructor.
  - rewrite El. f_equal. refine (artefact_fun _ _ _ _ _ _ _ _ Al _). now constructor.
  - destruct (VE N) as (s & Es). exists s. split; [exact Es|]. rewrite El. f_equal. refine (artefact_fun _ _ _ _ _ _ _ _ Al _). now constructor.
Qed.

(** Conversely, a supported kernel that the verifier accepts goes through: the run does
    not crash, exits with 0 and writes all that is requested, if the numbers are small enough for
    the scheduler's 32-bit arithmetic and FIRRTL and CIRCT accept the circuit *)
Definition small (T : tools) (cfg : latcfg) (o : opts) (P : program) : Prop :=
  match o_sched o with
  | SASAP | SLinear => exists maxlat maxoff, bounded (processor_cfg cfg) P maxlat maxoff
  | SCombPipelining => rounding (t_rnd T) /\ (0 < t_eps T)%Q /\ Z.of_nat (length P) < 2 ^ 31
  end.
Lemma complete_check w k g : consistent w -> w_kern w !! k = Some g -> complete w k -> check w k = Ok true.
Proof.
  intros Co Hk C. unfold check. rewrite Hk. cbn. f_equal. apply forallb_forall. intros n Hn. apply elem_of_list_In in Hn. destruct (cs_member w Co k g n Hk Hn) as (nd & Hn' & M).
  pose proof (proj1 (C n nd Hn' M)). rewrite Hn'. destruct (n_op nd); congruence.
Qed.
Theorem C52_completes : forall F h w k order P T cfg paths o,
  irun F init_world h = Ok w -> idisciplined F init_world h -> only_kernel w k -> complete w k -> sort_by (t_hash T) w k = Some (TSOk order) -> build w order = Ok P -> good_types F h ->
  (forall bs, t_perm T bs ≡ₚ bs) -> (forall l, Permutation (t_hash T l) l) -> distinct paths -> supported T cfg o w P -> small T cfg o P ->
  offsets_plain w -> acceptable w ->
  (forall Q, schedule T cfg o P = Some Q -> t_firrtl T Q = true /\ exists s, t_verilog T Q = Some s) ->
  exists es, hls_main T w k cfg paths o = (es, Exits 0).
Proof.
  intros F h w k order P T cfg paths o R D K C S EB GT PM PH DI SU SM OP AC TL.
  assert (SO : sorts w k order) by exact (ex_intro _ (t_hash T) (conj PH S)).
  assert (Bu : built F h w order) by exact (ex_intro _ k (conj R (conj D (conj K (conj C SO))))).
  pose proof (irun_sound F h init_world w R (disciplined_instances F h _ D) init_sound) as [[Co _] _ _].
  assert (Hk : exists g, w_kern w !! k = Some g) by (unfold sort_by in S; destruct (w_kern w !! k) as [g|]; [eauto|discriminate S]). destruct Hk as [g Hk].
  destruct (C54_partial F h w order P Bu EB OP) as (V1 & V2 & V3 & _).
  assert (SQ : exists Q, schedule T cfg o P = Some Q /\ verified Q /\ no_offs Q).
  { unfold supported, small, schedule in *. destruct (o_sched o).
    - destruct SU as (Sc & RZ & TS). destruct SM as (ml & mo & BD). destruct (C24_completes F h w order _ _ (t_perm T) P ml mo Bu Sc EB TS BD PM) as (Q & E). exists Q. rewrite E. split; [reflexivity|]. split; [apply (V2 _ _ _ _ _ E); exact AC|].
      exact (go_offs _ _ _ (linear_goes F h w order R D K C SO P EB GT _ _ _ Q 0 RZ E)).
    - destruct SU as (Sc & RZ). destruct SM as (ml & mo & BD). destruct (C19_kernels_qualify F h w order P Bu Sc EB) as (A1 & A2 & A3).
      destruct (C19_pass_completes _ _ P ml mo A1 A2 A3 BD PM) as (Q & L & E). exists Q. rewrite E. split; [reflexivity|]. split; [apply (V1 _ _ _ _ E); exact AC|].
      exact (go_offs _ _ _ (asap_goes F h w order R D K C SO P EB GT _ _ Q L RZ E)).
    - destruct SU as (CO & RZ & N). destruct SM as (RD & EP & LN). destruct (C47_partial F h w order (t_rnd T) (t_eps T) (o_stages o) (t_perm T) P Bu CO EB RD EP PM N LN) as (Q & E). exists Q. split; [exact E|].
      split; [apply (V3 _ _ _ _ _ E); exact AC|]. exact (go_offs _ _ _ (comb_goes F h w order R D K C SO P EB GT _ _ _ _ Q CO RZ E)). }
  destruct SQ as (Q & SQ & VQ & NQ). destruct (TL Q SQ) as (TF & TV).
  assert (CK : check w k = Ok true) by (eapply complete_check; eauto).
  assert (BM : build_module T w k = Some P) by (unfold build_module; rewrite S, EB; reflexivity).
  assert (DD : exists d, compile_dot w (t_hash T) k = Ok d).
  { destruct (dot_elems_spec w Co (t_hash T (g_nodes g)) (∅, 0%nat)) as (es & st & E & _).
    - apply Forall_forall. intros n Hn. apply elem_of_list_In in Hn. apply elem_of_list_In in Hn. rewrite (PH (g_nodes g)) in Hn. destruct (cs_member w Co k g n Hk Hn) as (nd & Hn' & _). eauto.
    - split; cbn; intros *; rewrite lookup_empty; discriminate.
    - exists es. unfold compile_dot. rewrite Hk. cbn [of_opt rbind]. rewrite E. reflexivity. }
  destruct (compile T w k cfg paths o) as [es [b|]] eqn:CE.
  - assert (X : hls_main T w k cfg paths o = (es, Exits (exit_code b))) by (unfold hls_main; rewrite CK, CE; reflexivity).
    destruct (compile_spec T w k cfg paths o es b CE DI ∅) as (P' & Q' & B' & S' & _ & _ & BB). rewrite BM in B'. injection B' as <-. rewrite SQ in S'. injection S' as <-.
    assert (b = true) as -> by (apply BB; split; [split; [exact VQ|split; [exact NQ|exact TF]]|auto]). exists es. exact X.
  - exfalso. destruct (compile_crash T w k cfg paths o es CE) as [[X _]|(P' & B' & [[_ X]|X])]; [congruence|destruct DD as [d Hd]; exact (X d Hd)|].
    rewrite BM in B'. injection B' as <-. congruence.
Qed.

(** A kernel the verifier rejects (C54): the run exits with 1, the unscheduled program is
    there, and what the other requested files held before is lost *)
Theorem C52_failure : forall F h w k order P T cfg paths o es c fs Q,
  irun F init_world h = Ok w -> idisciplined F init_world h -> only_kernel w k -> complete w k -> sort_by (t_hash T) w k = Some (TSOk order) -> build w order = Ok P ->
  distinct paths -> hls_main T w k cfg paths o = (es, Exits c) -> schedule T cfg o P = Some Q -> ~ verified Q ->
  c = 1 /\ (paths UnscheduledDFCIR <> ""%string -> after es fs !! paths UnscheduledDFCIR = Some [XDfcir P]) /\
  forall f, f ∈ [SystemVerilog; SVLibrary; ScheduledDFCIR; FIRRTL] -> paths f <> ""%string -> after es fs !! paths f = Some [].
Proof.
  intros F h w k order P T cfg paths o es c fs Q R D K C S EB DI H SQ NV.
  pose proof (irun_sound F h init_world w R (disciplined_instances F h _ D) init_sound) as [[Co _] _ _].
  assert (Hk : exists g, w_kern w !! k = Some g) by (unfold sort_by in S; destruct (w_kern w !! k) as [g|]; [eauto|discriminate S]). destruct Hk as [g Hk].
  assert (CK : check w k = Ok true) by (eapply complete_check; eauto).
  destruct (C52_files T w k cfg paths o es c fs H CK DI) as (o1 & P1 & Q1 & S1 & B1 & C1 & F1 & _ & CC). rewrite S in S1. injection S1 as <-. rewrite EB in B1. injection B1 as <-. rewrite SQ in C1. injection C1 as <-.
  assert (NA : ~ accepted T Q) by (intros [V _]; contradiction). split; [|split].
  - unfold hls_main in H. rewrite CK in H. destruct (compile _ _ _ _ _ _) as [? [[]|]]; try discriminate H; injection H as _ <-; [|reflexivity]. destruct (proj1 CC eq_refl) as [A _]. contradiction.
  - intros N. destruct (F1 _ N) as (l & -> & A). f_equal. refine (artefact_fun _ _ _ _ _ _ _ _ A _). constructor.
  - intros f Hf N. destruct (F1 _ N) as (l & -> & A). f_equal. refine (artefact_fun _ _ _ _ _ _ _ _ A _).
    repeat (apply elem_of_cons in Hf as [->|Hf]; [first [apply art_no_dfcir; exact NV|apply art_no_circuit; [exact NA|repeat first [apply elem_of_list_here|apply elem_of_list_further]]]|]). inversion Hf.
Qed.

(** The exit code is not about the files: with the default scheduler, a kernel with an
    offset, of which only the unscheduled program is requested, is compiled into a complete
    file and the exit code 1 *)
Definition delay_h : list cmd := [ CType (TFixed false 8 0); CInput 0 false "x" 0; COffset 0 1 (-1); COutput 0 false "o" 0; CConnect 4 2 ].
Definition delay_P : program :=
  [ Def 1 (DIn false "x") VStream (TFixed false 8 0) (-1) []; Def 2 (DOffset (-1)) VStream (TFixed false 8 0) (-1) [1%nat];
    Def 4 (DOut false "o") VStream (TFixed false 8 0) (-1) []; Con 4 2 ].
Theorem C52_refuted : exists h w order P, built noflt0 (calls h) w order /\ schedulable w /\ build w order = Ok P /\
  forall T cfg paths fs, (forall l, Permutation (t_hash T l) l) -> paths UnscheduledDFCIR <> ""%string -> (forall f, f <> UnscheduledDFCIR -> paths f = ""%string) ->
    exists es, hls_main T w 0 cfg paths default_opts = (es, Exits 1) /\ after es fs = <[paths UnscheduledDFCIR := [XDfcir P]]> fs.
Proof.
  assert (Fl : flow_ok noflt0 delay_h delay_P (fun w => schedulableb w && match check w 0 with Ok b => b | _ => false end && match w_kern w !! 0%nat with Some g => bool_decide (g_starts g = [1%nat]) | None => false end) = true) by (vm_compute; reflexivity).
  destruct (flow_check_first _ _ _ _ Fl) as (w & o & R & D & K & C & S & B & X). clear Fl. rewrite !andb_true_iff in X. destruct X as [[X1 X2] X3]. apply schedulableb_sound in X1.
  exists delay_h, w, o, delay_P. split; [exact (ex_intro _ 0%nat (conj R (conj D (conj K (conj C (sort_sorts _ _ _ S))))))|]. split; [exact X1|]. split; [exact B|].
  intros T cfg paths fs PH RQ NR.
  assert (E1 : requested paths UnscheduledDFCIR = true) by now apply requested_iff.
  assert (E2 : forall f, f <> UnscheduledDFCIR -> requested paths f = false) by (intros f N; now apply requested_no, NR).
  assert (S' : sort_by (t_hash T) w 0 = Some (TSOk o)).
  { rewrite <- S. unfold sort_kernel, sort_by. destruct (w_kern w !! 0%nat) as [g|]; [|reflexivity]. apply bool_decide_eq_true in X3. specialize (PH (g_starts g)). rewrite X3 in *. symmetry in PH. apply Permutation_length_1_inv in PH. rewrite PH. reflexivity. }
  exists [Open (paths UnscheduledDFCIR); Write (paths UnscheduledDFCIR) (XDfcir delay_P)]. split.
  - unfold hls_main. destruct (check w 0) as [[]| | |]; try discriminate X2. unfold compile, build_module. rewrite S', B. unfold convert_and_print, on, formats. cbn [flat_map].
    rewrite E1, !E2 by discriminate. cbn [app run_passes sched_pass default_opts schedule o_sched o_stages].
    change (comb_pass (t_rnd T) (t_eps T) 0 (t_perm T) delay_P) with (Some delay_P). cbn [valid]. destruct (check_program verify_op ∅ delay_P); reflexivity.
  - cbn. rewrite lookup_insert. cbn. now rewrite insert_insert.
Qed.

(** the kernel of C50_case goes through with ASAP *)
Definition some_tools : tools :=
  {| t_solve := fun _ => (Failed, fun _ => 0%Q); t_rnd := fun q => q; t_eps := (1 # 10)%Q; t_perm := fun b => b; t_hash := fun l => l;
     t_firrtl := fun _ => true; t_verilog := fun _ => Some "module K();"%string; t_flt := noflt0 |}.
Definition some_args : hls_args :=
  {| a_config := None; a_asap := true; a_linear := false; a_pipeline := None;
     a_out := fun f => match f with SystemVerilog => Some (Some "k.sv"%string) | SVLibrary => Some None | DOT => Some None | _ => None end |}.
Example C52_case : exists w order es Q (delay_of : nat -> Z), built noflt0 (calls rt_h) w order /\
  supported some_tools no_cfg (sched_opts some_args) w rt_P /\ small some_tools no_cfg (sched_opts some_args) rt_P /\ distinct (out_paths some_args) /\
  hls some_tools (fun _ => None) w 0 some_args = (es, Exits 0) /\ shows w Q delay_of /\
  after es ∅ !! "k.sv"%string = Some [XVerilog "module K();"] /\ after es ∅ !! "output-lib.sv"%string = Some [XLibrary (gen_library (ext_modules Q))] /\
  after es ∅ !! "output.dot"%string <> None /\ after es ∅ !! "firrtl.mlir"%string = None.
Proof.
  assert (Fl : flow_ok noflt0 rt_h rt_P (fun w => schedulableb w && realizableb (node_latency (processor_cfg no_cfg)) w && streamsb w) = true) by (vm_compute; reflexivity).
  destruct (flow_check_first _ _ _ _ Fl) as (w & o & R & D & K & C & S & B & X). clear Fl. rewrite !andb_true_iff in X. destruct X as [[X1 X2] X3].
  apply schedulableb_sound in X1. apply realizableb_sound in X2. apply streamsb_sound in X3.
  assert (Bu : built noflt0 (calls rt_h) w o) by exact (ex_intro _ 0%nat (conj R (conj D (conj K (conj C (sort_sorts _ _ _ S)))))).
  destruct (C54_flat noflt0 rt_h w o Bu) as [OP AC].
  assert (DI : distinct (out_paths some_args)) by (intros [] []; cbn; intros N E; congruence).
  assert (SU : supported some_tools no_cfg (sched_opts some_args) w rt_P) by (split; assumption).
  assert (SM : small some_tools no_cfg (sched_opts some_args) rt_P).
  { exists 1, 2. split; try lia.
    - intros c l. unfold processor_cfg, cfg_set, no_cfg. destruct (ocls_eq_dec c OUndef); intro E; [injection E as <-; lia|discriminate E].
    - intros v d k t l a H. unfold rt_P in H. repeat (apply elem_of_cons in H as [H|H]; [try discriminate H; injection H; intros; subst; lia|]). inversion H.
    - reflexivity. }
  destruct (C52_completes noflt0 (calls rt_h) w 0%nat o rt_P some_tools no_cfg (out_paths some_args) (sched_opts some_args) R D K C S B rt_types ltac:(reflexivity)
      ltac:(reflexivity) DI SU SM OP (proj2 AC X3) ltac:(intros; split; [reflexivity|eexists; reflexivity])) as (es & HM).
  destruct (C52_circuit noflt0 (calls rt_h) w 0%nat o rt_P some_tools no_cfg (out_paths some_args) (sched_opts some_args) es ∅ R D K C S B rt_types ltac:(reflexivity) ltac:(reflexivity) DI SU HM) as (Q & dl & SH & _ & A2 & A3).
  assert (CK : check w 0 = Ok true) by (unfold hls_main in HM; destruct (check w 0) as [[]| | |]; congruence).
  destruct (C52_files some_tools w 0 no_cfg (out_paths some_args) (sched_opts some_args) es 0 ∅ HM CK DI) as (o1 & P1 & Q1 & _ & _ & _ & F1 & F2 & _).
  exists w, o, es, Q, dl. split; [exact Bu|]. split; [exact SU|]. split; [exact SM|]. split; [exact DI|]. split; [exact HM|]. split; [exact SH|].
  split; [destruct (A3 ltac:(discriminate)) as (s & Es & A); injection Es as <-; exact A|]. split; [exact (A2 ltac:(discriminate))|]. split.
  - destruct (F1 DOT ltac:(discriminate)) as (l & E & _). cbn in E. rewrite E. discriminate.
  - apply F2. intros []; cbn; congruence.
Qed.

(** ** the simulator *)
(** a run that ends: exit code 0 exactly if the input file could be read and the
    simulation succeeded, and then the output file holds the trace; if the input cannot be opened
    the output file is untouched, if the simulation fails it is left empty *)
Theorem C52_sim : forall T w k input out es c fs, sim_main T w k input out = (es, Exits c) ->
  (forall p, p <> out -> after es fs !! p = fs !! p) /\
  match input with
  | None => c = 1 /\ after es fs !! out = fs !! out
  | Some file => exists order, sort_by (t_hash T) w k = Some (TSOk order) /\
      ((exists v s, simulate (t_flt T) w order (t_hash T) file = Some (SOk (v, s)) /\ c = 0 /\ after es fs !! out = Some [XVcd v]) \/
       (simulate (t_flt T) w order (t_hash T) file = Some SFail /\ c = 1 /\ after es fs !! out = Some []))
  end.
Proof.
  intros T w k input out es c fs. unfold sim_main. destruct (sort_by (t_hash T) w k) as [[order| |]|]; try discriminate. destruct input as [file|].
  - destruct (simulate (t_flt T) w order (t_hash T) file) as [[[v s]| | |]|] eqn:E; intro H; try discriminate H; injection H as <- <-.
    + split; [intros p N; cbn; rewrite lookup_insert, !lookup_insert_ne by congruence; reflexivity|]. exists order. split; [reflexivity|]. left. exists v, s. split; [exact E|]. split; [reflexivity|]. cbn. rewrite !lookup_insert. reflexivity.
    + split; [intros p N; cbn; rewrite lookup_insert_ne by congruence; reflexivity|]. exists order. split; [reflexivity|]. right. split; [exact E|]. split; [reflexivity|]. cbn. rewrite lookup_insert. reflexivity.
  - intro H. injection H as <- <-. split; [reflexivity|]. split; reflexivity.
Qed.

Definition PropertiesDriver_theorems := (C52_untouched, C52_files, C52_independent, C52_scheduler, C52_arguments, C52_overload, C52_overload_case, C52_pipelining, C52_circuit, C52_completes, C52_failure, C52_refuted, C52_case, C52_sim).
Print Assumptions PropertiesDriver_theorems.
