(** * The verifier and kernels (proofs). *)
From Coq Require Import ZArith Bool String Lia.
From stdpp Require Import gmap list.
From Verif Require Import Instance InstanceSpec InstanceMain InstanceDrop InstanceFlow Types Word Value OpSpec Graph GraphSpec TypingSpec TypesProofs BuilderProofs2 BuilderTopo GraphFacts KernelSort TopSort Dfcir StreamSpec HwSpec
     Sched SchedSpec SchedFinal DfcirProofs SchedFacts Linear Pipeline PipelineSpec DfcirBuild KernelSpec KernelFlow ProgTyping RtlSpec RtlFlow RtlFacts Verify VerifySpec VerifyProofs.
Local Open Scope Z_scope.

(** the verifier but for offsets *)
Definition vchk (o : dop) (r : vtype) (a : list vtype) : bool := match o with DOffset _ => true | _ => verify_op o r a end.
Lemma ck_no_offs : forall P env, no_offs P -> check_program vchk env P = check_program verify_op env P.
Proof.
  induction P as [|[r o k t l a|d y] P IH]; intros env N; [reflexivity| |]; cbn;
    assert (NP : no_offs P) by (intros r' d' k' t' l' a' H; eapply N; right; exact H).
  - destruct (env !! r); [reflexivity|]. destruct (mapM _ a); [|reflexivity]. rewrite IH by exact NP. f_equal.
    destruct o; try reflexivity. exfalso. eapply N. left.
  - destruct (env !! d); [|reflexivity]. destruct (env !! y); [|reflexivity]. apply IH, NP.
Qed.
Section Kernel.
Variables (F : fltops) (h : list icmd) (w : world) (order : list nat).
Hypothesis R : irun F init_world h = Ok w.
Hypothesis D : idisciplined F init_world h.
Context {kern : nat}.
Hypothesis K1 : only_kernel w kern.
Hypothesis C : complete w kern.
Hypothesis S : sorts w kern order.
Variable P : program.
Hypothesis EP : build w order = Ok P.
Hypothesis OP : offsets_plain w.

Lemma plain_ty x : is_Some (w_nodes w !! x) -> Some (val_ty P x) = var_type w x.
Proof.
  destruct (flow_facts F h w order R D K1 C S) as (W & DR & ND & LV & TO & NP).
  destruct (build_spec w order W DR ND LV TO NP) as (P' & E' & ED & WP & CB & DD & DC). rewrite EP in E'. injection E' as <-.
  intros (nd & Hn). destruct (translate_op_total w W DR NP x nd Hn) as (o & a & T & X).
  destruct (result_typed w W x nd a Hn) as (t & Ht).
  assert (Hd : Def x o (n_vk (result_var w nd a)) t (-1) a ∈ P) by (apply DD; split; [apply LV; eauto|split; [exists nd; auto|reflexivity]]).
  unfold val_ty. rewrite (def_of_def _ _ _ _ _ _ _ (wp_defs _ WP) Hd). 
  assert (VR : forall n m, w_nodes w !! n = Some m -> w_types w !! n_ty m = Some t -> var_type w n = Some (n_vk m, t)) by (intros n m H1 H2; unfold var_type; rewrite H1, H2; reflexivity).
  assert ((exists d, n_op nd = OFFSET d) \/ forall d, n_op nd <> OFFSET d) as [(d & Eo)|NF] by (destruct (n_op nd); (left; eexists; reflexivity) || (right; discriminate)).
  - unfold translate_op in T. rewrite Eo in T. destruct (operands w x) as [|b bs] eqn:Eb; [discriminate|]. injection T as <- <-.
    assert (Hb : b ∈ operands w x) by (rewrite Eb; left). assert (OPx := OP x nd d b Hn Eo Hb); rewrite <- OPx.
    destruct (operands_live w x b (proj1 W) Hb) as ((nb & Hnb) & _). revert Ht. unfold result_var. rewrite Eo, Hnb. cbn. intro Ht. symmetry. apply VR; assumption.
  - rewrite result_other in * by exact NF. symmetry. apply VR; assumption.
Qed.
Lemma kernel_checks : (check_program vchk ∅ P = true <-> acceptable w) /\ plain P /\ NoDup (dests P).
Proof.
  destruct (flow_facts F h w order R D K1 C S) as (W & DR & ND & LV & TO & NP).
  destruct (build_spec w order W DR ND LV TO NP) as (P' & E' & ED & WP & CB & DD & DC). rewrite EP in E'. injection E' as <-.
  pose proof (wfp_scoped P WP) as SC.
  assert (ST : forall r o k t l a, Def r o k t l a ∈ P -> exists nd, w_nodes w !! r = Some nd /\ translate_op nd (operands w r) = Ok (o, a) /\ Some (k, t) = var_type w r /\
     (forall x, x ∈ a -> x ∈ operands w r) /\ (forall x, x ∈ a -> Some (val_ty P x) = var_type w x)).
  { intros r o k t l a H. pose proof H as H0. apply DD in H as (_ & (nd & Hn & _ & _ & T) & _). exists nd. split; [exact Hn|]. split; [exact T|].
    destruct (translate_op_total w W DR NP r nd Hn) as (o' & a' & T' & X). rewrite T in T'. injection T' as <- <-. split; [|split; [exact X|]].
    - rewrite <- plain_ty by eauto. unfold val_ty. rewrite (def_of_def _ _ _ _ _ _ _ (wp_defs _ WP) H0). reflexivity.
    - intros x Hx. apply plain_ty. eapply (operands_live w r x (proj1 W)). apply X. exact Hx. }
  split; [|split; [|exact (wp_dests _ WP)]].
  - rewrite (check_each vchk P SC). split.
    + intros H n nd Hn. destruct (translate_op_total w W DR NP n nd Hn) as (o & a & T & X). destruct (result_typed w W n nd a Hn) as (t & Ht).
      assert (Hd : Def n o (n_vk (result_var w nd a)) t (-1) a ∈ P) by (apply DD; split; [apply LV; eauto|split; [exists nd; auto|reflexivity]]).
      specialize (H _ _ _ _ _ _ Hd). destruct (ST _ _ _ _ _ _ Hd) as (nd' & Hn' & T' & V & _ & VA). rewrite Hn in Hn'. injection Hn' as <-. clear T'.
      unfold translate_op in T. destruct (ops_shape w W DR NP n nd Hn) as [(Eo & _)|(No & _ & AR)]; [rewrite Eo; exact Logic.I|]. destruct (n_op nd) eqn:Eo; try exact Logic.I; cbn in AR.
      * destruct (operands w n) as [|c arms]; [discriminate T|]. injection T as <- <-. intros c' arms' E2. injection E2 as -> ->. cbn in H.
        pose proof (VA c' ltac:(left)) as VC. destruct (val_ty P c') as [kc tc]. exists tc. rewrite <- VC. destruct kc; try discriminate H. reflexivity.
      * destruct (operands w n) as [|b [|]]; try discriminate AR. injection T as <- <-. intros x Hx. apply elem_of_list_singleton in Hx as ->. cbn in H. apply vtype_eqb_eq in H. rewrite <- V, <- (VA b ltac:(left)), H. reflexivity.
    + intros A r o k t l a H. destruct (ST _ _ _ _ _ _ H) as (nd & Hn & T & V & SUB & VA). specialize (A r nd Hn).
      assert (KV : n_op nd <> OFFSET 0 -> True) by auto. clear KV.
      unfold translate_op in T. pose proof (cs_const w (proj1 W) r nd Hn) as CC. unfold var_type in V. rewrite Hn in V. destruct (w_types w !! n_ty nd) as [t'|] eqn:Ht; [|discriminate]. injection V as -> ->.
      destruct (ops_shape w W DR NP r nd Hn) as [(Eo & _)|(No & _ & AR)].
      { rewrite Eo in T. injection T as <- <-. cbn. destruct (n_vk nd) eqn:Ev; try reflexivity. exfalso. destruct (proj2 CC eq_refl) as (v & X). congruence. }
      destruct (n_op nd) eqn:Eo; cbn in AR; try discriminate T; try congruence.
      all: try (injection T as <- <-; cbn; destruct (n_vk nd) eqn:Ev; try reflexivity; exfalso; destruct (proj2 CC eq_refl) as (v' & X); congruence).
      all: try (destruct (operands w r) as [|b [|b' [|]]] eqn:Eop; try discriminate AR; injection T as <- <-; reflexivity).
      * injection T as <- <-. cbn. rewrite (proj1 CC) by eauto. reflexivity.
      * destruct (operands w r) as [|c arms] eqn:Eop; [discriminate T|]. injection T as <- <-. destruct (A c arms eq_refl) as (tc & Hc). cbn. pose proof (VA c ltac:(left)) as VC. rewrite Hc in VC. injection VC as ->. reflexivity.
      * destruct (operands w r) as [|b [|]] eqn:Eop; try discriminate AR. injection T as <- <-. cbn. apply vtype_eqb_eq. pose proof (VA b ltac:(left)) as VC. rewrite (A b ltac:(left)) in VC. unfold var_type in VC. rewrite Hn, Ht in VC. injection VC as <-. reflexivity.
  - apply (check_each plain_chk P SC). intros r o k t l a H. destruct (ST _ _ _ _ _ _ H) as (nd & Hn & T & V & SUB & VA). destruct o; try reflexivity. cbn.
    pose proof (wp_off _ WP _ _ _ _ _ _ H) as L1. destruct a as [|s [|]]; try discriminate L1. cbn. apply vtype_eqb_eq.
    assert (n_op nd = OFFSET offset) as Eo by (unfold translate_op in T; destruct (n_op nd); try discriminate T; destruct (operands w r) as [|? [|]]; try discriminate T; congruence).
    pose proof (VA s ltac:(left)) as VC. rewrite (OP r nd _ s Hn Eo (SUB s ltac:(left))), <- V in VC. congruence.
Qed.
End Kernel.

(** ** After a scheduler *)
Lemma erase_kept P v : NoDup (defs P) -> forall r o k t l a, Def r o k t l a ∈ erase_offset P v -> 
  (exists a0, Def r o k t l a0 ∈ P /\ length a0 = length a) /\ (forall d, o = DOffset d -> (forall r d k t l a, Def r (DOffset d) k t l a ∈ P -> a <> []) -> r <> v).
Proof.
  intros ND r o k t l a H. unfold erase_offset in H.
  assert (NV : Def r o k t l a ∈ P -> (forall d k t l s a, Def v (DOffset d) k t l (s :: a) ∉ P) -> (forall r d k t l a, Def r (DOffset d) k t l a ∈ P -> a <> []) -> forall d, o = DOffset d -> r <> v).
  { intros H' N1 N2 d -> ->. destruct a as [|x a]; [exact (N2 _ _ _ _ _ _ H' eq_refl)|exact (N1 _ _ _ _ _ _ H')]. }
  assert (DU : forall o1 k1 t1 l1 a1 o2 k2 t2 l2 a2, def_of P v = Some (o1, k1, t1, l1, a1) -> Def v o2 k2 t2 l2 a2 ∈ P -> o1 = o2 /\ a1 = a2).
  { intros o1 k1 t1 l1 a1 o2 k2 t2 l2 a2 E H'. rewrite (def_of_def _ _ _ _ _ _ _ ND H') in E. injection E as -> _ _ _ ->. auto. }
  destruct (def_of P v) as [[[[[o0 k0] t0] l0] args]|] eqn:E.
  2: { split; [eauto|]. intros d Eo N2. eapply NV; [exact H| |exact N2|exact Eo]. intros d' k' t' l' s' a' H'. rewrite (def_of_def _ _ _ _ _ _ _ ND H') in E. discriminate. }
  assert (G : (forall d s a', (o0, args) <> (DOffset d, s :: a')) -> (Def r o k t l a ∈ P -> (exists a0, Def r o k t l a0 ∈ P /\ length a0 = length a) /\
     (forall d, o = DOffset d -> (forall r d k t l a, Def r (DOffset d) k t l a ∈ P -> a <> []) -> r <> v))).
  { intros N1 H'. split; [eauto|]. intros d Eo N2. eapply NV; [exact H'| |exact N2|exact Eo]. intros d' k' t' l' s' a' H2. destruct (DU _ _ _ _ _ _ _ _ _ _ eq_refl H2) as [-> ->]. eapply N1. reflexivity. }
  destruct o0; try (apply G; [discriminate|exact H]). destruct args as [|s args]; [apply G; [discriminate|exact H]|]. clear G.
  apply elem_of_list_fmap in H as (st & Es & H). apply elem_of_list_In, List.filter_In in H as [H X]. apply elem_of_list_In in H. destruct st as [r' o' k' t' l' a'|]; [|discriminate]. injection Es as -> -> -> -> -> ->.
  split; [exists a'; split; [exact H|rewrite map_length; reflexivity]|]. intros d _ _ ->. cbn in X. rewrite Nat.eqb_refl in X. discriminate.
Qed.
Lemma plain_no_offs P : plain P -> no_offs (erase_offsets P).
Proof.
  intro PL. unfold erase_offsets.
  assert (X : forall r d k t l a, Def r (DOffset d) k t l a ∈ P -> r ∈ offset_ids P).
  { intros r d k t l a H. apply elem_of_list_omap. exists (Def r (DOffset d) k t l a). split; [exact H|reflexivity]. }
  revert PL X. generalize (offset_ids P). intro ids. revert P. induction ids as [|v ids IH]; intros P PL X; cbn.
  - intros r d k t l a H. apply X in H. inversion H.
  - pose proof (plain_scoped P PL) as SC. apply IH.
    + unfold plain. rewrite erase_check; [exact PL| |exact SC|exact (plain_offsets P PL)]. intros d r. cbn. apply vtype_eqb_eq. reflexivity.
    + intros r d k t l a H. destruct (erase_kept P v (scoped_defs P SC) _ _ _ _ _ _ H) as [(a0 & H0 & _) N].
      assert (r <> v) as Nr. { apply (N d eq_refl). intros r' d' k' t' l' a' H'. destruct (plain_offsets P PL _ _ _ _ _ _ H') as (s & -> & _). discriminate. }
      apply X in H0. apply elem_of_cons in H0 as [->|H0]; [congruence|exact H0].
Qed.
(** ** What is a stream, in every history *)
Definition kinds_by (w : world) : Prop := forall n nd, w_nodes w !! n = Some nd -> match n_op nd with OFFSET _ | UN _ | MUX => n_vk nd = VStream | _ => True end.
Section KStep.
Variables (w w' : world) (r : nat).
Hypothesis T : kinds_by w.
Hypothesis P : preserved w w' r.
Lemma kb_old n nd : (n = r -> is_Some (w_nodes w !! n)) -> w_nodes w' !! n = Some nd -> match n_op nd with OFFSET _ | UN _ | MUX => n_vk nd = VStream | _ => True end.
Proof.
  intros Hr Hn. pose proof P as (P1 & P2 & P3 & P4). assert (X : is_Some (w_nodes w !! n)) by (destruct (decide (n = r)); [auto|apply (P4 n); eauto]). destruct X as (nd0 & H0).
  destruct (P1 n nd0 H0) as (nd' & Hn' & (O & Ty & K & _)). rewrite Hn in Hn'. injection Hn' as <-. rewrite <- O, <- K. exact (T n nd0 H0).
Qed.
Lemma kb_new k o ty vk nm args : new_node w w' r k o ty vk nm args -> match o with OFFSET _ | UN _ | MUX => vk = VStream | _ => True end -> kinds_by w'.
Proof.
  intros (N & (nd0 & Hr & Ho & Hty & Hk & _) & I & L) HT n nd Hn. destruct (decide (n = r)) as [->|Nr]; [|apply (kb_old n); [congruence|exact Hn]].
  rewrite Hr in Hn. injection Hn as <-. rewrite Ho, Hk. exact HT.
Qed.
Lemma kb_const t v : const_result w w' r t v -> kinds_by w'.
Proof.
  intros ((nd0 & Hr & _ & Ho & Hty) & [->|(N & I & _)]); [exact T|].
  intros n nd Hn. destruct (decide (n = r)) as [->|Nr]; [|apply (kb_old n); [congruence|exact Hn]]. rewrite Hr in Hn. injection Hn as <-. rewrite Ho. exact Logic.I.
Qed.
Lemma kb_step F c : call_post F w c w' r -> kinds_by w'.
Proof.
  intro E. destruct c; cbn in E.
  - destruct E as (_ & _ & N & C). intros n nd. rewrite N. apply T.
  - destruct E as (_ & _ & N & C). intros n nd. rewrite N. apply T.
  - destruct E as (t & _ & N). exact (kb_new _ _ _ _ _ _ N Logic.I).
  - destruct E as (t & _ & N). exact (kb_new _ _ _ _ _ _ N Logic.I).
  - destruct E as (t & _ & N). exact (kb_new _ _ _ _ _ _ N Logic.I).
  - destruct E as (t & _ & N). exact (kb_const _ _ N).
  - destruct E as [(ta & tb & va & vb & v & _ & _ & _ & N)|(ta & Ha & _ & N)]; [exact (kb_const _ _ N)|exact (kb_new _ _ _ _ _ _ N Logic.I)].
  - destruct E as [(ta & va & v & _ & _ & N)|(ta & Ha & _ & N)]; [exact (kb_const _ _ N)|exact (kb_new _ _ _ _ _ _ N eq_refl)].
  - destruct E as [(ta & va & v & _ & N & _)|(ta & Ha & _ & N)]; [exact (kb_const _ _ N)|]. eapply kb_new; [exact N|]. destruct left; exact Logic.I.
  - destruct E as (ta & Ha & Hb & N). exact (kb_new _ _ _ _ _ _ N Logic.I).
  - destruct E as (ta & tb & Ha & Hb & N). exact (kb_new _ _ _ _ _ _ N Logic.I).
  - destruct E as (t & Ht & [(_ & -> & _)|N]); [exact T|exact (kb_new _ _ _ _ _ _ N Logic.I)].
  - destruct E as (a0 & rest & t & -> & Ha & N). exact (kb_new _ _ _ _ _ _ N eq_refl).
  - destruct E as (t & nd & Ha & Hn & Hk & N). eapply kb_new; [exact N|reflexivity].
  - destruct E as (Er & La & Lb & I & LV). intros n nd Hn. apply (kb_old n); [intros ->; rewrite Er; exact La|exact Hn].
Qed.
End KStep.
Lemma irun_kinds F : forall h w w', irun F w h = Ok w' -> instances_ok F w h -> sound w -> kinds_by w -> kinds_by w'.
Proof.
  induction h as [|c h IH]; intros w w' E D S T; cbn [irun instances_ok] in E, D; [injection E as <-; exact T|].
  destruct (istep F w c) as [[w1 r]| | |] eqn:Hx; try discriminate E. cbn in E. destruct D as [D1 D2]. assert (S1 : sound w1) by (eapply istep_sound; eauto). apply (IH w1 w' E D2 S1).
  destruct S as [W N L]. destruct c as [c|p k bs|k].
  - cbn in Hx. destruct (step F w c) as [[w2 r2]| | |] eqn:HS; try discriminate Hx. cbn in Hx. injection Hx as <- _. destruct (step_ext F _ _ _ _ HS W) as [[_ P] Q]. exact (kb_step w w2 r2 T P F c Q).
  - destruct (instance_runs w p k bs W N L D1) as (w2 & rs & σ & H). change (do_instance w p k bs = Ok (w1, r)) in Hx. rewrite (in_run _ _ _ _ _ _ _ H) in Hx. injection Hx as <- <-.
    intros n x Hn. destruct (in_back _ _ _ _ _ _ _ H n x Hn) as (y & Hy & _ & Eo & _ & Ek & _). rewrite Eo, Ek. exact (T n y Hy).
  - destruct (drop_runs w k W N L D1) as (w2 & H). cbn in Hx. rewrite (dd_run _ _ _ H) in Hx. injection Hx as <- <-.
    intros n x Hn. rewrite (dd_nodes _ _ _ H) in Hn. destruct (w_nodes w !! n) as [y|] eqn:Hy; [|discriminate]. destruct (decide _); [discriminate|]. injection Hn as <-. exact (T n y Hy).
Qed.

(** if offsets are streams *)
Lemma stream_check P : check_program vchk ∅ P = true -> plain P -> (forall r d k t l a, Def r (DOffset d) k t l a ∈ P -> k = VStream) -> verified P.
Proof.
  intros V PL ST. assert (SC : scoped P) by exact (plain_scoped P PL). unfold verified. apply (check_each verify_op P SC). intros r o k t l a H.
  pose proof (proj1 (check_each vchk P SC) V _ _ _ _ _ _ H) as X. destruct o; try exact X. cbn.
  destruct (plain_offsets P PL _ _ _ _ _ _ H) as (s & -> & E). cbn. rewrite E. rewrite (ST _ _ _ _ _ _ H). reflexivity.
Qed.
Lemma verified_check P : verified P -> scoped P -> check_program vchk ∅ P = true.
Proof. intros V SC. apply (check_each vchk P SC). intros r o k t l a H. pose proof (proj1 (check_each verify_op P SC) V _ _ _ _ _ _ H) as X. destruct o; try exact X. reflexivity. Qed.

Section Schedulers.
Variables (F : fltops) (h : list icmd) (w : world) (order : list nat).
Hypothesis R : irun F init_world h = Ok w.
Hypothesis D : idisciplined F init_world h.
Context {kern : nat}.
Hypothesis K1 : only_kernel w kern.
Hypothesis C : complete w kern.
Hypothesis S : sorts w kern order.
Variable P : program.
Hypothesis EP : build w order = Ok P.
Hypothesis OP : offsets_plain w.
Lemma vbuffers r a : vchk DLatency r [a] = true.
Proof. reflexivity. Qed.
Lemma voffsets d r : vchk (DOffset d) r [r] = true.
Proof. reflexivity. Qed.
Lemma buffered_verified cfg bs P2 : insert_buffers (apply_config cfg P) bs (fresh (apply_config cfg P)) = Some P2 -> verified (erase_offsets P2) <-> acceptable w.
Proof.
  intro E. destruct (kernel_checks F h w order R D K1 C S P EP OP) as (A & PL & DN).
  destruct (buffered_check vchk vbuffers voffsets cfg bs P P2 PL DN E) as [_ H]. destruct (buffered_check plain_chk (fun _ _ => eq_refl) (fun d r => proj2 (vtype_eqb_eq r r) eq_refl) cfg bs P P2 PL DN E) as [H2 _].
  assert (PL2 : plain P2) by (unfold plain; rewrite H2; exact PL). unfold verified. rewrite <- ck_no_offs by (apply plain_no_offs; exact PL2). rewrite H. exact A.
Qed.
Lemma asap_verified cfg perm Q L : asap_pass cfg perm P = Some (Q, L) -> verified Q <-> acceptable w.
Proof.
  intro E. unfold asap_pass in E. destruct (sgraph _) as [[ns cs]|]; [|discriminate]. destruct (asap ns cs) as [[[mm bs] mx]|]; [|discriminate].
  destruct (insert_buffers _ _ _) as [P2|] eqn:E2; [|discriminate]. injection E as <- _. eapply buffered_verified. exact E2.
Qed.
Lemma linear_verified solve cfg perm Q L : linear_pass solve cfg perm P = Some (Q, L) -> verified Q <-> acceptable w.
Proof.
  intro E. unfold linear_pass in E. destruct (sgraph _) as [[ns cs]|]; [|discriminate]. destruct (lp_schedule _ _ _) as [bs|]; [|discriminate].
  destruct (insert_buffers _ _ _) as [P2|] eqn:E2; [|discriminate]. injection E as <- _. eapply buffered_verified. exact E2.
Qed.
Lemma kernel_no_offs : (forall n nd d, w_nodes w !! n = Some nd -> n_op nd <> OFFSET d) -> no_offs P.
Proof.
  intro NO. destruct (flow_facts F h w order R D K1 C S) as (W & DR & ND & LV & TO & NP).
  destruct (build_spec w order W DR ND LV TO NP) as (P' & E' & ED & WP & CB & DD & DC). rewrite EP in E'. injection E' as <-.
  intros r d k t l a H. apply DD in H as (_ & (nd & Hn & _ & Ht & T) & _). unfold translate_op in T.
  destruct (n_op nd) eqn:Eo; try discriminate T; try (destruct (operands w r) as [|? [|]]; discriminate T).
  exact (NO _ _ _ Hn Eo).
Qed.
(** the pipeliner only inserts buffers *)
Lemma comb_same rnd eps n perm Q : comb_pass rnd eps n perm P = Some Q -> (verified Q <-> verified P) /\ (plain P -> plain Q).
Proof.
  clear OP. intro E. unfold comb_pass in E. destruct (Z.eqb_spec n 0); [injection E as <-; tauto|].
  destruct (flow_facts F h w order R D K1 C S) as (W & DR & ND & LV & TO & NP).
  destruct (build_spec w order W DR ND LV TO NP) as (P' & E' & ED & WP & CB & DD & DC). rewrite EP in E'. injection E' as <-.
  pose proof (wfp_scoped P WP) as SC. pose proof (wp_dests _ WP) as DN.
  destruct (cgraph _) as [[ns cs]|]; [|discriminate]. destruct (comb_layers _ _) as [mm mx]. destruct (cascades _ _ _ _) as [ks|]; [|discriminate].
  destruct (comb_buffers _ _ _ _) as [bs|]; [|discriminate].
  assert (SC1 : forall cfg, scoped (apply_config cfg P)) by (intro cfg; unfold scoped; rewrite cfg_check; exact SC).
  assert (DN1 : forall cfg, NoDup (dests (apply_config cfg P))) by (intro cfg; rewrite cfg_dests; exact DN).
  destruct (inserts_check verify_op (fun _ _ => eq_refl) _ _ _ _ (SC1 _) (DN1 _) (fresh_lt _) E) as [H1 _]. destruct (inserts_plain _ _ _ _ (SC1 _) (DN1 _) (fresh_lt _) E) as [H2 _].
  rewrite cfg_check in H1, H2. unfold verified, plain. rewrite H1, H2. tauto.
Qed.
Lemma unscheduled_verified : verified P <-> acceptable w.
Proof.
  destruct (kernel_checks F h w order R D K1 C S P EP OP) as (A & PL & _). rewrite <- A. split; intro V.
  - apply verified_check; [exact V|exact (plain_scoped P PL)].
  - apply stream_check; [exact V|exact PL|]. intros r d k t l a H.
    destruct (flow_facts F h w order R D K1 C S) as (W & DR & ND & LV & TO & NP).
    destruct (build_spec w order W DR ND LV TO NP) as (P' & E' & ED & WP & CB & DD & DC). rewrite EP in E'. injection E' as <-.
    assert (ST : kinds_by w) by (apply (irun_kinds F h _ _ R (disciplined_instances F h _ D) init_sound); intros n nd Hn; cbn in Hn; rewrite lookup_empty in Hn; discriminate).
    pose proof H as H0. apply DD in H as (_ & (nd & Hn & Ht & Hk & T) & _). specialize (ST r nd Hn). unfold translate_op in T.
    destruct (n_op nd) eqn:Eo; try discriminate T; try (destruct (operands w r) as [|? [|]]; discriminate T).
    assert (VT : Some (val_ty P r) = var_type w r) by (apply (plain_ty F h w order R D K1 C S P EP); eauto).
    unfold val_ty in VT. rewrite (def_of_def _ _ _ _ _ _ _ (wp_defs _ WP) H0) in VT. unfold var_type in VT. rewrite Hn in VT. destruct (w_types w !! n_ty nd); [|discriminate]. injection VT as -> _. exact ST.
Qed.
Lemma comb_verified rnd eps n perm Q : comb_pass rnd eps n perm P = Some Q -> verified Q <-> acceptable w.
Proof. intro E. rewrite <- unscheduled_verified. exact (proj1 (comb_same _ _ _ _ _ E)). Qed.
End Schedulers.

(** ** Kernels without instances *)
Definition streams_by (w : world) : Prop := forall n nd, w_nodes w !! n = Some nd ->
  match n_op nd with
  | OFFSET _ => n_vk nd = VStream /\ exists a rest na, operands w n = a :: rest /\ w_nodes w !! a = Some na /\ n_vk na = VStream
  | UN _ | MUX => n_vk nd = VStream
  | _ => True
  end.
Section Step.
Variables (w w' : world) (r : nat).
Hypothesis CW : consistent w.
Hypothesis T : streams_by w.
Hypothesis P : preserved w w' r.
Definition sbn (w : world) n (nd : node) : Prop :=
  match n_op nd with
  | OFFSET _ => n_vk nd = VStream /\ exists a rest na, operands w n = a :: rest /\ w_nodes w !! a = Some na /\ n_vk na = VStream
  | UN _ | MUX => n_vk nd = VStream
  | _ => True
  end.
Lemma sb_mono n nd nd' more : w_nodes w !! n = Some nd -> n_op nd = n_op nd' -> n_vk nd = n_vk nd' -> operands w' n = operands w n ++ more -> sbn w' n nd'.
Proof.
  intros Hn O K E. pose proof (T n nd Hn) as X. unfold sbn. rewrite <- O, <- K, E. destruct (n_op nd); try exact X. destruct X as (X1 & a & rest & na & X2 & X3 & X4). split; [exact X1|].
  destruct P as (P1 & _). destruct (P1 a na X3) as (na' & Hn' & (_ & _ & K' & _)). exists a, (rest ++ more), na'. rewrite X2. split; [reflexivity|]. split; [exact Hn'|congruence].
Qed.
Lemma sb_old n nd : n <> r -> w_nodes w' !! n = Some nd -> sbn w' n nd.
Proof.
  intros Hr Hn. pose proof P as (P1 & P2 & P3 & P4). destruct (P4 n ltac:(eauto) Hr) as (nd0 & H0).
  destruct (P1 n nd0 H0) as (nd' & Hn' & (O & Ty & K & _)). rewrite Hn in Hn'. injection Hn' as <-.
  apply (sb_mono n nd0 nd [] H0 O K). unfold operands. rewrite (P2 n ltac:(eauto) Hr), app_nil_r. reflexivity.
Qed.
Lemma sb_new k o ty vk nm args : new_node w w' r k o ty vk nm args ->
  match o with OFFSET _ => vk = VStream /\ exists a na, args = [a] /\ w_nodes w !! a = Some na /\ n_vk na = VStream | UN _ | MUX => vk = VStream | _ => True end -> streams_by w'.
Proof.
  intros (N & (nd0 & Hr & Ho & Hty & Hk & _) & I & L) HT n nd Hn. destruct (decide (n = r)) as [->|Nr]; [|apply sb_old; assumption].
  rewrite Hr in Hn. injection Hn as <-. rewrite Ho, Hk. destruct o; try exact HT. destruct HT as (X1 & a & na & -> & X3 & X4). split; [exact X1|].
  destruct P as (P1 & _). destruct (P1 a na X3) as (na' & Hn' & (_ & _ & K' & _)). exists a, [], na'. split; [|split; [exact Hn'|congruence]].
  unfold operands. rewrite I. reflexivity.
Qed.
Lemma sb_const t v : const_result w w' r t v -> streams_by w'.
Proof.
  intros ((nd0 & Hr & _ & Ho & Hty) & [->|(N & I & _)]); [exact T|].
  intros n nd Hn. destruct (decide (n = r)) as [->|Nr]; [|apply sb_old; assumption]. rewrite Hr in Hn. injection Hn as <-. rewrite Ho. exact Logic.I.
Qed.
Lemma sb_same : w_nodes w' = w_nodes w -> w_chans w' = w_chans w -> streams_by w'.
Proof. intros N C n nd Hn. rewrite N in Hn. apply (sb_mono n nd nd [] Hn eq_refl eq_refl). rewrite app_nil_r. unfold operands, in_chans. rewrite N, C. reflexivity. Qed.
Lemma sb_step F c : call_post F w c w' r -> streams_by w'.
Proof.
  intro E. destruct c; cbn in E.
  - destruct E as (_ & _ & N & C). apply sb_same; assumption.
  - destruct E as (_ & _ & N & C). apply sb_same; assumption.
  - destruct E as (t & _ & N). exact (sb_new _ _ _ _ _ _ N Logic.I).
  - destruct E as (t & _ & N). exact (sb_new _ _ _ _ _ _ N Logic.I).
  - destruct E as (t & _ & N). exact (sb_new _ _ _ _ _ _ N Logic.I).
  - destruct E as (t & _ & N). exact (sb_const _ _ N).
  - destruct E as [(ta & tb & va & vb & v & _ & _ & _ & N)|(ta & Ha & _ & N)]; [exact (sb_const _ _ N)|exact (sb_new _ _ _ _ _ _ N Logic.I)].
  - destruct E as [(ta & va & v & _ & _ & N)|(ta & Ha & _ & N)]; [exact (sb_const _ _ N)|exact (sb_new _ _ _ _ _ _ N eq_refl)].
  - destruct E as [(ta & va & v & _ & N & _)|(ta & Ha & _ & N)]; [exact (sb_const _ _ N)|]. eapply sb_new; [exact N|]. destruct left; exact Logic.I.
  - destruct E as (ta & Ha & Hb & N). exact (sb_new _ _ _ _ _ _ N Logic.I).
  - destruct E as (ta & tb & Ha & Hb & N). exact (sb_new _ _ _ _ _ _ N Logic.I).
  - destruct E as (t & Ht & [(_ & -> & _)|N]); [exact T|exact (sb_new _ _ _ _ _ _ N Logic.I)].
  - destruct E as (a0 & rest & t & -> & Ha & N). exact (sb_new _ _ _ _ _ _ N eq_refl).
  - destruct E as (t & nd & Ha & Hn & Hk & N). eapply sb_new; [exact N|]. split; [reflexivity|eauto].
  - destruct E as (Er & La & Lb & I & LV). intros n nd Hn. destruct (decide (n = r)) as [->|Nr]; [|apply sb_old; assumption]. rewrite Er in Hn |- *.
    destruct La as (nd0 & H0). pose proof P as (P1 & _). destruct (P1 a nd0 H0) as (nd' & Hn' & (O & Ty & K & _)). rewrite Hn in Hn'. injection Hn' as <-.
    apply (sb_mono a nd0 nd [b] H0 O K). unfold operands. rewrite I, map_app. reflexivity.
Qed.
End Step.
Lemma run_streams F : forall h w w', run F w h = Ok w' -> WF w -> streams_by w -> streams_by w'.
Proof.
  induction h as [|c h IH]; intros w w' R W T; cbn in R; [injection R as <-; exact T|].
  destruct (step F w c) as [[w1 r]| | |] eqn:S; try discriminate R. cbn in R.
  destruct (step_ext F _ _ _ _ S W) as [[W1 P] Q]. eapply IH; [exact R|exact W1|]. eapply sb_step; [exact T|exact P|exact Q].
Qed.
Section Flat.
Variables (F : fltops) (hc : list cmd) (w : world) (order : list nat).
Notation h := (map ICall hc).
Hypothesis R : irun F init_world h = Ok w.
Hypothesis D : idisciplined F init_world h.
Context {kern : nat}.
Hypothesis K1 : only_kernel w kern.
Hypothesis C : complete w kern.
Hypothesis S : sorts w kern order.
Lemma flat_facts : (forall n nd, w_nodes w !! n = Some nd -> match n_op nd with OFFSET _ | UN _ => exists a na, operands w n = [a] /\ w_nodes w !! a = Some na /\ var_type w a = match var_type w n with Some (_, t) => Some (n_vk na, t) | None => None end | _ => True end) /\ streams_by w.
Proof.
  destruct (flow_facts F h w order R D K1 C S) as (W & DR & ND & LV & TO & NP). assert (R2 := R). rewrite InstanceFlow.irun_calls in R2.
  pose proof (TypingProofs.run_typed F hc init_world w R2 init_WF TypingProofs.init_typed) as WT.
  split; [|apply (run_streams F hc init_world w R2 init_WF); intros n nd Hn; cbn in Hn; rewrite lookup_empty in Hn; discriminate].
  intros n nd Hn. destruct (ops_shape w W DR NP n nd Hn) as [(Eo & _)|(No & _ & AR)]; [rewrite Eo; exact Logic.I|].
  destruct (cs_type w (proj1 W) n nd Hn) as (t & Ht). destruct (WT n nd t Hn Ht) as (ts & F2 & TY).
  assert (G : (exists rest, ts = t :: rest) -> length (operands w n) = 1%nat -> exists a na, operands w n = [a] /\ w_nodes w !! a = Some na /\ var_type w a = match var_type w n with Some (_, t) => Some (n_vk na, t) | None => None end).
  { intros (rest & ->) L. destruct (operands w n) as [|a [|]]; try discriminate L. inversion F2 as [|? ? ? ? Ha _]. subst. unfold type_of in Ha. destruct (w_nodes w !! a) as [na|] eqn:Ea; [|discriminate].
    exists a, na. split; [reflexivity|]. split; [exact Ea|]. unfold var_type. rewrite Ea, Ha, Hn, Ht. reflexivity. }
  destruct (n_op nd); try exact Logic.I; exact (G TY AR).
Qed.
Lemma flat_plain : offsets_plain w.
Proof.
  destruct flat_facts as [H ST]. intros n nd d a Hn Eo Ha. specialize (H n nd Hn). specialize (ST n nd Hn). rewrite Eo in H, ST. destruct H as (b & nb & Eb & Hb & V). destruct ST as (K & a' & rest & na & E2 & Hna & Ka).
  rewrite Eb in E2. injection E2 as <- <-. rewrite Hb in Hna. injection Hna as <-. rewrite Eb in Ha. apply elem_of_list_singleton in Ha as ->. rewrite V. unfold var_type. rewrite Hn. destruct (w_types w !! n_ty nd); [|reflexivity]. rewrite K, Ka. reflexivity.
Qed.
Lemma flat_acceptable : acceptable w <-> stream_operands w.
Proof.
  destruct flat_facts as [H ST]. destruct (flow_facts F h w order R D K1 C S) as (W & DR & ND & LV & TO & NP). unfold acceptable, stream_operands. split; intros A n nd Hn; specialize (A n nd Hn); specialize (H n nd Hn); specialize (ST n nd Hn); destruct (n_op nd) eqn:Eo; try exact Logic.I.
  - destruct (ops_shape w W DR NP n nd Hn) as [(X & _)|(_ & _ & AR)]; [congruence|]. rewrite Eo in AR. cbn in AR. destruct (operands w n) as [|c arms] eqn:Ec; [cbn in AR; lia|]. destruct (A c arms eq_refl) as (t & V). unfold var_type in V.
    destruct (w_nodes w !! c) as [nc|] eqn:Hc; [|discriminate]. destruct (w_types w !! n_ty nc); [|discriminate]. exists c, arms, nc. split; [reflexivity|]. split; [exact Hc|congruence].
  - destruct H as (a & na & Ea & Ha & V). exists a, [], na. split; [exact Ea|]. split; [exact Ha|]. rewrite (A a ltac:(rewrite Ea; left)) in V. unfold var_type in V. rewrite Hn in V. destruct (w_types w !! n_ty nd) eqn:Et; [congruence|].
    destruct (cs_type w (proj1 W) n nd Hn) as (t & Ht). congruence.
  - destruct A as (a & rest & na & Ea & Ha & K). intros c arms E. rewrite Ea in E. injection E as <- <-. destruct (cs_type w (proj1 W) a na Ha) as (t & Ht). exists t. unfold var_type. rewrite Ha, Ht, K. reflexivity.
  - destruct A as (a & rest & na & Ea & Ha & K). destruct H as (b & nb & Eb & Hb & V). intros x Hx. rewrite Eb in Ea. injection Ea as <- <-. rewrite Hb in Ha. injection Ha as <-. rewrite Eb in Hx. apply elem_of_list_singleton in Hx as ->. rewrite V. unfold var_type. rewrite Hn. destruct (w_types w !! n_ty nd); [|reflexivity]. congruence.
Qed.
End Flat.
