(** From construction calls to the scheduled circuit (proofs). *)
From Coq Require Import ZArith Bool Lia String Permutation.
From stdpp Require Import gmap list.
From Verif Require Import Instance InstanceSpec InstanceFlow Types Word Value Graph GraphSpec BuilderProofs BuilderProofs2 BuilderTopo GraphFacts
     KernelSort TopSort Dfcir StreamSpec Sched SchedSpec DfcirProofs SchedStream SchedMain SchedFinal DfcirBuild KernelSpec.
Local Open Scope Z_scope.

Section Flow.
Variables (F : fltops) (h : list icmd) (w : world) (order : list nat).
Hypothesis R : irun F init_world h = Ok w.
Hypothesis D : idisciplined F init_world h.
Context {kern : nat}.
Hypothesis K1 : only_kernel w kern.
Hypothesis C : complete w kern.
Hypothesis S : sorts w kern order.

Lemma flow_facts : WF w /\ drivers_ok w /\ NoDup order /\
  (forall n, n ∈ order <-> is_Some (w_nodes w !! n)) /\
  (forall i j a b, order !! i = Some a -> order !! j = Some b -> a ∈ operands w b -> (i < j)%nat) /\
  (forall n nd, w_nodes w !! n = Some nd -> n_op nd <> NONE /\ (n_op nd = OUT -> operands w n <> [])).
Proof.
  destruct (irun_forward F _ _ _ R D init_sound init_forward) as [[W _ _] [Rk Cl DR]]. assert (OK := K1).
  destruct S as (hash & PH & S'). destruct (w_kern w !! kern) as [g|] eqn:Hg; [|unfold sort_by in S'; rewrite Hg in S'; discriminate].
  destruct (ranked_sorts w kern g W Rk Cl Hg C K1 hash PH) as (r & Sr & Pr & Tr).
  rewrite S' in Sr. injection Sr as <-.
  split; [exact W|]. split; [exact DR|]. split.
  { rewrite Pr. eapply cs_nd_nodes; [apply W|exact Hg]. }
  split.
  { intro n. rewrite Pr. split.
    - intro H. destruct (cs_member w (proj1 W) _ _ _ Hg H) as (nd & Hn & _). eauto.
    - intros (nd & Hn). destruct (cs_owned w (proj1 W) _ _ Hn) as (g' & Hg' & Hin). rewrite (OK _ _ Hn) in Hg'. congruence. }
  split; [exact Tr|]. intros n nd Hn. apply (C n nd Hn (OK _ _ Hn)).
Qed.

(** C18 *)
Theorem kernel_translates : exists P, build w order = Ok P /\ wfp P /\ connects_back P /\
  forall V (I : interp V) n i x, is_Some (w_nodes w !! n) -> (kval I w n i x <-> dval I P n i x).
Proof.
  destruct flow_facts as (W & DR & ND & LV & TO & NP).
  destruct (build_spec w order W DR ND LV TO NP) as (P & E & _ & WP & CB & _).
  exists P. split; [exact E|]. split; [exact WP|]. split; [exact CB|].
  eapply stream_preserved; eassumption.
Qed.

Lemma kernel_schedulable P : schedulable w -> build w order = Ok P ->
  wfp P /\ connects_back P /\ small_offsets P /\ narrow P /\ outputs_safe P /\
  (forall d nd, w_nodes w !! d = Some nd -> n_op nd = OUT -> exists s, Con d s ∈ P) /\
  (forall d sc nm k t l a, Def d (DOut sc nm) k t l a ∈ P <-> exists nd, w_nodes w !! d = Some nd /\ n_op nd = OUT /\
      sc = (match n_vk nd with VStream => false | _ => true end) /\ nm = n_name nd /\ k = n_vk nd /\ w_types w !! n_ty nd = Some t /\ l = -1 /\ a = []).
Proof.
  destruct flow_facts as (W & DR & ND & LV & TO & NP). intros [S1 S2 S3] E.
  destruct (build_spec w order W DR ND LV TO NP) as (P' & E' & ED & WP & CB & DD & DC). rewrite E in E'. injection E' as <-.
  split; [exact WP|]. split; [exact CB|].
  assert (OffD : forall v d k t l a, Def v (DOffset d) k t l a ∈ P -> exists nd, w_nodes w !! v = Some nd /\ n_op nd = OFFSET d).
  { intros v d k t l a H. apply DD in H as (_ & (nd & H & _ & _ & T) & _). exists nd. split; [exact H|].
    unfold translate_op in T. destruct (n_op nd); try (destruct (operands w v) as [|p [|q r]]; discriminate T); try discriminate T.
    destruct (operands w v); [discriminate|]. injection T as -> _. reflexivity. }
  assert (OutD : forall d nd, w_nodes w !! d = Some nd -> n_op nd = OUT -> exists s, Con d s ∈ P /\ operands w d = [s]).
  { intros d nd H Ho. destruct (ops_shape w W DR NP d nd H) as [(_ & s & Es & Ec)|(No & _)]; [|congruence].
    exists s. split; [|exact Es]. apply DC. split; [apply LV; eauto|exact Ec]. }
  split. { intros v d k t l a H. destruct (OffD _ _ _ _ _ _ H) as (nd & Hn & Ho). eapply S1; eassumption. }
  split.
  { intros r o k t l args i a H Ha Li. apply DD in H as (_ & (nd & H & _ & _ & T) & _).
    destruct (translate_op_total w W DR NP r nd H) as (o' & a' & T' & Sub). rewrite T in T'. injection T' as <- <-.
    destruct (ops_shape w W DR NP r nd H) as [(Eo & _)|(No & _ & A)].
    { unfold translate_op in T. rewrite Eo in T. injection T as _ <-. rewrite lookup_nil in Ha. discriminate. }
    assert (Lo : (128 < length (operands w r))%nat /\ exists j, tl (operands w r) !! j = Some a).
    { apply lookup_lt_Some in Ha as Hl. unfold translate_op in T. destruct (n_op nd) eqn:Eo; cbn in A; try discriminate T;
        try (injection T as _ <-; cbn in Hl; lia);
        destruct (operands w r) as [|p rest] eqn:Ea; try discriminate T;
        try (injection T as _ <-; cbn in Hl; lia);
        try (destruct rest as [|q rest]; [discriminate T|injection T as _ <-; cbn in Hl; lia]).
      injection T as _ <-. destruct i as [|i]; [lia|]. cbn in Ha, Hl. rewrite rev_length in Hl. split; [cbn; lia|].
      cbn. apply elem_of_list_lookup. apply elem_of_list_In, in_rev, elem_of_list_In. eapply elem_of_list_lookup_2. exact Ha. }
    destruct Lo as (Lo & j & Hj). destruct (S2 r) as [X|X]; [lia|]. apply elem_of_list_lookup_2 in Hj. apply X in Hj as (na & Hna & Cn).
    destruct (cs_type w (proj1 W) a na Hna) as (ta & Hta).
    assert (exists o', translate_op na (operands w a) = Ok (o', []) /\ is_constant_input o' = true) as (o' & To & Co).
    { unfold translate_op. destruct Cn as [(v & ->)|[-> Nv]]; [eexists; split; reflexivity|]. eexists. split; [reflexivity|]. destruct (n_vk na); [congruence| |]; reflexivity. }
    exists o'. split; [|exact Co]. eapply op_of_def; [apply WP|]. apply DD. split; [apply LV; eauto|]. split; [|reflexivity].
    exists na. split; [exact Hna|]. split; [reflexivity|]. rewrite result_other by (intros q0 X0; destruct Cn as [(v0 & Y)|[Y _]]; congruence). split; [exact Hta|exact To]. }
  split.
  { destruct S3 as [S3|S3]; [left|right].
    - intros d s Hc (st & Hst & Hrd). destruct (wp_con P WP _ _ Hc) as (sc & nm & k & t & l & a & Hd).
      apply DD in Hd as (_ & (nd & H & _ & _ & T) & _).
      assert (Ho : n_op nd = OUT).
      { unfold translate_op in T. destruct (n_op nd); try reflexivity; try discriminate T; destruct (operands w d) as [|p [|q r]]; discriminate T. }
      pose proof (S3 d nd H Ho) as Rd.
      assert (exists y, d ∈ operands w y) as (y & Hy).
      { destruct st as [r' o' k' t' l' a'|d' s']; cbn in Hrd.
        - apply DD in Hst as (_ & (nr & Hr & _ & _ & T') & _). destruct (translate_op_total w W DR NP r' nr Hr) as (o'' & a'' & T'' & Sub).
          rewrite T' in T''. injection T'' as <- <-. exists r'. apply Sub. exact Hrd.
        - apply elem_of_list_singleton in Hrd as ->. exists d'. apply DC in Hst as [Hd' Hg]. destruct (proj1 (LV d') Hd') as (nr & Hr).
          destruct (ops_shape w W DR NP d' nr Hr) as [(_ & s2 & Es & Ec)|(_ & Ec & _)]; [|congruence].
          rewrite Es. assert (s2 = s') as -> by congruence. left. }
      apply (readers_operands w d y (proj1 W)) in Hy. rewrite Rd in Hy. inversion Hy.
    - intros v d k t l a H. destruct (OffD _ _ _ _ _ _ H) as (nd & Hn & Ho). eapply S3; eassumption. }
  split. { intros d nd H Ho. destruct (OutD d nd H Ho) as (s & X & _). eauto. }
  intros d sc nm k t l a. rewrite DD. split.
  - intros (_ & (nd & H & Hk & Ht & T) & ->). exists nd. split; [exact H|].
    unfold translate_op in T. destruct (n_op nd) eqn:En; try discriminate T; try (destruct (operands w d) as [|p [|q r]]; discriminate T).
    rewrite result_other in Hk, Ht by (intros q0 X0; congruence). injection T as <- <- <-. auto 10.
  - intros (nd & H & Ho & -> & -> & -> & Ht & -> & ->). split; [apply LV; eauto|]. split; [|reflexivity]. exists nd. split; [exact H|].
    rewrite result_other by (intros q0 X0; congruence). split; [reflexivity|]. split; [exact Ht|]. unfold translate_op. rewrite Ho. reflexivity.
Qed.

(** C22 *)
Theorem kernel_scheduled cfg perm P Q L :
  schedulable w -> build w order = Ok P -> (forall bs, perm bs ≡ₚ bs) -> asap_pass cfg perm P = Some (Q, L) ->
  exists Dl : nat -> Z,
    (forall d nd, w_nodes w !! d = Some nd -> n_op nd = OUT -> 0 <= Dl d <= L) /\
    (L = 0 \/ exists d nd, w_nodes w !! d = Some nd /\ n_op nd = OUT /\ Dl d = L) /\
    (exists ns cs, sgraph (apply_config cfg P) = Some (ns, cs) /\
       forall v, (exists a, path ns cs a v (Dl v)) /\ forall a z, path ns cs a v z -> z <= Dl v) /\
    forall V (I : interp V) sig, circuit I Q sig ->
      forall d nd i x, w_nodes w !! d = Some nd -> n_op nd = OUT -> 0 <= i -> kval I w d i x -> sig d (i + Dl d) = x.
Proof.
  intros SK E PM A. destruct (kernel_schedulable P SK E) as (WP & CB & SO & NR & OS & OC & OD).
  destruct (asap_pass_stream cfg perm P Q L WP SO NR OS CB PM A) as (Dl & D1 & D2 & D3 & D5 & D4).
  destruct kernel_translates as (P' & E' & _ & _ & KD). rewrite E in E'. injection E' as <-.
  exists Dl. split; [|split; [|split; [exact D5|]]].
  - intros d nd H Ho. split; [apply D1|]. destruct flow_facts as (W & _). destruct (cs_type w (proj1 W) d nd H) as (t & Ht).
    eapply D2. apply OD. exists nd. split; [exact H|]. split; [exact Ho|]. repeat (split; [reflexivity|]). split; [exact Ht|]. auto.
  - destruct D3 as [D3|(d & sc & nm & k & t & l & a & Hd & Ed)]; [left; exact D3|right]. apply OD in Hd as (nd & H & Ho & _). eauto.
  - intros V I sig Ci d nd i x H Ho Hi Kv. destruct (OC d nd H Ho) as (s & Hs). eapply D4; [exact Ci|exact Hs|exact Hi|].
    apply KD; [eauto|exact Kv].
Qed.
End Flow.
