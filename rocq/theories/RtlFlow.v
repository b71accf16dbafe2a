(** The schedulers keep the operations realizable (proofs). *)
From Coq Require Import ZArith Bool String Lia.
From stdpp Require Import gmap list.
From Verif Require Import Instance InstanceSpec Types Word Value OpSpec Graph GraphSpec BuilderProofs2 BuilderTopo GraphFacts KernelSort TopSort TypingSpec TypesProofs TypingProofs DfcirBuild KernelSpec KernelFlow Dfcir StreamSpec HwSpec HwProofs Verilog Stubs Naming StubsSpec StubsProofs StubsFacts Firrtl Lower
     Sched SchedStream SchedFinal DfcirProofs Linear Pipeline LatencyProofs ProgTyping LibraryFacts RtlSpec FirrtlProofs RtlProofs.
Local Open Scope Z_scope.

(** everything about a program that makes the generated circuit work *)
Definition stmt_fits (rd : reading) (o : dop) (t : dftype) (ts : list dftype) (l : Z) : Prop :=
  match o with
  | DLatency => 1 <= l
  | DConst c => fits_as rd (CONST c) t ts 0
  | DIn _ _ | DOut _ _ | DOffset _ => True
  | _ => fits_as rd (dopk o) t ts (pos_latency l)
  end.
Lemma op_fits_kinds o t ts ts' l : map kind ts = map kind ts' -> Forall proper ts -> op_fits o t ts l -> op_fits o t ts' l.
Proof.
  intros E PS. assert (L : length ts = length ts') by (rewrite <- (map_length kind), E, map_length; reflexivity).
  destruct o; cbn; auto.
  - destruct ts as [|a [|? ?]], ts' as [|a' [|? ?]]; try discriminate L; auto. apply Forall_cons in PS as [PA _]. injection E as E. rewrite (kind_signed _ _ E), (same_kind_bits _ _ E PA). auto.
  - destruct ts, ts'; try discriminate L; auto.
  - destruct ts as [|c arms], ts' as [|c' arms']; try discriminate L; auto. injection E as _ E. intros [NE FA]. split; [intros ->; apply NE; destruct arms; [reflexivity|discriminate]|].
    clear -E FA. revert arms' E. induction FA as [|a arms H _ IH]; intros [|a' arms'] E; try discriminate E; constructor; injection E as E1 E2; [congruence|auto].
  - destruct ts as [|a [|b [|? ?]]], ts' as [|a' [|b' [|? ?]]]; try discriminate L; auto. apply Forall_cons in PS as [PA PS]. apply Forall_cons in PS as [PB _]. injection E as E1 E2.
    rewrite (kind_signed _ _ E1), (kind_signed _ _ E2), (same_kind_bits _ _ E1 PA), (same_kind_bits _ _ E2 PB). auto.
  - destruct u; [destruct ts as [|a [|? ?]], ts' as [|a' [|? ?]]; try discriminate L; auto|auto].
  - destruct ts as [|a [|? ?]], ts' as [|a' [|? ?]]; try discriminate L; auto. apply Forall_cons in PS as [PA _]. injection E as E. rewrite (kind_signed _ _ E), (same_kind_bits _ _ E PA). auto.
  - destruct ts as [|a [|? ?]], ts' as [|a' [|? ?]]; try discriminate L; auto.
  - destruct ts as [|a [|? ?]], ts' as [|a' [|? ?]]; try discriminate L; auto.
  - destruct ts as [|a [|b [|? ?]]], ts' as [|a' [|b' [|? ?]]]; try discriminate L; auto. apply Forall_cons in PS as [PA PS]. apply Forall_cons in PS as [PB _]. injection E as E1 E2.
    rewrite (kind_signed _ _ E1), (kind_signed _ _ E2), (same_kind_bits _ _ E1 PA), (same_kind_bits _ _ E2 PB). auto.
Qed.
Lemma act_fits_kinds o t ts ts' l : map kind ts = map kind ts' -> Forall proper ts -> act_fits o t ts l -> act_fits o t ts' l.
Proof.
  intros E PS. assert (L : length ts = length ts') by (rewrite <- (map_length kind), E, map_length; reflexivity).
  destruct o; try (apply op_fits_kinds; assumption).
  - pose proof (op_fits_kinds (BIN o) t ts ts' l E PS) as OK. cbn in OK |- *. destruct ts as [|a [|b [|? ?]]], ts' as [|a' [|b' [|? ?]]]; try discriminate L; auto. destruct (is_bitwise o); [exact OK|].
    destruct (is_compare o); [auto|]. injection E as E1 E2. rewrite (kind_signed _ _ E1). auto.
  - cbn. destruct ts as [|a [|? ?]], ts' as [|a' [|? ?]]; try discriminate L; auto. apply Forall_cons in PS as [PA _]. injection E as E. rewrite (same_kind_bits _ _ E PA). auto.
  - cbn. destruct ts as [|a [|? ?]], ts' as [|a' [|? ?]]; try discriminate L; auto.
Qed.
Lemma fits_kinds {rd} o t ts ts' l : map kind ts = map kind ts' -> Forall proper ts -> fits_as rd o t ts l -> fits_as rd o t ts' l.
Proof. destruct rd; [apply op_fits_kinds|apply act_fits_kinds]. Qed.
Lemma stmt_fits_kinds {rd} o t ts ts' l : map kind ts = map kind ts' -> Forall proper ts -> stmt_fits rd o t ts l -> stmt_fits rd o t ts' l.
Proof. intros E PS. destruct o; cbn [stmt_fits]; auto; apply fits_kinds; assumption. Qed.
Record fits (rd : reading) (P : program) : Prop := {
  ft_typed : ptyped P;
  ft_proper : forall v t, has_ty P v t -> proper t;
  ft_ops : forall r o k t l a ts, Def r o k t l a ∈ P -> Forall2 (has_ty P) a ts -> stmt_fits rd o t ts l;
  ft_con : forall d s td ts, Con d s ∈ P -> has_ty P d td -> has_ty P s ts -> fits_as rd OUT td [ts] 0;
  ft_args : forall r o k t l a x, Def r o k t l a ∈ P -> x ∈ a -> x ∉ dests P;
  ft_srcs : forall d s, Con d s ∈ P -> s ∉ dests P
}.
Arguments ft_typed {rd} P.
Arguments ft_proper {rd} P.
Arguments ft_ops {rd} P.
Arguments ft_con {rd} P.
Arguments ft_args {rd} P.
Arguments ft_srcs {rd} P.


Lemma forall2_has_fun P a ts ts' : NoDup (defs P) -> Forall2 (has_ty P) a ts -> Forall2 (has_ty P) a ts' -> ts = ts'.
Proof.
  intros N F. revert ts'. induction F as [|x t a ts H F IH]; intros ts' F'; inversion F'; subst; [reflexivity|].
  f_equal; [eapply has_ty_fun; eassumption|auto].
Qed.
Lemma forall2_one P x t : has_ty P x t -> Forall2 (has_ty P) [x] [t].
Proof. intro H. constructor; [exact H|constructor]. Qed.
Lemma dest_def P d : ptyped P -> d ∈ dests P -> d ∈ defs P.
Proof.
  intros T H. apply dests_elem in H as (s & H). destruct (pt_con _ T _ _ H) as [(sc & nm & k & t & l & a & X) _].
  apply defs_elem. eauto 10.
Qed.

Lemma insert_fits {rd} P c lat f P' : fits rd P -> (forall v, v ∈ defs P -> (v < f)%nat) -> insert_buffer P c lat f = Some P' ->
  fits rd P' /\ (forall v, v ∈ defs P' -> (v < S f)%nat).
Proof.
  intros [T PR FO FC FA FS] LT E. destruct (insert_ptyped _ _ _ _ _ T LT E) as (T' & LT' & _).
  destruct (insert_shape _ _ _ _ _ T LT E) as (DP & DS & MONO & OLD & v & tv & Hv & Hf & RD & NF1 & NF2 & NF3 & NF4 & NF5).
  assert (NF : f ∉ defs P) by (intro X; apply LT in X; lia).
  assert (FD : f ∉ dests P) by (intro X; apply NF; apply dest_def; assumption).
  assert (VD : v ∉ dests P) by (destruct RD as [(r & o & k & t & l & a & H & X)|(d & H)]; eauto).
  split; [|exact LT']. constructor.
  - exact T'.
  - intros x t H. destruct (decide (x = f)) as [->|Nx]; [|eapply PR; apply OLD; eassumption].
    rewrite (has_ty_fun _ _ _ _ (pt_defs _ T') H Hf). eauto.
  - intros r o k t l a ts H F2. destruct (decide (r = f)) as [->|Nr].
    + destruct (NF1 _ _ _ _ _ H) as (-> & -> & -> & -> & L). cbn. lia.
    + destruct (NF2 _ _ _ _ _ _ H Nr) as (a0 & ts0 & F0 & F1 & H0). rewrite (forall2_has_fun _ _ _ _ (pt_defs _ T') F2 F1). eapply FO; eassumption.
  - intros d s td ts H Hd Hs. destruct (NF4 _ _ H) as (s' & H'). assert (Nd : d <> f) by (intros ->; apply NF, dest_def; [exact T|]; apply dests_elem; eauto).
    destruct (pt_con _ T _ _ H') as [_ (ts' & Hs')]. apply OLD in Hd; [|exact Nd]. specialize (FC _ _ _ _ H' Hd Hs').
    destruct (NF3 _ _ H) as [->|H''].
    + (* the buffer has the type of the source *)
      assert (v = s') as Ev.
      { assert (X : Def f DLatency VStream tv 0 [v] = Def f DLatency VStream tv 0 [v]) by reflexivity. clear X.
        destruct Hf as (o & k & l & a & Hf). destruct (NF1 _ _ _ _ _ Hf) as (-> & _ & -> & -> & _).
        destruct (insert_split _ _ _ _ _ (pt_defs _ T) (pt_dests _ T) E) as [_ [(_ & p & q & o0 & k0 & t0 & l0 & a0 & v0 & k1 & t1 & EQ & _ & EQ')|(_ & p & q & v0 & k1 & t1 & EQ & EQ')]].
        - exfalso. rewrite EQ' in H. apply NF. rewrite elem_of_app, !elem_of_cons in H.
          assert (X : Con d f ∈ P) by (rewrite EQ, elem_of_app, elem_of_cons; destruct H as [H|[H|[H|H]]]; try discriminate; auto).
          destruct (pt_con _ T _ _ X) as [_ (tx & X')]. eapply has_ty_def. exact X'.
        - assert (X : Def f DLatency k1 t1 lat [v0] ∈ P') by (rewrite EQ'; apply elem_of_app; right; left).
          destruct (NF1 _ _ _ _ _ X) as (_ & _ & Y & _). injection Y as ->.
          assert (d = sc_tgt c) as ->.
          { rewrite EQ' in H. rewrite elem_of_app, !elem_of_cons in H. destruct H as [H|[H|[H|H]]]; try discriminate; try (injection H as ->; reflexivity).
            - exfalso. apply NF. assert (Z1 : Con d f ∈ P) by (rewrite EQ, elem_of_app; auto). destruct (pt_con _ T _ _ Z1) as [_ (tx & X')]. eapply has_ty_def. exact X'.
            - exfalso. apply NF. assert (Z1 : Con d f ∈ P) by (rewrite EQ, elem_of_app, elem_of_cons; auto). destruct (pt_con _ T _ _ Z1) as [_ (tx & X')]. eapply has_ty_def. exact X'. }
          assert (Z1 : Con (sc_tgt c) v ∈ P) by (rewrite EQ, elem_of_app, elem_of_cons; auto).
          pose proof (con_of_con _ _ _ (pt_dests _ T) Z1) as C1. rewrite (con_of_con _ _ _ (pt_dests _ T) H') in C1. injection C1 as ->. reflexivity. }
      subst s'. rewrite (has_ty_fun _ _ _ _ (pt_defs _ T') Hs Hf). rewrite (has_ty_fun _ _ _ _ (pt_defs _ T) Hv Hs'). exact FC.
    + assert (Ns : s <> f) by (intros ->; destruct (pt_con _ T _ _ H'') as [_ (tx & X')]; apply NF; eapply has_ty_def; exact X').
      apply OLD in Hs; [|exact Ns]. assert (s = s') as -> by (pose proof (con_of_con _ _ _ (pt_dests _ T) H'') as C1; rewrite (con_of_con _ _ _ (pt_dests _ T) H') in C1; congruence).
      rewrite (has_ty_fun _ _ _ _ (pt_defs _ T) Hs Hs'). exact FC.
  - intros r o k t l a x H Hx. rewrite DS. destruct (decide (r = f)) as [->|Nr].
    + destruct (NF1 _ _ _ _ _ H) as (-> & -> & -> & _). apply elem_of_list_singleton in Hx as ->. exact VD.
    + destruct (NF5 _ _ _ _ _ _ _ H Nr Hx) as (a0 & H0 & [X|[-> _]]); [eapply FA; eassumption|exact FD].
  - intros d s H. rewrite DS. destruct (NF3 _ _ H) as [->|H']; [exact FD|eapply FS; exact H'].
Qed.
Lemma inserts_fits {rd} : forall bs P f P', fits rd P -> (forall v, v ∈ defs P -> (v < f)%nat) -> insert_buffers P bs f = Some P' -> fits rd P'.
Proof.
  induction bs as [|[c lat] bs IH]; intros P f P' T L E; cbn in E; [injection E as <-; auto|].
  destruct (insert_buffer P c lat f) as [P1|] eqn:E1; [|discriminate].
  destruct (insert_fits _ _ _ _ _ T L E1) as (T1 & L1). eapply IH; eassumption.
Qed.

(** offsets *)
Lemma erase_shape P v : ptyped P -> 
  (forall r o k t l a, Def r o k t l a ∈ erase_offset P v -> exists a0 ts, Def r o k t l a0 ∈ P /\ Forall2 (has_ty P) a0 ts /\ (exists ts', Forall2 (has_ty (erase_offset P v)) a ts' /\ map kind ts = map kind ts') /\
     forall x, x ∈ a -> exists r' o' k' t' l' a', Def r' o' k' t' l' a' ∈ P /\ x ∈ a') /\
  (forall d x, Con d x ∈ erase_offset P v -> exists x' t, Con d x' ∈ P /\ has_ty P x' t /\ (exists t', has_ty (erase_offset P v) x t' /\ kind t = kind t') /\
     (x = x' \/ exists r' o' k' t' l' a', Def r' o' k' t' l' a' ∈ P /\ x ∈ a')) /\
  dests (erase_offset P v) = dests P /\
  (forall d k t l a, Def v (DOffset d) k t l a ∉ erase_offset P v).
Proof.
  intros T. pose proof T as [N1 N2 W A Cn [rk RK]]. unfold erase_offset.
  assert (ID : forall Q, Q = P -> (forall d k t l a, Def v (DOffset d) k t l a ∉ Q) ->
    (forall r o k t l a, Def r o k t l a ∈ Q -> exists a0 ts, Def r o k t l a0 ∈ P /\ Forall2 (has_ty P) a0 ts /\ (exists ts', Forall2 (has_ty Q) a ts' /\ map kind ts = map kind ts') /\
       forall x, x ∈ a -> exists r' o' k' t' l' a', Def r' o' k' t' l' a' ∈ P /\ x ∈ a') /\
    (forall d x, Con d x ∈ Q -> exists x' t, Con d x' ∈ P /\ has_ty P x' t /\ (exists t', has_ty Q x t' /\ kind t = kind t') /\
       (x = x' \/ exists r' o' k' t' l' a', Def r' o' k' t' l' a' ∈ P /\ x ∈ a')) /\
    dests Q = dests P /\ (forall d k t l a, Def v (DOffset d) k t l a ∉ Q)).
  { intros Q -> NV. split; [|split; [|auto]].
    - intros r o k t l a H. destruct (A _ _ _ _ _ _ H) as (ts & F2 & _). exists a, ts. split; [exact H|]. split; [exact F2|]. split; [eauto|]. eauto 10.
    - intros d x H. destruct (Cn _ _ H) as [_ (t & X)]. exists x, t. eauto 10. }
  destruct (def_of P v) as [[[[[o0 k0] t0] l0] args]|] eqn:E.
  2: { apply ID; [reflexivity|]. intros d k t l a X. rewrite (def_of_def _ _ _ _ _ _ _ N1 X) in E. discriminate. }
  assert (NVO : (forall d, o0 <> DOffset d) -> forall d k t l a, Def v (DOffset d) k t l a ∉ P).
  { intros NO d k t l a X. rewrite (def_of_def _ _ _ _ _ _ _ N1 X) in E. injection E as <- _ _ _ _. exact (NO d eq_refl). }
  destruct o0; try (apply ID; [reflexivity|apply NVO; discriminate]).
  pose proof (def_of_in _ _ _ _ _ _ _ E) as Hv. destruct (A _ _ _ _ _ _ Hv) as (ts & F2 & DT). cbn in DT. destruct DT as (ta & -> & Ka).
  inversion F2 as [|s ? args' ? Hs F2' X1 X2]. inversion F2'. subst. clear F2 F2' ID.
  set (P' := map (subst_stmt v s) (List.filter (fun x => negb (is_def v x)) P)).
  assert (IN : forall st, st ∈ P' <-> exists st0, st0 ∈ P /\ is_def v st0 = false /\ st = subst_stmt v s st0).
  { intros st. unfold P'. rewrite elem_of_list_In, in_map_iff. split.
    - intros (st0 & <- & H). apply List.filter_In in H as [H X]. exists st0. rewrite elem_of_list_In. apply negb_true_iff in X. auto.
    - intros (st0 & H & X & ->). exists st0. split; [reflexivity|]. apply List.filter_In. rewrite <- elem_of_list_In, X. auto. }
  assert (SV : s <> v) by (intros ->; pose proof (RK _ _ _ _ _ _ v Hv ltac:(left)); lia).
  assert (TF : forall x t, has_ty P x t -> x <> v -> has_ty P' x t).
  { intros x t (o & k & l & a & H) Nx. exists o, k, l, (map (subst_val v s) a). apply IN. eexists. split; [exact H|]. cbn. split; [apply Nat.eqb_neq; exact Nx|reflexivity]. }
  assert (SUB : forall x t, has_ty P x t -> exists t', has_ty P' (subst_val v s x) t' /\ kind t = kind t').
  { intros x t H. unfold subst_val. destruct (Nat.eqb_spec x v) as [->|Nx]; [|eauto].
    rewrite (has_ty_fun P v t t0 N1 H); [eauto|]. exists (DOffset offset), k0, l0, [s]. exact Hv. }
  assert (NOUT : forall d x, Con d x ∈ P -> subst_val v s d = d).
  { intros d x H. destruct (Cn _ _ H) as [(sc & nm & k & t & l & a & X) _]. unfold subst_val. destruct (Nat.eqb_spec d v) as [->|]; [|reflexivity].
    pose proof (def_unique _ _ _ _ _ _ _ _ _ _ _ _ N1 Hv X) as Y. discriminate Y. }
  split; [|split; [|split]].
  - intros r o k t l a H. apply IN in H as (st & H & X & Es). destruct st as [r' o' k' t' l' a'|]; [|discriminate]. injection Es as -> -> -> -> -> ->.
    destruct (A _ _ _ _ _ _ H) as (ts & F2 & DT). exists a', ts. split; [exact H|]. split; [exact F2|]. split.
    + clear -F2 SUB. induction F2 as [|x t l m Hx F2 (m' & IH1 & IH2)]; [exists []; split; [constructor|reflexivity]|].
      destruct (SUB x t Hx) as (t' & H1 & H2). exists (t' :: m'). split; [constructor; assumption|cbn; congruence].
    + intros x Hx. apply elem_of_list_fmap in Hx as (y & -> & Hy). unfold subst_val. destruct (Nat.eqb y v).
      * exists v, (DOffset offset), k0, t0, l0, [s]. split; [exact Hv|left].
      * eauto 10.
  - intros d x H. apply IN in H as (st & H & _ & E2). destruct st as [|d' x']; [discriminate|]. injection E2 as -> ->.
    rewrite (NOUT d' x' H). destruct (Cn _ _ H) as [_ (t2 & H2)]. exists x', t2. split; [exact H|]. split; [exact H2|]. split; [apply SUB; exact H2|].
    unfold subst_val. destruct (Nat.eqb x' v); [|auto]. right. exists v, (DOffset offset), k0, t0, l0, [s]. split; [exact Hv|left].
  - unfold P'. clear -NOUT. induction P as [|st P IH]; [reflexivity|].
    specialize (IH (fun d x H => NOUT d x (elem_of_list_further _ _ _ H))). destruct st as [r o k t l a|d x]; cbn.
    + destruct (Nat.eqb r v); cbn; exact IH.
    + unfold dests in *. cbn. rewrite (NOUT d x ltac:(left)). f_equal. exact IH.
  - intros d k t l a H. apply IN in H as (st & H & X & Es). destruct st as [r' o' k' t' l' a'|]; [|discriminate]. injection Es as <- _ _ _ _ _.
    cbn in X. apply Nat.eqb_neq in X. congruence.
Qed.
Lemma erase_fits {rd} P v : fits rd P -> fits rd (erase_offset P v).
Proof.
  intros [T PR FO FC FA FS]. destruct (erase_ptyped P v T) as [T' TB]. destruct (erase_shape P v T) as (S1 & S2 & S3 & _). constructor.
  - exact T'.
  - intros x t H. eapply PR, TB, H.
  - intros r o k t l a ts H F2. destruct (S1 _ _ _ _ _ _ H) as (a0 & ts0 & H0 & F0 & (ts1 & F1 & EK) & _). rewrite (forall2_has_fun _ _ _ _ (pt_defs _ T') F2 F1).
    eapply stmt_fits_kinds; [exact EK| |eapply FO; eassumption]. clear -F0 PR. induction F0; constructor; eauto.
  - intros d s td ts H Hd Hs. destruct (S2 _ _ H) as (x' & t & H' & X1 & (t' & X2 & EK) & _). rewrite (has_ty_fun _ _ _ _ (pt_defs _ T') Hs X2).
    eapply (fits_kinds OUT td [t]); [cbn; congruence|constructor; [eauto|constructor]|]. eapply FC; [exact H'|apply TB; exact Hd|exact X1].
  - intros r o k t l a x H Hx. rewrite S3. destruct (S1 _ _ _ _ _ _ H) as (_ & _ & _ & _ & _ & X). destruct (X x Hx) as (r' & o' & k' & t' & l' & a' & Y & Z1). eapply FA; eassumption.
  - intros d s H. rewrite S3. destruct (S2 _ _ H) as (x' & t & H' & _ & _ & [->|(r' & o' & k' & t' & l' & a' & Y & Z1)]); [eapply FS; exact H'|eapply FA; eassumption].
Qed.
Lemma erases_fits {rd} P : fits rd P -> fits rd (erase_offsets P).
Proof.
  unfold erase_offsets. generalize (offset_ids P). intro ids. revert P. induction ids as [|v ids IH]; intros P T; cbn; [auto|]. apply IH, erase_fits, T.
Qed.
Definition no_offs (P : program) : Prop := forall r d k t l a, Def r (DOffset d) k t l a ∉ P.
Lemma erases_no_offs P : ptyped P -> no_offs (erase_offsets P).
Proof.
  intro T. unfold erase_offsets.
  assert (X : forall r d k t l a, Def r (DOffset d) k t l a ∈ P -> r ∈ offset_ids P).
  { intros r d k t l a H. apply elem_of_list_omap. exists (Def r (DOffset d) k t l a). split; [exact H|reflexivity]. }
  revert T X. generalize (offset_ids P). intro ids. revert P. induction ids as [|v ids IH]; intros P T X; cbn.
  - intros r d k t l a H. apply X in H. inversion H.
  - destruct (erase_shape P v T) as (S1 & _ & _ & S4). apply IH; [apply erase_ptyped; exact T|].
    intros r d k t l a H. pose proof H as H0. destruct (S1 _ _ _ _ _ _ H) as (a0 & ts & H1 & _). apply X in H1. apply elem_of_cons in H1 as [->|H1]; [|exact H1].
    exfalso. eapply S4. exact H0.
Qed.
Lemma inserts_no_offs bs P f P' : insert_buffers P bs f = Some P' -> no_offs P -> no_offs P'.
Proof. intros E N r d k t l a H. destruct (inserts_keep _ _ _ _ E) as [_ K]. apply K in H as [(a' & H)|[_ H]]; [eapply N; exact H|discriminate]. Qed.

Lemma fits_ready {rd} Q : fits rd Q -> rtl_ready rd Q.
Proof.
  intros [T PR FO FC FA FS]. constructor; try assumption.
  - intros r o k t l a ts H OP F2. specialize (FO _ _ _ _ _ _ _ H F2). destruct o; try discriminate OP; try exact FO; destruct rd; exact Logic.I.
  - intros r k t l a H. destruct (pt_args _ T _ _ _ _ _ _ H) as (ts & F2 & _). exact (FO _ _ _ _ _ _ _ H F2).
Qed.

(** ** From the kernel *)
Section Kernel.
Variables (F : fltops) (h : list icmd) (w : world) (order : list nat).
Hypothesis R : irun F init_world h = Ok w.
Hypothesis D : idisciplined F init_world h.
Context {kern : nat}.
Hypothesis K1 : only_kernel w kern.
Hypothesis C : complete w kern.
Hypothesis S : sorts w kern order.
Variable P : program.
Hypothesis EP : build w order = Ok P.
Hypothesis GT : good_types F h.
Variable lat : opk -> dftype -> Z.

Lemma kernel_fits {rd} (RZ : realizable_as rd w lat) P1 : ptyped P1 -> (forall v t, has_ty P1 v t <-> has_ty P v t) -> dests P1 = dests P ->
  (forall d s, Con d s ∈ P1 -> Con d s ∈ P) ->
  (forall r o k t l a, Def r o k t l a ∈ P1 -> exists l0, Def r o k t l0 a ∈ P) ->
  (forall r b k t l a, Def r (DBin b) k t l a ∈ P1 -> is_bitwise b = false -> pos_latency l = pos_latency (lat (BIN b) t)) ->
  (forall r k t l a, Def r DCast k t l a ∈ P1 -> pos_latency l = pos_latency (lat CAST t)) -> fits rd P1.
Proof.
  intros T1 TY DS CN DF LB LC.
  destruct (flow_facts F h w order R D K1 C S) as (W & DR & ND & LV & TO & NP).
  destruct (build_spec w order W DR ND LV TO NP) as (P' & E' & ED & WP & CB & DD & DC). rewrite EP in E'. injection E' as <-.
  assert (NR : forall n x, x ∈ operands w n -> x ∉ dests P).
  { intros n x Hx X. apply dests_elem in X as (s & X). apply DC in X as [X1 X2]. apply LV in X1 as (nd & Hn).
    destruct (ops_shape w W DR NP x nd Hn) as [(Eo & _)|(_ & X & _)]; [|congruence].
    apply (readers_operands w x n (proj1 W)) in Hx. rewrite (rz_outs _ _ RZ x nd Hn Eo) in Hx. inversion Hx. }
  assert (KN := kernel_node F h w order R D K1 C S P EP GT).
  assert (PR1 : forall v t, has_ty P1 v t -> proper t).
  { intros v t H. apply TY in H. destruct (KN v t H) as (nd & t' & _ & Tv & Ek & _). eapply same_kind_proper; [exact Ek|]. eapply rz_proper; eassumption. }
  assert (ARGS : forall a ts, Forall2 (has_ty P1) a ts -> exists ts0, Forall2 (fun a ta => type_of w a = Some ta) a ts0 /\ map kind ts0 = map kind ts /\ Forall proper ts0).
  { intros a ts F2. induction F2 as [|x t a ts H _ (ts0 & I1 & I2 & I3)]; [exists []; repeat split; constructor|].
    apply TY in H. destruct (KN x t H) as (nd & t' & _ & Tv & Ek & _). exists (t' :: ts0). split; [constructor; assumption|]. split; [cbn; congruence|].
    constructor; [eapply rz_proper; eassumption|exact I3]. }
  constructor.
  - exact T1.
  - exact PR1.
  - intros r o k t l a ts1 H F1. assert (Ht1 : has_ty P r t) by (apply TY; exists o, k, l, a; exact H).
    pose proof H as H1. apply DF in H as (l0 & H). apply DD in H as (_ & (nd & Hn & _ & _ & T) & ->).
    destruct (KN r t Ht1) as (nd' & t' & Hn' & TR & _ & Et). rewrite Hn in Hn'. injection Hn' as <-.
    destruct (ops_shape w W DR NP r nd Hn) as [(Eo & s & Es & Ec)|(No & Ec & AR)]; unfold translate_op in T.
    { rewrite Eo in T. injection T as <- <-. exact Logic.I. }
    assert ((exists d, n_op nd = OFFSET d) \/ forall d, n_op nd <> OFFSET d) as [(d & Eo)|NF] by (destruct (n_op nd); (left; eexists; reflexivity) || (right; discriminate)).
    { rewrite Eo in T. destruct (operands w r); [discriminate|]. injection T as <- <-. exact Logic.I. }
    rewrite (Et NF) in TR. clear Et t'. destruct (ARGS a ts1 F1) as (ts & F2w & EK & PS). eapply stmt_fits_kinds; [exact EK|exact PS|]. clear ts1 F1 EK PS.
    pose proof (rz_ops _ _ RZ r nd t) as OK.
    destruct (n_op nd) eqn:Eo; cbn in AR; try discriminate T; try (injection T as <- <-; exact Logic.I); try congruence; try (exfalso; eapply NF; reflexivity).
    + injection T as <- <-. inversion F2w; subst. assert (F0 : Forall2 (fun a ta => type_of w a = Some ta) (operands w r) []) by (destruct (operands w r); [constructor|discriminate AR]). specialize (OK [] Hn TR F0). destruct rd; exact OK.
    + destruct (operands w r) as [|x xs] eqn:Eops; [cbn in AR; lia|]. injection T as <- <-. inversion F2w as [|? tc ? arms Hc Ha]; subst.
      assert (Ha' : Forall2 (fun a ta => type_of w a = Some ta) xs (rev arms)).
      { apply Forall2_reverse in Ha. unfold reverse in Ha. rewrite !rev_append_rev, !app_nil_r, rev_involutive in Ha. exact Ha. }
      assert (OK2 : arms <> [] /\ Forall (fun a => kind a = kind t) (rev arms)).
      { specialize (OK (tc :: rev arms) Hn TR ltac:(constructor; assumption)). assert (O : rev arms <> [] /\ Forall (fun a => kind a = kind t) (rev arms)) by (destruct rd; exact OK). split; [intros ->; apply O; reflexivity|apply O]. }
      destruct OK2 as [O1 O2]. enough (X : arms <> [] /\ Forall (fun a => kind a = kind t) arms) by (destruct rd; exact X). split.
      * exact O1.
      * apply Forall_forall. intros y Hy. rewrite Forall_forall in O2. apply O2. apply elem_of_list_In. apply in_rev. rewrite rev_involutive. apply elem_of_list_In. exact Hy.
    + destruct (operands w r) as [|x [|y [|]]]; try discriminate AR. injection T as <- <-. specialize (OK ts Hn TR F2w). cbn [stmt_fits dopk opk_of].
      inversion F2w as [|? t1 ? ? X1 F2']. subst. inversion F2' as [|? t2 ? ? X2 F2'']. subst. inversion F2''. subst. destruct rd; cbn in OK |- *.
      * destruct (is_bitwise o0) eqn:BW; [exact OK|]. destruct (is_compare o0); [exact OK|]. rewrite (LB _ _ _ _ _ _ H1 BW). rewrite pos_latency_max.
        destruct OK as (O1 & O2 & O3). split; [exact O1|]. split; [|exact O3]. destruct O2; [left; lia|right; assumption].
      * destruct (is_bitwise o0) eqn:BW; [exact OK|]. destruct (is_compare o0); [exact OK|]. rewrite (LB _ _ _ _ _ _ H1 BW). rewrite pos_latency_max.
        destruct OK as (O1 & O2). split; [exact O1|]. destruct O2; [left; lia|right; assumption].
    + destruct (operands w r) as [|x [|]]; try discriminate AR. injection T as <- <-. specialize (OK ts Hn TR F2w). cbn.
      inversion F2w as [|? t1 ? ? X1 F2']. subst. inversion F2'. subst. destruct rd, u; exact OK.
    + destruct (operands w r) as [|x [|]]; try discriminate AR. injection T as <- <-. specialize (OK ts Hn TR F2w). cbn.
      inversion F2w as [|? t1 ? ? X1 F2']. subst. inversion F2'. subst. destruct rd; cbn in OK |- *; rewrite (LC _ _ _ _ _ H1), pos_latency_max.
      * destruct OK as [O|[O1 O2]]; [left; exact O|right]. split; [exact O1|]. destruct O2; [left; lia|right; assumption].
      * destruct OK as [O|[O|O]]; [left; exact O|right; left; lia|right; right; exact O].
    + destruct (operands w r) as [|x [|]]; try discriminate AR. injection T as <- <-. specialize (OK ts Hn TR F2w). cbn.
      inversion F2w as [|? t1 ? ? X1 F2']. subst. inversion F2'. subst. destruct rd; exact OK.
    + destruct (operands w r) as [|x [|]]; try discriminate AR. injection T as <- <-. specialize (OK ts Hn TR F2w). cbn.
      inversion F2w as [|? t1 ? ? X1 F2']. subst. inversion F2'. subst. destruct rd; exact OK.
    + destruct (operands w r) as [|x [|]]; try discriminate AR. injection T as <- <-. destruct rd; exact Logic.I.
    + destruct (operands w r) as [|x [|y [|]]]; try discriminate AR. injection T as <- <-. specialize (OK ts Hn TR F2w). cbn.
      inversion F2w as [|? t1 ? ? X1 F2']. subst. inversion F2' as [|? t2 ? ? X2 F2'']. subst. inversion F2''. subst. destruct rd; exact OK.
  - intros d s td ts H Hd Hs. apply CN in H. apply DC in H as [H1 H2]. apply LV in H1 as (nd & Hn).
    destruct (ops_shape w W DR NP d nd Hn) as [(Eo & s' & Es & Ec)|(_ & X & _)]; [|congruence]. rewrite H2 in Ec. injection Ec as <-.
    apply TY in Hd. destruct (KN d td Hd) as (nd' & td' & Hn' & Td & _ & Et). rewrite Hn in Hn'. injection Hn' as <-. rewrite Et in Td by (intros; congruence).
    apply TY in Hs. destruct (KN s ts Hs) as (nds & ts' & _ & Ts & Ek & _).
    pose proof (rz_ops _ _ RZ d nd td [ts'] Hn) as OK. rewrite Eo, Es in OK.
    eapply (fits_kinds OUT td [ts']); [cbn; congruence|constructor; [eapply rz_proper; eassumption|constructor]|].
    specialize (OK Td ltac:(constructor; [exact Ts|constructor])). destruct rd; exact OK.
  - intros r o k t l a x H Hx. rewrite DS. apply DF in H as (l0 & H). apply DD in H as (_ & (nd & Hn & _ & Ht & T) & _).
    destruct (translate_op_total w W DR NP r nd Hn) as (o' & a' & T' & X). rewrite T in T'. injection T' as <- <-. eapply NR. apply X. exact Hx.
  - intros d s H. rewrite DS. apply CN in H. apply DC in H as [H1 H2]. apply LV in H1 as (nd & Hn).
    destruct (ops_shape w W DR NP d nd Hn) as [(Eo & s' & Es & Ec)|(_ & X & _)]; [|congruence]. rewrite H2 in Ec. injection Ec as <-.
    apply (NR d). rewrite Es. left.
Qed.
Lemma kernel_dest d nd : w_nodes w !! d = Some nd -> n_op nd = OUT -> d ∈ dests P.
Proof.
  destruct (flow_facts F h w order R D K1 C S) as (W & DR & ND & LV & TO & NP).
  destruct (build_spec w order W DR ND LV TO NP) as (P' & E' & ED & WP & CB & DD & DC). rewrite EP in E'. injection E' as <-.
  intros Hn Eo. destruct (ops_shape w W DR NP d nd Hn) as [(_ & s & Es & Ec)|(No & _)]; [|congruence].
  apply dests_elem. exists s. apply DC. split; [apply LV; eauto|exact Ec].
Qed.
Lemma kernel_env e : env_for w e -> forall r sc nm k t l a, Def r (DIn sc nm) k t l a ∈ P ->
  if sc then of_type t (e_scalar e nm) else forall i, 0 <= i -> of_type t (e_stream e nm i).
Proof.
  destruct (flow_facts F h w order R D K1 C S) as (W & DR & ND & LV & TO & NP).
  destruct (build_spec w order W DR ND LV TO NP) as (P' & E' & ED & WP & CB & DD & DC). rewrite EP in E'. injection E' as <-.
  intros EF r sc nm k t l a H. apply DD in H as (_ & (nd & Hn & _ & Ht & T) & _).
  specialize (EF r nd t Hn).
  unfold translate_op in T. destruct (n_op nd) eqn:Eo; try discriminate T; try (destruct (operands w r) as [|? [|]]; discriminate T).
  rewrite result_other in Ht by (intros; congruence). assert (TR : type_of w r = Some t) by (unfold type_of; rewrite Hn; exact Ht).
  injection T as Es En _. rewrite <- En, <- Es. specialize (EF eq_refl TR). destruct (n_vk nd); exact EF.
Qed.
End Kernel.
