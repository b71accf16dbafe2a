(** * Types of the values of a DFCIR program (specification and invariance under the passes). *)
From Coq Require Import ZArith Bool String Lia.
From stdpp Require Import gmap list.
From Verif Require Import Instance InstanceSpec InstanceMain InstanceDrop InstanceFlow Types Word Value Graph GraphSpec BuilderProofs BuilderProofs2 BuilderTopo GraphFacts KernelSort TopSort TypingSpec TypesProofs TypingProofs
     Dfcir StreamSpec Sched SchedSpec DfcirProofs SchedStream SchedMain SchedFinal DfcirBuild KernelSpec KernelFlow Linear Pipeline Latency LatencySpec LatencyProofs.
Local Open Scope Z_scope.

(** [v] is defined with type [t] *)
Definition has_ty (P : program) (v : nat) (t : dftype) : Prop := exists o k l a, Def v o k t l a ∈ P.

(** the result type [t] of an operation whose operands have types [ts]; raw bits count as
    an unsigned integer *)
Definition dtyping (o : dop) (t : dftype) (ts : list dftype) : Prop :=
  match o with
  | DIn _ _ | DOut _ _ | DConst _ => ts = []
  | DOffset _ | DLatency | DUn _ | DShl _ | DShr _ => exists a, ts = [a] /\ kind a = kind t
  | DMux => exists c arms a, ts = c :: arms ++ [a] /\ kind a = kind t
  | DBin b => exists t1 t2, ts = [t1; t2] /\ if is_comp b then t = TFixed false 1 0 else kind t = kind t1
  | DCast => exists a, ts = [a]
  | DBits l r => exists a, ts = [a] /\ 0 <= r <= l /\ l < total_bits a /\ t = TRaw ((l - r + 1) mod 65536)
  | DCat => exists a b, ts = [a; b] /\ t = TRaw ((total_bits a + total_bits b) mod 65536)
  end.

Record ptyped (P : program) : Prop := {
  pt_defs : NoDup (defs P);
  pt_dests : NoDup (dests P);
  pt_wf : forall v t, has_ty P v t -> wf_type t;
  pt_args : forall r o k t l a, Def r o k t l a ∈ P -> exists ts, Forall2 (has_ty P) a ts /\ dtyping o t ts;
  pt_con : forall d s, Con d s ∈ P -> (exists sc nm k t l a, Def d (DOut sc nm) k t l a ∈ P) /\ (exists t, has_ty P s t);
  pt_rank : exists rk : nat -> nat, forall r o k t l a x, Def r o k t l a ∈ P -> x ∈ a -> (rk x < rk r)%nat
}.

Lemma kind_wf a b : kind a = kind b -> wf_type a -> wf_type b.
Proof. destruct a, b; cbn; intros H; try discriminate H; injection H; intros; subst; cbn in *; lia. Qed.
Lemma kind_bits a b : kind a = kind b -> wf_type a -> total_bits a = total_bits b.
Proof.
  destruct a, b; cbn; intros H; try discriminate H; injection H; intros; subst; cbn in *; try reflexivity; unfold u16.
  - rewrite Z.add_0_r, Z.mod_small; lia.
  - rewrite Z.add_0_r, Z.mod_small; lia.
Qed.
Lemma dtyping_kinds o t ts ts' : map kind ts = map kind ts' -> Forall wf_type ts -> dtyping o t ts -> dtyping o t ts'.
Proof.
  intros E W. assert (L : length ts = length ts') by (rewrite <- (map_length kind), E, map_length; reflexivity).
  assert (ONE : forall a, ts = [a] -> exists a', ts' = [a'] /\ kind a = kind a').
  { intros a ->. destruct ts' as [|a' [|]]; try discriminate L. exists a'. injection E as E. auto. }
  assert (TWO : forall a b, ts = [a; b] -> exists a' b', ts' = [a'; b'] /\ kind a = kind a' /\ kind b = kind b').
  { intros a b ->. destruct ts' as [|a' [|b' [|]]]; try discriminate L. exists a', b'. injection E as E1 E2. auto. }
  destruct o; cbn.
  - intros ->. destruct ts'; [reflexivity|discriminate].
  - intros ->. destruct ts'; [reflexivity|discriminate].
  - intros ->. destruct ts'; [reflexivity|discriminate].
  - intros (a & X & Y). destruct (ONE a X) as (a' & -> & Z). exists a'. split; [reflexivity|congruence].
  - intros (c & arms & a & -> & Y). destruct ts' as [|c' ts']; [discriminate|]. injection E as _ E.
    destruct (exists_last (l := ts')) as (arms' & a' & ->); [intros ->; destruct arms; discriminate|].
    rewrite !map_app in E. apply app_inj_tail in E as [_ E]. exists c', arms', a'. split; [reflexivity|congruence].
  - intros (a & b & X & Y). destruct (TWO a b X) as (a' & b' & -> & Z1 & Z2). exists a', b'. split; [reflexivity|]. destruct (is_comp _); [exact Y|congruence].
  - intros (a & X & Y). destruct (ONE a X) as (a' & -> & Z). exists a'. split; [reflexivity|congruence].
  - intros (a & X). destruct (ONE a X) as (a' & Y & Z). eauto.
  - intros (a & X & Y). destruct (ONE a X) as (a' & -> & Z). exists a'. split; [reflexivity|congruence].
  - intros (a & X & Y). destruct (ONE a X) as (a' & -> & Z). exists a'. split; [reflexivity|congruence].
  - intros (a & X & Y). destruct (ONE a X) as (a' & -> & Z). subst ts. inversion W. subst. exists a'. split; [reflexivity|]. rewrite <- (kind_bits a a') by assumption. exact Y.
  - intros (a & b & X & Y). destruct (TWO a b X) as (a' & b' & -> & Z1 & Z2). subst ts. apply Forall_cons in W as [W1 W']. apply Forall_cons in W' as [W2 _]. exists a', b'. split; [reflexivity|].
    rewrite <- (kind_bits a a'), <- (kind_bits b b') by assumption. exact Y.
  - intros (a & X & Y). destruct (ONE a X) as (a' & -> & Z). exists a'. split; [reflexivity|congruence].
Qed.

Lemma has_ty_def P v t : has_ty P v t -> v ∈ defs P.
Proof. intros (o & k & l & a & H). apply elem_of_list_omap. eexists. split; [exact H|reflexivity]. Qed.
Lemma def_has_ty P v : v ∈ defs P -> exists t, has_ty P v t.
Proof. intro H. apply elem_of_list_omap in H as (s & H & E). destruct s as [r o k t l a|]; [|discriminate]. injection E as ->. exists t, o, k, l, a. exact H. Qed.
Lemma has_ty_fun P v t t' : NoDup (defs P) -> has_ty P v t -> has_ty P v t' -> t = t'.
Proof.
  intros N (o & k & l & a & H) (o' & k' & l' & a' & H').
  pose proof (def_unique _ _ _ _ _ _ _ _ _ _ _ _ N H H') as X. now injection X.
Qed.

(** ** Buffer insertion *)
Lemma insert_new P c lat f P' : insert_buffer P c lat f = Some P' -> f ∉ defs P ->
  forall o k t l a, Def f o k t l a ∈ P' -> exists v, a = [v] /\ val_ty P v = (k, t).
Proof.
  unfold insert_buffer. intros E NF o k t l a H.
  assert (NP : forall o k t l a, Def f o k t l a ∉ P) by (intros; intro X; apply NF; apply defs_elem; eauto 10).
  destruct (lat <=? 0); [discriminate|]. destruct (0 <=? sc_ind c).
  - destruct (def_of P (sc_tgt c)) as [[[[[o0 k0] t0] l0] args]|] eqn:Ed; [|discriminate]. destruct (args !! Z.to_nat (sc_ind c)) as [v|] eqn:Ev; [|discriminate].
    destruct (val_ty P v) as [kv tv] eqn:Et. injection E as <-. apply elem_mjoin_map in H as (s & Hs & Hx).
    destruct s as [r' o' k' t' l' a'|d v']; [|rewrite elem_of_list_singleton in Hx; discriminate].
    destruct (Nat.eqb r' (sc_tgt c)); rewrite !elem_of_cons, elem_of_nil in Hx; repeat destruct Hx as [Hx|Hx]; try contradiction; injection Hx; intros; subst; try (exfalso; eapply NP; exact Hs); eauto.
  - destruct (sc_ind c =? -1); [|discriminate]. destruct (con_of P (sc_tgt c)) as [v|]; [|discriminate].
    destruct (val_ty P v) as [kv tv] eqn:Et. injection E as <-. apply elem_mjoin_map in H as (s & Hs & Hx). destruct s as [r' o' k' t' l' a'|d v'].
    + rewrite elem_of_list_singleton in Hx. injection Hx; intros; subst. exfalso. eapply NP; exact Hs.
    + destruct (Nat.eqb d (sc_tgt c)); rewrite !elem_of_cons, elem_of_nil in Hx; repeat destruct Hx as [Hx|Hx]; try contradiction; try discriminate.
      injection Hx; intros; subst. eauto.
Qed.
Lemma val_ty_has P v k t : NoDup (defs P) -> val_ty P v = (k, t) -> v ∈ defs P -> has_ty P v t.
Proof.
  intros N E H. apply defs_elem in H as (o' & k' & t' & l' & a' & H). unfold val_ty in E. rewrite (def_of_def _ _ _ _ _ _ _ N H) in E.
  injection E as -> ->. exists o', k, l', a'. exact H.
Qed.
Lemma forall2_mono {A B} (R R' : A -> B -> Prop) l m : (forall x y, R x y -> R' x y) -> Forall2 R l m -> Forall2 R' l m.
Proof. intros H. induction 1; constructor; auto. Qed.
Lemma forall2_insert {A B} (R : A -> B -> Prop) l m i x y : Forall2 R l m -> m !! i = Some y -> R x y -> Forall2 R (<[i := x]> l) m.
Proof.
  intros F. revert i. induction F as [|a b l m H F IH]; intros i E X; [constructor|].
  destruct i as [|i]; cbn in *; [injection E as ->; constructor; auto|constructor; auto].
Qed.

(** what inserting a buffer does to the program *)
Lemma insert_shape P c lat f P' : ptyped P -> (forall v, v ∈ defs P -> (v < f)%nat) -> insert_buffer P c lat f = Some P' ->
  defs P' ≡ₚ f :: defs P /\ dests P' = dests P /\ (forall v t, has_ty P v t -> has_ty P' v t) /\ (forall v t, has_ty P' v t -> v <> f -> has_ty P v t) /\
  exists v tv, has_ty P v tv /\ has_ty P' f tv /\ ((exists r o k t l a, Def r o k t l a ∈ P /\ v ∈ a) \/ (exists d, Con d v ∈ P)) /\
     (forall o k t l a, Def f o k t l a ∈ P' -> o = DLatency /\ t = tv /\ a = [v] /\ l = lat /\ 0 < lat) /\
     (forall r o k t l a, Def r o k t l a ∈ P' -> r <> f -> exists a0 ts, Forall2 (has_ty P) a0 ts /\ Forall2 (has_ty P') a ts /\ Def r o k t l a0 ∈ P) /\
     (forall d s, Con d s ∈ P' -> s = f \/ Con d s ∈ P) /\ (forall d s, Con d s ∈ P' -> exists s', Con d s' ∈ P) /\
     (forall r o k t l a x, Def r o k t l a ∈ P' -> r <> f -> x ∈ a -> exists a0, Def r o k t l a0 ∈ P /\ (x ∈ a0 \/ (x = f /\ v ∈ a0))).
Proof.
  intros [N1 N2 W A Cn [rk RK]] LT E.
  assert (NF : f ∉ defs P) by (intro X; apply LT in X; lia).
  pose proof (insert_new _ _ _ _ _ E NF) as NEW. destruct (insert_keeps _ _ _ _ _ E) as [K1 K2].
  assert (MONO : forall v t, has_ty P v t -> has_ty P' v t).
  { intros v t (o & k & l & a & H). apply K1 in H as (a' & H). exists o, k, l, a'. exact H. }
  destruct (insert_split _ _ _ _ _ N1 N2 E) as [LP SP].
  assert (DD : defs P' ≡ₚ f :: defs P /\ dests P' = dests P).
  { destruct SP as [(_ & p & q & o & k & t & l & a & v & k' & t' & -> & _ & ->)|(_ & p & q & v & k' & t' & -> & ->)];
    unfold defs, dests; rewrite !omap_app; cbn; split; try reflexivity; symmetry; apply Permutation_middle. }
  destruct DD as [DP DS].
  assert (OLD : forall v t, has_ty P' v t -> v <> f -> has_ty P v t).
  { intros v t (o & k & l & a & H) Nv. pose proof H as H0. apply K2 in H as [(a' & H)|[L ->]].
    - exists o, k, l, a'. exact H.
    - exfalso. assert (X : v ∈ f :: defs P) by (rewrite <- DP; apply defs_elem; eauto 10).
      apply elem_of_cons in X as [X|X]; [auto|]. apply LT in X. lia. }
  assert (FT : forall v t, (exists r o k t l a, Def r o k t l a ∈ P /\ v ∈ a) \/ (exists d, Con d v ∈ P) -> (exists k, val_ty P v = (k, t)) -> has_ty P v t).
  { intros v t RD (k & Et). eapply val_ty_has; [assumption|exact Et|].
    destruct RD as [(r & o & k1 & t1 & l & a & H & Hv)|(d & H)].
    - destruct (A _ _ _ _ _ _ H) as (ts & F2 & _). apply elem_of_list_lookup in Hv as (i & Hi).
      destruct (Forall2_lookup_l _ _ _ _ _ F2 Hi) as (tv & _ & X). eapply has_ty_def. exact X.
    - destruct (Cn _ _ H) as [_ (tv & X)]. eapply has_ty_def. exact X. }
  split; [exact DP|]. split; [exact DS|]. split; [exact MONO|]. split; [exact OLD|].
  assert (N' : NoDup (defs P')) by (rewrite DP; apply NoDup_cons; auto).
    destruct SP as [(_ & p & q & o & k & t & l & a & v & k' & t' & EQ & Ev & EQ')|(_ & p & q & v & k' & t' & EQ & EQ')].
    - assert (Hf : Def f DLatency k' t' lat [v] ∈ P') by (rewrite EQ'; apply elem_of_app; right; left).
      destruct (NEW _ _ _ _ _ Hf) as (v' & Ea & Et). injection Ea as <-.
      assert (Hd : Def (sc_tgt c) o k t l a ∈ P) by (rewrite EQ; apply elem_of_app; right; left).
      assert (Hv : has_ty P v t').
      { apply FT; [left; exists (sc_tgt c), o, k, t, l, a; split; [exact Hd|eapply elem_of_list_lookup_2; exact Ev]|eauto]. }
      assert (Hft : has_ty P' f t') by (exists DLatency, k', lat, [v]; exact Hf).
      exists v, t'. split; [exact Hv|]. split; [exact Hft|]. split; [left; exists (sc_tgt c), o, k, t, l, a; split; [exact Hd|eapply elem_of_list_lookup_2; exact Ev]|]. split.
      { intros o1 k1 t1 l1 a1 H1. pose proof (def_unique _ _ _ _ _ _ _ _ _ _ _ _ N' Hf H1) as X. injection X as -> -> -> -> ->. auto 10. }
      split.
      { intros r o1 k1 t1 l1 a1 H1 Nr. rewrite EQ' in H1. rewrite elem_of_app, !elem_of_cons in H1.
        assert (OL : forall a2, Def r o1 k1 t1 l1 a2 ∈ P -> a2 = a1 -> exists a0 ts, Forall2 (has_ty P) a0 ts /\ Forall2 (has_ty P') a1 ts /\ Def r o1 k1 t1 l1 a0 ∈ P).
        { intros a2 H2 ->. destruct (A _ _ _ _ _ _ H2) as (ts & F2 & _). exists a1, ts. split; [exact F2|]. split; [|exact H2]. eapply forall2_mono; [|exact F2]. exact MONO. }
        destruct H1 as [H1|[H1|[H1|H1]]].
        - apply (OL a1); [rewrite EQ; apply elem_of_app; left; exact H1|reflexivity].
        - injection H1 as ->. contradiction.
        - injection H1 as -> -> -> -> -> ->. destruct (A _ _ _ _ _ _ Hd) as (ts & F2 & _). exists a, ts. split; [exact F2|]. split; [|exact Hd].
          destruct (Forall2_lookup_l _ _ _ _ _ F2 Ev) as (tv & Etv & X). rewrite (has_ty_fun P v tv t' N1 X Hv) in Etv.
          eapply forall2_insert; [eapply forall2_mono; [|exact F2]; exact MONO|exact Etv|exact Hft].
        - apply (OL a1); [rewrite EQ; apply elem_of_app; right; right; exact H1|reflexivity]. }
      assert (CC : forall d s, Con d s ∈ P' -> Con d s ∈ P).
      { intros d s H. rewrite EQ' in H. rewrite EQ. rewrite elem_of_app, !elem_of_cons in *. destruct H as [H|[H|[H|H]]]; try discriminate; auto. }
      split; [auto|]. split; [intros d s H; exists s; auto|].
      intros r o1 k1 t1 l1 a1 x H1 Nr Hx. rewrite EQ' in H1. rewrite elem_of_app, !elem_of_cons in H1.
      destruct H1 as [H1|[H1|[H1|H1]]].
      + exists a1. split; [rewrite EQ; apply elem_of_app; left; exact H1|auto].
      + injection H1 as ->. contradiction.
      + injection H1 as -> -> -> -> -> ->. exists a. split; [exact Hd|]. apply elem_of_list_lookup in Hx as (i & Hx).
        destruct (decide (i = Z.to_nat (sc_ind c))) as [->|Ni].
        * rewrite list_lookup_insert in Hx by (eapply lookup_lt_Some; exact Ev). injection Hx as <-. right. split; [reflexivity|]. eapply elem_of_list_lookup_2; exact Ev.
        * rewrite list_lookup_insert_ne in Hx by auto. left. eapply elem_of_list_lookup_2; exact Hx.
      + exists a1. split; [rewrite EQ; apply elem_of_app; right; right; exact H1|auto].
    - assert (Hf : Def f DLatency k' t' lat [v] ∈ P') by (rewrite EQ'; apply elem_of_app; right; left).
      destruct (NEW _ _ _ _ _ Hf) as (v' & Ea & Et). injection Ea as <-.
      assert (Hd : Con (sc_tgt c) v ∈ P) by (rewrite EQ; apply elem_of_app; right; left).
      assert (Hv : has_ty P v t') by (apply FT; [right; exists (sc_tgt c); exact Hd|eauto]).
      assert (Hft : has_ty P' f t') by (exists DLatency, k', lat, [v]; exact Hf).
      exists v, t'. split; [exact Hv|]. split; [exact Hft|]. split; [right; exists (sc_tgt c); exact Hd|]. split.
      { intros o1 k1 t1 l1 a1 H1. pose proof (def_unique _ _ _ _ _ _ _ _ _ _ _ _ N' Hf H1) as X. injection X as -> -> -> -> ->. auto 10. }
      split.
      { intros r o1 k1 t1 l1 a1 H1 Nr. assert (H2 : Def r o1 k1 t1 l1 a1 ∈ P).
        { rewrite EQ' in H1. rewrite EQ. rewrite elem_of_app, !elem_of_cons in *. destruct H1 as [H1|[H1|[H1|H1]]]; try discriminate; auto. injection H1 as ->. contradiction. }
        destruct (A _ _ _ _ _ _ H2) as (ts & F2 & _). exists a1, ts. split; [exact F2|]. split; [|exact H2]. eapply forall2_mono; [|exact F2]. exact MONO. }
      assert (CC : forall d s, Con d s ∈ P' -> (d = sc_tgt c /\ s = f) \/ Con d s ∈ P).
      { intros d s H. rewrite EQ' in H. rewrite EQ. rewrite elem_of_app, !elem_of_cons in *. destruct H as [H|[H|[H|H]]]; try discriminate; auto. injection H as -> ->. auto. }
      split; [intros d s H; apply CC in H as [[-> ->]|H]; eauto|]. split; [intros d s H; apply CC in H as [[-> ->]|H]; eauto|].
      intros r o1 k1 t1 l1 a1 x H1 Nr Hx. exists a1. split; [|auto].
      rewrite EQ' in H1. rewrite EQ. rewrite elem_of_app, !elem_of_cons in *. destruct H1 as [H1|[H1|[H1|H1]]]; try discriminate; auto. injection H1 as ->. contradiction.
Qed.

Lemma insert_ptyped P c lat f P' : ptyped P -> (forall v, v ∈ defs P -> (v < f)%nat) -> insert_buffer P c lat f = Some P' ->
  ptyped P' /\ (forall v, v ∈ defs P' -> (v < S f)%nat) /\ forall v t, has_ty P v t -> has_ty P' v t.
Proof.
  intros T LT E. destruct (insert_shape _ _ _ _ _ T LT E) as (DP & DS & MONO & OLD & v & tv & Hv & Hf & _ & NF1 & NF2 & NF3 & NF4 & NF5).
  destruct T as [N1 N2 W A Cn [rk RK]].
  assert (NF : f ∉ defs P) by (intro X; apply LT in X; lia). destruct (insert_keeps _ _ _ _ _ E) as [K1 K2].
  split; [constructor|split; [|exact MONO]].
  - rewrite DP. apply NoDup_cons. auto.
  - rewrite DS. exact N2.
  - intros x t H. destruct (decide (x = f)) as [->|Nx]; [|eapply W; apply OLD; eassumption].
    destruct H as (o & k & l & a & H). destruct (NF1 _ _ _ _ _ H) as (_ & -> & _ & _). eapply W. exact Hv.
  - intros r o k t l a H. destruct (decide (r = f)) as [->|Nr].
    + destruct (NF1 _ _ _ _ _ H) as (-> & -> & -> & _ & _). exists [tv]. split; [|exists tv; auto]. constructor; [|constructor]. apply MONO. exact Hv.
    + destruct (NF2 _ _ _ _ _ _ H Nr) as (a0 & ts & F0 & F2 & H0). destruct (A _ _ _ _ _ _ H0) as (ts' & F0' & T).
      exists ts. split; [exact F2|]. replace ts with ts'; [exact T|]. clear -F0 F0' N1. revert ts' F0'.
      induction F0 as [|x y a0 ts HX F0 IH]; intros ts' F0'; inversion F0'; subst; [reflexivity|]. f_equal; [eapply has_ty_fun; eassumption|auto].
  - intros d s H. split.
    + destruct (NF4 _ _ H) as (s' & H'). destruct (Cn _ _ H') as [(sc & nm & k & t & l & a & X) _]. apply K1 in X as (a' & X). eauto 10.
    + destruct (NF3 _ _ H) as [->|H']; [eauto|]. destruct (Cn _ _ H') as [_ (t & X)]. exists t. auto.
  - exists (fun x => if Nat.eqb x f then S (2 * rk v) else 2 * rk x)%nat. intros r o k t l a x H Hx.
    assert (Lv : v <> f) by (intros ->; apply NF; eapply has_ty_def; exact Hv).
    destruct (decide (r = f)) as [->|Nr].
    + destruct (NF1 _ _ _ _ _ H) as (-> & -> & -> & _ & _). apply elem_of_list_singleton in Hx as ->. rewrite Nat.eqb_refl. apply Nat.eqb_neq in Lv. rewrite Lv. lia.
    + destruct (NF5 _ _ _ _ _ _ _ H Nr Hx) as (a0 & H0 & X). apply Nat.eqb_neq in Nr. rewrite Nr. destruct X as [X|[-> X]].
      * pose proof (RK _ _ _ _ _ _ _ H0 X). destruct (A _ _ _ _ _ _ H0) as (ts & F2 & _). apply elem_of_list_lookup in X as (i & Hi).
        destruct (Forall2_lookup_l _ _ _ _ _ F2 Hi) as (ty & _ & Y). apply has_ty_def in Y.
        destruct (Nat.eqb_spec x f) as [->|]; [contradiction|]. lia.
      * pose proof (RK _ _ _ _ _ _ _ H0 X). rewrite Nat.eqb_refl. lia.
  - intros x H. rewrite DP in H. apply elem_of_cons in H as [->|H]; [lia|]. apply LT in H. lia.
Qed.
Lemma inserts_ptyped : forall bs P f P', ptyped P -> (forall v, v ∈ defs P -> (v < f)%nat) -> insert_buffers P bs f = Some P' ->
  ptyped P' /\ forall v t, has_ty P v t -> has_ty P' v t.
Proof.
  induction bs as [|[c lat] bs IH]; intros P f P' T L E; cbn in E; [injection E as <-; auto|].
  destruct (insert_buffer P c lat f) as [P1|] eqn:E1; [|discriminate].
  destruct (insert_ptyped _ _ _ _ _ T L E1) as (T1 & L1 & M1). destruct (IH _ _ _ T1 L1 E) as [T2 M2]. auto.
Qed.

(** ** Offsets are erased *)
Lemma erase_ptyped P v : ptyped P -> ptyped (erase_offset P v) /\
  (forall x t, has_ty (erase_offset P v) x t -> has_ty P x t).
Proof.
  intros T. pose proof T as [N1 N2 W A Cn [rk RK]]. unfold erase_offset. destruct (def_of P v) as [[[[[o0 k0] t0] l0] args]|] eqn:E; [|auto].
  destruct o0; auto. destruct args as [|s args]; auto.
  pose proof (def_of_in _ _ _ _ _ _ _ E) as Hv. destruct (A _ _ _ _ _ _ Hv) as (ts & F2 & DT). cbn in DT. destruct DT as (ta & -> & Ka).
  inversion F2 as [|? ? ? ? Hs F2' X1 X2]. inversion F2'. subst. clear F2 F2'.
  set (P' := map (subst_stmt v s) (List.filter (fun x => negb (is_def v x)) P)).
  assert (IN : forall st, st ∈ P' <-> exists st0, st0 ∈ P /\ is_def v st0 = false /\ st = subst_stmt v s st0).
  { intros st. unfold P'. rewrite elem_of_list_In, in_map_iff. split.
    - intros (st0 & <- & H). apply List.filter_In in H as [H X]. exists st0. rewrite elem_of_list_In. apply negb_true_iff in X. auto.
    - intros (st0 & H & X & ->). exists st0. split; [reflexivity|]. apply List.filter_In. rewrite <- elem_of_list_In, X. auto. }
  assert (DEFB : forall r o k t l a, Def r o k t l a ∈ P' -> r <> v /\ exists a0, Def r o k t l a0 ∈ P /\ a = map (subst_val v s) a0).
  { intros r o k t l a H. apply IN in H as (st & H & X & Es). destruct st as [r' o' k' t' l' a'|]; [|discriminate]. injection Es as -> -> -> -> -> ->.
    cbn in X. apply Nat.eqb_neq in X. eauto. }
  assert (DEFF : forall r o k t l a0, r <> v -> Def r o k t l a0 ∈ P -> Def r o k t l (map (subst_val v s) a0) ∈ P').
  { intros r o k t l a0 Nr H. apply IN. eexists. split; [exact H|]. cbn. split; [apply Nat.eqb_neq; exact Nr|reflexivity]. }
  assert (TB : forall x t, has_ty P' x t -> has_ty P x t).
  { intros x t (o & k & l & a & H). apply DEFB in H as (_ & a0 & H & _). exists o, k, l, a0. exact H. }
  assert (SV : s <> v) by (intros ->; pose proof (RK _ _ _ _ _ _ v Hv ltac:(left)); lia).
  assert (TF : forall x t, has_ty P x t -> x <> v -> has_ty P' x t).
  { intros x t (o & k & l & a & H) Nx. exists o, k, l, (map (subst_val v s) a). auto. }
  assert (SUB : forall x t, has_ty P x t -> exists t', has_ty P' (subst_val v s x) t' /\ kind t = kind t').
  { intros x t H. unfold subst_val. destruct (Nat.eqb_spec x v) as [->|Nx]; [|eauto].
    rewrite (has_ty_fun P v t t0 N1 H); [eauto|]. exists (DOffset offset), k0, l0, [s]. exact Hv. }
  assert (NOUT : forall d x, Con d x ∈ P -> subst_val v s d = d).
  { intros d x H. destruct (Cn _ _ H) as [(sc & nm & k & t & l & a & X) _]. unfold subst_val. destruct (Nat.eqb_spec d v) as [->|]; [|reflexivity].
    pose proof (def_unique _ _ _ _ _ _ _ _ _ _ _ _ N1 Hv X) as Y. discriminate Y. }
  split; [constructor|exact TB].
  - unfold P'. rewrite defs_subst. apply defs_filter_nodup. exact N1.
  - replace (dests P') with (dests P); [exact N2|]. unfold P'. clear -NOUT. induction P as [|st P IH]; [reflexivity|].
    specialize (IH (fun d x H => NOUT d x (elem_of_list_further _ _ _ H))). destruct st as [r o k t l a|d x]; cbn.
    + destruct (Nat.eqb r v); cbn; exact IH.
    + unfold dests in *. cbn. rewrite (NOUT d x ltac:(left)). f_equal. exact IH.
  - intros x t H. eapply W. apply TB. exact H.
  - intros r o k t l a H. apply DEFB in H as (Nr & a0 & H & ->). destruct (A _ _ _ _ _ _ H) as (ts & F2 & DT).
    assert (exists ts', Forall2 (has_ty P') (map (subst_val v s) a0) ts' /\ map kind ts = map kind ts') as (ts' & G2 & EK).
    { clear -F2 SUB. induction F2 as [|x t l m Hx F2 (m' & IH1 & IH2)]; [exists []; split; [constructor|reflexivity]|].
      destruct (SUB x t Hx) as (t' & H1 & H2). exists (t' :: m'). split; [constructor; assumption|cbn; congruence]. }
    exists ts'. split; [exact G2|]. eapply dtyping_kinds; [exact EK| |exact DT]. clear -F2 W. induction F2; constructor; eauto.
  - intros d x H. apply IN in H as (st & H & _ & E2). destruct st as [|d' x']; [discriminate|]. injection E2 as -> ->.
    destruct (Cn _ _ H) as [(sc & nm & k & t & l & a & X) (t2 & H2)]. split; [|destruct (SUB x' t2 H2) as (t' & Y & _); eauto].
    rewrite (NOUT d' x' H). exists sc, nm, k, t, l, (map (subst_val v s) a). apply DEFF; [|exact X].
    intros ->. pose proof (def_unique _ _ _ _ _ _ _ _ _ _ _ _ N1 Hv X) as Y. discriminate Y.
  - exists rk. intros r o k t l a x H Hx. apply DEFB in H as (Nr & a0 & H & ->). apply elem_of_list_fmap in Hx as (y & -> & Hy).
    pose proof (RK _ _ _ _ _ _ _ H Hy). unfold subst_val. destruct (Nat.eqb_spec y v) as [->|]; [|assumption].
    pose proof (RK _ _ _ _ _ _ s Hv ltac:(left)). lia.
Qed.
Lemma erases_ptyped P : ptyped P -> ptyped (erase_offsets P) /\ forall x t, has_ty (erase_offsets P) x t -> has_ty P x t.
Proof.
  unfold erase_offsets. generalize (offset_ids P). intro ids. revert P. induction ids as [|v ids IH]; intros P T; cbn; [auto|].
  destruct (erase_ptyped P v T) as [T1 M1]. destruct (IH _ T1) as [T2 M2]. auto.
Qed.

(** ** Latencies *)
Lemma cfg_ptyped cfg P : ptyped P -> ptyped (apply_config cfg P).
Proof.
  intros [N1 N2 W A Cn [rk RK]].
  assert (TB : forall v t, has_ty (apply_config cfg P) v t <-> has_ty P v t).
  { intros v t. split; intros (o & k & l & a & H).
    - apply cfg_def_inv in H as (l' & H). exists o, k, l', a. exact H.
    - apply (cfg_def cfg) in H as (l' & H). exists o, k, l', a. exact H. }
  constructor.
  - rewrite cfg_defs. exact N1.
  - rewrite cfg_dests. exact N2.
  - intros v t H. apply TB in H. eauto.
  - intros r o k t l a H. apply cfg_def_inv in H as (l' & H). destruct (A _ _ _ _ _ _ H) as (ts & F2 & DT). exists ts. split; [|exact DT].
    eapply forall2_mono; [|exact F2]. intros x y. apply TB.
  - intros d s H. apply cfg_con_inv in H. destruct (Cn _ _ H) as [(sc & nm & k & t & l & a & X) (t2 & H2)]. split.
    + apply (cfg_def cfg) in X as (l' & X). eauto 10.
    + exists t2. apply TB. exact H2.
  - exists rk. intros r o k t l a x H. apply cfg_def_inv in H as (l' & H). eauto.
Qed.
Lemma fresh_lt P v : v ∈ defs P -> (v < fresh P)%nat.
Proof. intro H. apply defs_elem in H as (o & k & t & l & a & H). apply fresh_spec. eexists. split; [exact H|]. cbn. left. Qed.

(** the three schedulers *)
Definition scheduled (P Q : program) : Prop :=
  (exists cfg perm L, asap_pass cfg perm P = Some (Q, L)) \/
  (exists solve cfg perm L, linear_pass solve cfg perm P = Some (Q, L)) \/
  (exists rnd eps m perm, comb_pass rnd eps m perm P = Some Q).
Theorem scheduled_ptyped P Q : ptyped P -> scheduled P Q -> ptyped Q.
Proof.
  intros T [(cfg & perm & L & E)|[(solve & cfg & perm & L & E)|(rnd & eps & m & perm & E)]].
  - unfold asap_pass in E. destruct (sgraph _) as [[ns cs]|]; [|discriminate]. destruct (asap ns cs) as [[[mm bs] mx]|]; [|discriminate].
    destruct (insert_buffers _ _ _) as [P2|] eqn:E2; [|discriminate]. injection E as <- _.
    apply erases_ptyped. eapply inserts_ptyped; [apply cfg_ptyped; exact T|apply fresh_lt|exact E2].
  - unfold linear_pass in E. destruct (sgraph _) as [[ns cs]|]; [|discriminate]. destruct (lp_schedule _ _ _) as [bs|]; [|discriminate].
    destruct (insert_buffers _ _ _) as [P2|] eqn:E2; [|discriminate]. injection E as <- _.
    apply erases_ptyped. eapply inserts_ptyped; [apply cfg_ptyped; exact T|apply fresh_lt|exact E2].
  - unfold Pipeline.comb_pass in E. destruct (Z.eqb_spec m 0); [injection E as <-; exact T|]. set (P1 := apply_config _ P) in E.
    destruct (Pipeline.cgraph P1) as [[ns cs]|]; [|discriminate]. destruct (Pipeline.comb_layers ns cs) as [mm mx].
    destruct (Pipeline.cascades _ _ _ _) as [ks|]; [|discriminate]. destruct (Pipeline.comb_buffers _ _ _ _) as [bs|]; [|discriminate].
    eapply inserts_ptyped; [apply cfg_ptyped; exact T|apply fresh_lt|exact E].
Qed.

(** ** Kernels *)
(** the types a program creates are those the constructors of DFType make (C03), and the
    variables bound to the ports of a sub-kernel have the types of these ports *)
Definition made_types (h : list icmd) : Prop := forall t, ICall (CType t) ∈ h -> wf_type t.
Definition good_types (F : fltops) (h : list icmd) : Prop := made_types h /\ bindings_typed F init_world h.

Ltac ropenall H := repeat match type of H with rbind _ _ = Ok _ =>
  let x := fresh "x" in let X := fresh "X" in apply rbind_ok in H; destruct H as (x & X & H); try match type of x with (_ * _)%type => destruct x as [? ?] end end.
Lemma add_node_types w k o ty vk nm w' n : add_node w k o ty vk nm = Ok (w', n) -> w_types w' = w_types w.
Proof. unfold add_node. intro H. ropenall H. injection H as <- _. reflexivity. Qed.
Lemma add_chan_types w k s t i c w' : add_chan w k s t i c = Ok w' -> w_types w' = w_types w.
Proof.
  unfold add_chan. intro H. ropenall H. destruct (_ && _); [|discriminate]. unfold add_chan_nodes in H. ropenall H. injection H as <-. reflexivity.
Qed.
Lemma add_chans_types : forall srcs w k t i w', add_chans w k srcs t i = Ok w' -> w_types w' = w_types w.
Proof.
  induction srcs as [|s srcs IH]; intros w k t i w' H; cbn in H; [injection H as <-; reflexivity|].
  ropenall H. apply IH in H. rewrite H. eapply add_chan_types. eassumption.
Qed.
Lemma mk_op_types w k o ty args w' n : mk_op w k o ty args = Ok (w', n) -> w_types w' = w_types w.
Proof.
  unfold mk_op. destruct (forallb _ _); [|discriminate]. intro H. ropenall H. injection H as <- _.
  match goal with X : add_chans _ _ _ _ _ = _ |- _ => apply add_chans_types in X; rewrite X end.
  eapply add_node_types. eassumption.
Qed.
Lemma const_types w ty v w' n : create_or_use_const w ty v = Ok (w', n) -> w_types w' = w_types w.
Proof.
  unfold create_or_use_const. intro H. ropenall H. destruct (List.find _ _); [injection H as <- _; reflexivity|]. eapply add_node_types. eassumption.
Qed.
Lemma step_new_types F w c w' r : step F w c = Ok (w', r) -> w_types w' = w_types w \/ exists t, w_types w' = w_types w ++ [t] /\ (c = CType t \/ (exists n, t = mkRaw n) \/ t = mkBool).
Proof.
  destruct c; cbn [step]; intro H.
  - injection H as <- _. left. reflexivity.
  - injection H as <- _. right. exists t. auto.
  - left. unfold do_io in H. ropenall H. eapply add_node_types. eassumption.
  - left. unfold do_io in H. ropenall H. eapply add_node_types. eassumption.
  - left. unfold do_io in H. ropenall H. eapply add_node_types. eassumption.
  - left. eapply const_types. eassumption.
  - unfold do_bin in H. apply rbind_ok in H as (na & Ha & H). apply rbind_ok in H as (nb & Hb & H).
    assert (MK : forall k, (if is_comp o then let (w1, tb) := add_type w mkBool in mk_op w1 k (BIN o) tb [a; b] else mk_op w k (BIN o) (n_ty na) [a; b]) = Ok (w', r) ->
      w_types w' = w_types w \/ exists t, w_types w' = w_types w ++ [t] /\ (CBin o a b = CType t \/ (exists n, t = mkRaw n) \/ t = mkBool)).
    { intros k X. destruct (is_comp o); [|left; eapply mk_op_types; eassumption]. right. exists mkBool. apply mk_op_types in X. rewrite X. split; [reflexivity|right; right; reflexivity]. }
    destruct (const_value na) as [va|]; [destruct (const_value nb) as [vb|]|]; [|exact (MK _ H)..].
    ropenall H. left. eapply const_types; eassumption.
  - left. unfold do_un in H. ropenall H. destruct (const_value _); [ropenall H; eapply const_types; eassumption|eapply mk_op_types; eassumption].
  - left. unfold do_shift in H. ropenall H. destruct (const_value _); [ropenall H; eapply const_types; eassumption|eapply mk_op_types; eassumption].
  - right. unfold do_slice in H. ropenall H. destruct (_ <=? _); [discriminate|]. eexists. apply mk_op_types in H. rewrite H. split; [reflexivity|]. right. left. eexists. reflexivity.
  - right. unfold do_cat in H. ropenall H. eexists. apply mk_op_types in H. rewrite H. split; [reflexivity|]. right. left. eexists. reflexivity.
  - left. unfold do_cast in H. ropenall H. destruct (Nat.eqb _ _); [injection H as <- _; reflexivity|]. eapply mk_op_types; eassumption.
  - left. unfold do_mux in H. destruct args; [discriminate|]. ropenall H. eapply mk_op_types; eassumption.
  - left. unfold do_offset in H. ropenall H. destruct (n_vk _); try discriminate. eapply mk_op_types; eassumption.
  - left. ropenall H. injection H as <- _. unfold do_connect in *. match goal with X : rbind _ _ = _ |- _ => ropenall X; eapply add_chan_types; exact X end.
Qed.
Lemma step_types F w c w' r : step F w c = Ok (w', r) -> w_types w' = w_types w \/ exists t, w_types w' = w_types w ++ [t] /\ (c = CType t \/ wf_type t).
Proof.
  intro H. apply step_new_types in H as [H|(t & H & [X|[(n & ->)| ->]])]; [auto|eauto| |]; right; eexists; (split; [exact H|right]); [apply mkRaw_wf|apply mkFixed_wf].
Qed.
Lemma run_types F : forall h w w', irun F w h = Ok w' -> instances_ok F w h -> sound w -> made_types h -> Forall wf_type (w_types w) -> Forall wf_type (w_types w').
Proof.
  induction h as [|c h IH]; intros w w' R O S G T; cbn [irun instances_ok] in R, O; [injection R as <-; exact T|].
  ropen R. destruct x as [w1 r]. rewrite Hx in O. destruct O as [O1 O2]. assert (S1 := istep_sound F _ _ _ _ Hx O1 S).
  apply (IH w1); [exact Hy|exact O2|exact S1|intros t Ht; apply G; right; exact Ht|]. destruct c as [c|p k bs|k].
  - cbn in Hx. ropen Hx. destruct x as [w2 r2]. injection Hy0 as <- <-. apply step_types in Hx0 as [->|(t & -> & Ht)]; [exact T|].
    apply Forall_app. split; [exact T|]. constructor; [|constructor]. destruct Ht as [->|Ht]; [apply G; left|exact Ht].
  - destruct S as [W N L]. destruct (instance_runs w p k bs W N L O1) as (w2 & rs & σ & H). change (do_instance w p k bs = Ok (w1, r)) in Hx. rewrite (in_run _ _ _ _ _ _ _ H) in Hx. injection Hx as <- <-.
    rewrite (in_types _ _ _ _ _ _ _ H). exact T.
  - destruct S as [W N L]. destruct (drop_runs w k W N L O1) as (w2 & X). cbn in Hx. rewrite (dd_run _ _ _ X) in Hx. injection Hx as <- <-. rewrite (dd_types _ _ _ X). exact T.
Qed.

Section Kernel.
Variables (F : fltops) (h : list icmd) (w : world) (order : list nat).
Hypothesis R : irun F init_world h = Ok w.
Hypothesis D : idisciplined F init_world h.
Context {kern : nat}.
Hypothesis K1 : only_kernel w kern.
Hypothesis C : complete w kern.
Hypothesis S : sorts w kern order.
Variable P : program.
Hypothesis EP : build w order = Ok P.
Hypothesis GT : good_types F h.

(** the type a value has in the program: that of its node, except for an offset *)
Lemma kernel_has n t : type_of w n = Some t -> exists t', has_ty P n t' /\ kind t' = kind t.
Proof.
  intro Ht. unfold type_of in Ht. destruct (w_nodes w !! n) as [nd|] eqn:Hn; [|discriminate].
  destruct (node_stmt F h w order R D K1 C S P EP n nd Hn) as (o & t' & a & Ht' & T & _ & Hd & _ & RV).
  exists t'. split; [exists o, (n_vk (result_var w nd a)), (-1), a; exact Hd|].
  unfold translate_op in T. destruct (n_op nd) eqn:Eo; try (rewrite result_other in Ht' by (intros; congruence); congruence).
  assert (WT : kind_typed w) by exact (irun_typed F h w R D (proj2 GT)). destruct (WT n nd t Hn Ht) as (args & F2 & args' & EK & TG).
  rewrite Eo in TG. destruct TG as (rest & ->). destruct args as [|ta args]; [discriminate|]. injection EK as EK _.
  inversion F2 as [|x y l' m' H1 H2 E1 E2]. subst. rewrite <- E1 in T. injection T as <- <-. unfold result_var in Ht'. rewrite Eo in Ht'.
  unfold type_of in H1. destruct (w_nodes w !! x) as [nx|]; [|discriminate]. cbn in Ht'. congruence.
Qed.
Lemma kernel_node n t : has_ty P n t -> exists nd t', w_nodes w !! n = Some nd /\ type_of w n = Some t' /\ kind t' = kind t /\ ((forall d, n_op nd <> OFFSET d) -> t' = t).
Proof.
  destruct (flow_facts F h w order R D K1 C S) as (W & DR & ND & LV & TO & NP).
  destruct (build_spec w order W DR ND LV TO NP) as (P' & E' & ED & WP & CB & DD & DC). rewrite EP in E'. injection E' as <-.
  intro H. pose proof H as (o & k & l & a & H0). apply DD in H0 as (_ & (nd & Hn & _ & Ht & T) & _).
  destruct (cs_type _ (proj1 W) n nd Hn) as (t0 & Ht0). assert (Tr : type_of w n = Some t0) by (unfold type_of; rewrite Hn; exact Ht0).
  exists nd, t0. split; [exact Hn|]. split; [exact Tr|]. destruct (kernel_has n t0 Tr) as (t' & H1 & H2).
  rewrite (has_ty_fun P n t t' (wp_defs P WP) H H1). split; [congruence|]. intro No. rewrite <- (has_ty_fun P n t t' (wp_defs P WP) H H1). rewrite result_other in Ht by exact No. congruence.
Qed.
Theorem kernel_ptyped : ptyped P.
Proof.
  destruct (flow_facts F h w order R D K1 C S) as (W & DR & ND & LV & TO & NP).
  destruct (build_spec w order W DR ND LV TO NP) as (P' & E' & ED & WP & CB & DD & DC). rewrite EP in E'. injection E' as <-.
  assert (WT : kind_typed w) by exact (irun_typed F h w R D (proj2 GT)).
  assert (TY : Forall wf_type (w_types w)).
  { eapply run_types; [exact R|exact (disciplined_instances F _ _ D)|exact init_sound|exact (proj1 GT)|constructor]. }
  assert (WFT : forall v t, has_ty P v t -> wf_type t).
  { intros v t (o & k & l & a & H). apply DD in H as (_ & (nd & Hn & _ & Ht & _) & _). rewrite Forall_lookup in TY. eapply TY. exact Ht. }
  constructor.
  - apply WP.
  - apply WP.
  - exact WFT.
  - intros r o k t l a H. pose proof (ex_intro _ o (ex_intro _ k (ex_intro _ l (ex_intro _ a H))) : has_ty P r t) as Hr0.
    apply DD in H as (_ & (nd & Hn & _ & Ht & T) & _).
    destruct (cs_type _ (proj1 W) r nd Hn) as (t0 & Ht0). assert (Tr : type_of w r = Some t0) by (unfold type_of; rewrite Hn; exact Ht0).
    destruct (WT r nd t0 Hn Ht0) as (args0 & F0 & args & EK0 & TG). unfold translate_op in T.
    assert (kind t = kind t0 /\ ((forall d, n_op nd <> OFFSET d) -> t = t0)) as [Kt Et].
    { destruct (kernel_has r t0 Tr) as (t' & H1 & H2). rewrite (has_ty_fun P r t t' (wp_defs P WP) Hr0 H1). split; [exact H2|].
      intro No. rewrite <- (has_ty_fun P r t t' (wp_defs P WP) Hr0 H1). rewrite result_other in Ht by exact No. congruence. }
    assert (exists ts, Forall2 (has_ty P) (operands w r) ts /\ map kind args = map kind ts) as (ts & F2 & EK).
    { rewrite <- EK0. clear -F0 R D K1 C S EP GT. induction F0 as [|x t l m Hx F0 (m' & IH1 & IH2)]; [exists []; split; [constructor|reflexivity]|].
      destruct (kernel_has x t Hx) as (t' & H1 & H2). exists (t' :: m'). split; [constructor; assumption|cbn; congruence]. }
    clear F0 EK0 args0.
    destruct (n_op nd) eqn:Eo; cbn in TG; try discriminate T; try (rewrite (Et ltac:(intros; congruence)) in *; clear Kt Et).
    + destruct TG as (rest & ->). destruct ts as [|ta ts]; [discriminate|]. injection EK as EK _. inversion F2 as [|x y l' m' H1 H2 E1 E2]. rewrite <- E1 in T. injection T as <- <-. exists [ta]. split; [constructor; [exact H1|constructor]|exists ta; split; [reflexivity|congruence]].
    + injection T as <- <-. exists []. split; [constructor|reflexivity].
    + injection T as <- <-. exists []. split; [constructor|reflexivity].
    + injection T as <- <-. exists []. split; [constructor|reflexivity].
    + destruct TG as (c & rest & ->). destruct ts as [|tc [|ta ts]]; try discriminate. injection EK as _ EK _. inversion F2 as [|x y l' m' H1 H2 E1 E2]. rewrite <- E1 in T. injection T as <- <-. exists (tc :: rev (ta :: ts)).
      split; [constructor; [exact H1|]|exists tc, (rev ts), ta; split; [reflexivity|congruence]]. subst. clear -H2. apply Forall2_reverse in H2. unfold reverse in H2. rewrite !rev_append_rev, !app_nil_r in H2. exact H2.
    + destruct TG as (a1 & a2 & rest & -> & Eb). destruct ts as [|b1 [|b2 ts]]; try discriminate. injection EK as EK1 EK2 _. inversion F2 as [|x y l' m' H1 H2 E1 E2]. inversion H2 as [|x2 y2 l2 m2 H3 H4 E3 E4]. rewrite <- E1, <- E3 in T. injection T as <- <-. exists [b1; b2]. split; [repeat (constructor; [assumption|]); constructor|]. exists b1, b2. split; [reflexivity|]. destruct (is_comp _); [exact Eb|congruence].
    + destruct TG as (rest & ->). destruct ts as [|ta ts]; [discriminate|]. injection EK as EK _. inversion F2 as [|x y l' m' H1 H2 E1 E2]. rewrite <- E1 in T. injection T as <- <-. exists [ta]. split; [constructor; [exact H1|constructor]|exists ta; split; [reflexivity|congruence]].
    + destruct TG as (a1 & rest & ->). destruct ts as [|ta ts]; [discriminate|]. inversion F2 as [|x y l' m' H1 H2 E1 E2]. rewrite <- E1 in T. injection T as <- <-. exists [ta]. split; [constructor; [exact H1|constructor]|exists ta; reflexivity].
    + destruct TG as (rest & ->). destruct ts as [|ta ts]; [discriminate|]. injection EK as EK _. inversion F2 as [|x y l' m' H1 H2 E1 E2]. rewrite <- E1 in T. injection T as <- <-. exists [ta]. split; [constructor; [exact H1|constructor]|exists ta; split; [reflexivity|congruence]].
    + destruct TG as (rest & ->). destruct ts as [|ta ts]; [discriminate|]. injection EK as EK _. inversion F2 as [|x y l' m' H1 H2 E1 E2]. rewrite <- E1 in T. injection T as <- <-. exists [ta]. split; [constructor; [exact H1|constructor]|exists ta; split; [reflexivity|congruence]].
    + destruct TG as (a1 & rest & -> & X). destruct ts as [|ta ts]; [discriminate|]. injection EK as EK _. inversion F2 as [|x y l' m' H1 H2 E1 E2]. rewrite <- E1 in T. injection T as <- <-. exists [ta]. split; [constructor; [exact H1|constructor]|exists ta; split; [reflexivity|]].
      rewrite <- (kind_bits ta a1 (eq_sym EK)) in X by (eapply WFT; exact H1). exact X.
    + destruct TG as (a1 & a2 & rest & -> & Eb). destruct ts as [|b1 [|b2 ts]]; try discriminate. injection EK as EK1 EK2 _. inversion F2 as [|x y l' m' H1 H2 E1 E2]. inversion H2 as [|x2 y2 l2 m2 H3 H4 E3 E4]. rewrite <- E1, <- E3 in T. injection T as <- <-. exists [b1; b2]. split; [repeat (constructor; [assumption|]); constructor|]. exists b1, b2. split; [reflexivity|].
      rewrite <- (kind_bits b1 a1 (eq_sym EK1)), <- (kind_bits b2 a2 (eq_sym EK2)) in Eb by (eapply WFT; eassumption). exact Eb.
  - intros d s H. split; [eapply wp_con; [exact WP|exact H]|].
    apply elem_of_list_split in H as (p & q & E). apply def_has_ty. rewrite E. pose proof (wp_dom P WP p _ q E s ltac:(cbn; left)) as X.
    unfold defs in *. rewrite omap_app. apply elem_of_app. left. exact X.
  - destruct (wfp_rank P WP) as (rk & RK). exists rk. intros r o k t l a x H Hx. eapply RK; [exact H|reflexivity|exact Hx].
Qed.
End Kernel.
