(** The kernel-to-DFCIR translation of complete feed-forward kernels (proofs). *)
From Coq Require Import ZArith Bool Lia String Permutation.
From stdpp Require Import gmap list.
From Verif Require Import Types Word Value Graph GraphSpec BuilderProofs BuilderProofs2 BuilderTopo GraphFacts
     KernelSort TopSort Dfcir StreamSpec Sched SchedSpec DfcirProofs SchedStream SchedMain SchedFinal.
Local Open Scope Z_scope.
Global Instance dop_eq_dec : EqDecision dop.
Proof. unfold EqDecision, Decision. repeat decide equality. Defined.

(** ** Drivers in disciplined histories *)
Definition drivers_ok (w : world) : Prop :=
  forall n nd ch, w_nodes w !! n = Some nd -> ch ∈ in_chans w n -> c_conn ch = true ->
    in_chans w n = [ch] /\ (n_op nd = OUT \/ n_op nd = NONE).

Lemma in_chans_live w n ch : ch ∈ in_chans w n -> is_Some (w_nodes w !! n).
Proof. unfold in_chans. destruct (w_nodes w !! n); [eauto|intro H; inversion H]. Qed.

Lemma step_drivers F w c w' r : step F w c = Ok (w', r) -> WF w -> ok_call w c -> drivers_ok w -> drivers_ok w'.
Proof.
  intros S W O D n nd ch Hn Hch Hc.
  destruct (step_ext F _ _ _ _ S W) as [[W' P] Q].
  assert (P' := P). destruct P' as (P1 & P2 & _ & P4).
  destruct (Nat.eq_dec n r) as [->|Nr].
  - destruct (step_cases F _ _ _ _ S W) as [(E1 & E2 & _)|[(k & o & ty & vk & name & args & NN & _)|[(t & v & CR)|(b & ->)]]].
    + assert (in_chans w' r = in_chans w r) as E by (unfold in_chans; rewrite E1, E2; reflexivity).
      rewrite E in *. rewrite E1 in Hn. eapply D; eassumption.
    + destruct NN as (_ & _ & E & _). rewrite E in Hch. apply elem_of_list_lookup in Hch as (i & Hi).
      rewrite list_lookup_imap in Hi. destruct (args !! i); [|discriminate]. cbn in Hi. injection Hi as <-. discriminate.
    + destruct CR as [_ [->|(_ & E & _)]]; [eapply D; eassumption|]. rewrite E in Hch. inversion Hch.
    + cbn in Q. destruct Q as (_ & L1 & L2 & E & _). cbn in O. destruct O as (_ & O1 & _ & nd0 & O2 & O3).
      assert (in_chans w r = []) as E0. { unfold operands in O1. destruct (in_chans w r); [reflexivity|discriminate]. }
      rewrite E0 in E. cbn in E. rewrite E in Hch |- *. apply elem_of_list_singleton in Hch as ->. split; [reflexivity|].
      destruct (P1 _ _ O2) as (nd' & H' & SH). rewrite Hn in H'. injection H' as <-. destruct SH as (<- & _). assumption.
  - pose proof (P4 n ltac:(eauto) Nr) as L. rewrite (P2 n L Nr) in *. destruct L as (nd0 & L).
    destruct (P1 _ _ L) as (nd' & H' & SH). rewrite Hn in H'. injection H' as <-. destruct SH as (<- & _). eapply D; eassumption.
Qed.
Lemma run_drivers F : forall h w w', run F w h = Ok w' -> disciplined F w h -> WF w -> drivers_ok w -> drivers_ok w'.
Proof.
  induction h as [|c h IH]; intros w w' R D W DO; cbn in *.
  - injection R as <-. assumption.
  - destruct (step F w c) as [[w1 r]| | |] eqn:E; try discriminate R. cbn in R. destruct D as [D1 D2].
    eapply IH; [exact R|exact D2|eapply step_ext; eassumption|eapply step_drivers; eassumption].
Qed.
Lemma init_drivers : drivers_ok init_world.
Proof. intros n nd ch H. cbn in H. rewrite lookup_empty in H. discriminate. Qed.

(** ** The translation *)
Lemma forallb_done args (done : list nat) : forallb (fun a => bool_decide (a ∈ done)) args = true <-> forall a, a ∈ args -> a ∈ done.
Proof.
  rewrite forallb_forall. split; intros H a Ha.
  - apply elem_of_list_In in Ha. specialize (H a Ha). apply bool_decide_eq_true in H. assumption.
  - apply bool_decide_eq_true. apply H. apply elem_of_list_In. assumption.
Qed.

Section Build.
Variables (w : world) (order : list nat).
Hypothesis W : WF w.
Hypothesis DR : drivers_ok w.
Hypothesis ND : NoDup order.
Hypothesis LV : forall n, n ∈ order <-> is_Some (w_nodes w !! n).
Hypothesis TO : forall i j a b, order !! i = Some a -> order !! j = Some b -> a ∈ operands w b -> (i < j)%nat.
Hypothesis NP : forall n nd, w_nodes w !! n = Some nd -> n_op nd <> NONE /\ (n_op nd = OUT -> operands w n <> []).

(** the statements a node must give *)
Definition node_def (n : nat) (o : dop) (k : vkind) (t : dftype) (a : list nat) : Prop :=
  exists nd, w_nodes w !! n = Some nd /\ n_vk (result_var w nd a) = k /\ w_types w !! n_ty (result_var w nd a) = Some t /\
    translate_op nd (operands w n) = Ok (o, a).
Lemma result_other nd a : (forall k, n_op nd <> OFFSET k) -> result_var w nd a = nd.
Proof. intro N. unfold result_var. destruct (n_op nd) eqn:E; try reflexivity. exfalso. eapply N. reflexivity. Qed.
Lemma result_typed n nd a : w_nodes w !! n = Some nd -> exists t, w_types w !! n_ty (result_var w nd a) = Some t.
Proof.
  intro H. unfold result_var. destruct (n_op nd); try exact (cs_type w (proj1 W) n nd H). destruct a as [|b a]; [exact (cs_type w (proj1 W) n nd H)|].
  destruct (w_nodes w !! b) as [nb|] eqn:E; [exact (cs_type w (proj1 W) b nb E)|exact (cs_type w (proj1 W) n nd H)].
Qed.

Lemma ops_shape n nd : w_nodes w !! n = Some nd ->
  (n_op nd = OUT /\ exists s, operands w n = [s] /\ get_connection w n = Some s) \/
  (n_op nd <> OUT /\ get_connection w n = None /\ arity_ok (n_op nd) (length (operands w n))).
Proof.
  intro H. destruct (proj2 W n nd H) as (k & dr & A & E). destruct (NP n nd H) as [N1 N2].
  destruct dr as [|dr].
  - cbn in E. rewrite app_nil_r in E.
    assert (Lk : length (operands w n) = k).
    { unfold operands. rewrite map_length. apply (f_equal length) in E. rewrite !map_length, seq_length in E. assumption. }
    assert (n_op nd = OUT \/ n_op nd <> OUT) as [Eo|Eo] by (destruct (n_op nd); (left; reflexivity) || (right; discriminate)).
    + exfalso. apply N2; [assumption|]. rewrite Eo in A. cbn in A. subst k. destruct (operands w n); [reflexivity|discriminate].
    + right. split; [assumption|]. rewrite Lk. split; [|assumption].
      unfold get_connection. destruct (in_chans w n) as [|c [|]] eqn:Ei; try reflexivity.
      cbn in E. destruct k; [discriminate|]. cbn in E. injection E as _ E _. rewrite E. reflexivity.
  - left. assert (exists ch, ch ∈ in_chans w n /\ c_conn ch = true) as (ch & Hch & Hc).
    { assert (X : (0%nat, true) ∈ map (fun ch => (c_ind ch, c_conn ch)) (in_chans w n)).
      { rewrite E. apply elem_of_app. right. cbn. left. }
      apply elem_of_list_fmap in X as (ch & X1 & X2). exists ch. split; [assumption|]. injection X1; auto. }
    destruct (DR n nd ch H Hch Hc) as [E1 [E2|E2]]; [|congruence]. split; [assumption|].
    exists (c_src ch). unfold operands, get_connection. rewrite E1, Hc. auto.
Qed.

Lemma translate_op_total n nd : w_nodes w !! n = Some nd -> exists o a, translate_op nd (operands w n) = Ok (o, a) /\
  (forall x, x ∈ a -> x ∈ operands w n).
Proof.
  intro H. destruct (NP n nd H) as [N1 _]. destruct (ops_shape n nd H) as [(E & s & Es & _)|(No & _ & A)].
  - unfold translate_op. rewrite E. eexists _, _. split; [reflexivity|]. intros x Hx. inversion Hx.
  - unfold translate_op. destruct (n_op nd) eqn:Eo; try congruence; cbn in A;
      destruct (operands w n) as [|x [|y r]]; cbn in A; try lia; eexists _, _; (split; [reflexivity|]); intros z Hz; try assumption;
      try (rewrite !elem_of_cons in Hz |- *; rewrite elem_of_nil in Hz; tauto).
    apply elem_of_cons in Hz as [->|Hz]; [left|]. right. apply elem_of_list_In. apply in_rev. apply elem_of_list_In. assumption.
Qed.

Lemma before n x : n ∈ order -> x ∈ operands w n -> forall l1 l2, order = l1 ++ n :: l2 -> x ∈ l1.
Proof.
  intros Hn Hx l1 l2 E. destruct (operands_live w n x (proj1 W) Hx) as [L _]. apply LV in L.
  apply elem_of_list_lookup in L as (i & Hi).
  assert (Hj : order !! length l1 = Some n) by (rewrite E, lookup_app_r, Nat.sub_diag by lia; reflexivity).
  pose proof (TO _ _ _ _ Hi Hj Hx) as Lt. rewrite E, lookup_app_l in Hi by lia. eapply elem_of_list_lookup_2. exact Hi.
Qed.

Lemma translate_spec : forall rest done, order = rev done ++ rest ->
  exists P, translate_all w done rest = Ok P /\ defs P = rest /\
    (forall r o k t l a, Def r o k t l a ∈ P <-> r ∈ rest /\ node_def r o k t a /\ l = -1) /\
    (forall d s, Con d s ∈ P <-> d ∈ rest /\ get_connection w d = Some s) /\
    (forall d, d ∈ dests P -> d ∈ rest) /\ NoDup (dests P) /\
    (forall p s q, P = p ++ s :: q -> forall v, v ∈ reads s -> v ∈ done \/ v ∈ defs p) /\
    (forall p r o k t l a q s, P = p ++ Def r o k t l a :: q -> Con r s ∈ P -> s ∈ done \/ s ∈ defs p) /\
    (forall p d s q, P = p ++ Con d s :: q -> d ∈ defs p).
Proof.
  induction rest as [|n rest IH]; intros done E.
  - exists []. split; [reflexivity|]. split; [reflexivity|]. split.
    { intros. split; [intro X; inversion X|intros (X & _); inversion X]. } split.
    { intros. split; [intro X; inversion X|intros (X & _); inversion X]. } split.
    { intros d X. inversion X. } split; [constructor|]. split.
    + intros p s q X. destruct p; discriminate.
    + split; [intros p r o k t l a q s X; destruct p; discriminate|]. intros p d s q X. destruct p; discriminate.
  - destruct (IH (n :: done)) as (P & E1 & E2 & E3 & E4 & E5 & E6 & E7 & E8 & E9).
    { cbn. rewrite <- app_assoc. exact E. }
    assert (Hn : n ∈ order) by (rewrite E; apply elem_of_app; right; left).
    assert (Nn : n ∉ rest) by (rewrite E in ND; apply NoDup_app in ND as (_ & _ & X); apply NoDup_cons in X; tauto).
    destruct (proj1 (LV n) Hn) as (nd & Hnd).
    destruct (translate_op_total n nd Hnd) as (o & a & Eop & Ha).
    destruct (result_typed n nd a Hnd) as (t & Ht).
    assert (Bf : forall x, x ∈ operands w n -> x ∈ done).
    { intros x Hx. pose proof (before n x Hn Hx _ _ E) as X. apply elem_of_list_In. apply in_rev. apply elem_of_list_In. assumption. }
    assert (Fa : forallb (fun a => bool_decide (a ∈ done)) a = true) by (apply forallb_done; auto).
    set (d := Def n o (n_vk (result_var w nd a)) t (-1) a).
    assert (Dn : forall o' k' t' a', node_def n o' k' t' a' -> o' = o /\ k' = n_vk (result_var w nd a) /\ t' = t /\ a' = a).
    { intros o' k' t' a' (nd' & H1 & H2 & H3 & H4). rewrite Hnd in H1. injection H1 as <-. rewrite Eop in H4. injection H4 as <- <-. rewrite Ht in H3. injection H3 as <-. auto. }
    assert (Dd : node_def n o (n_vk (result_var w nd a)) t a) by (exists nd; auto).
    assert (exists pn, translate_node w done n = Ok pn /\ 
      ((get_connection w n = None /\ pn = [d]) \/ (exists s, get_connection w n = Some s /\ s ∈ done /\ pn = [d; Con n s]))) as (pn & Epn & Cpn).
    { unfold translate_node, get_node. rewrite Hnd. cbn. rewrite Eop. cbn. unfold get_type. rewrite Ht. cbn. rewrite Fa.
      destruct (ops_shape n nd Hnd) as [(Eo & s & Es & Ec)|(No & Ec & _)]; rewrite Ec.
      - assert (Hs : s ∈ done) by (apply Bf; rewrite Es; left).
        rewrite bool_decide_true by (right; assumption). eexists. split; [reflexivity|]. right. exists s. auto.
      - eexists. split; [reflexivity|]. left. auto. }
    exists (pn ++ P). split.
    { cbn. rewrite Epn. cbn. rewrite E1. reflexivity. }
    split. { rewrite defs_app, E2. destruct Cpn as [[_ ->]|(s & _ & _ & ->)]; reflexivity. }
    split.
    { intros r o' k' t' l' a'. rewrite elem_of_app, E3. split.
      - intros [X|(X1 & X2)].
        + assert (Def r o' k' t' l' a' = d) as Y.
          { destruct Cpn as [[_ ->]|(s & _ & _ & ->)]; rewrite ?elem_of_cons in X; rewrite ?elem_of_nil in X; destruct X as [X|X]; try assumption.
            - tauto. - destruct X as [X|X]; [discriminate|tauto]. }
          unfold d in Y. injection Y as -> -> -> -> -> ->. split; [left|]. auto.
        + split; [right; assumption|]. assumption.
      - intros (X1 & X2 & X3). apply elem_of_cons in X1 as [->|X1]; [left|right; auto].
        apply Dn in X2 as (-> & -> & -> & ->). subst l'. destruct Cpn as [[_ ->]|(s & _ & _ & ->)]; left. }
    split.
    { intros d' s'. rewrite elem_of_app, E4. split.
      - intros [X|(X1 & X2)]; [|split; [right; assumption|assumption]].
        destruct Cpn as [[_ ->]|(s & G & _ & ->)]; rewrite ?elem_of_cons in X; rewrite ?elem_of_nil in X.
        + destruct X as [X|X]; [discriminate|tauto].
        + destruct X as [X|[X|X]]; [discriminate| |tauto]. injection X as -> ->. split; [left|assumption].
      - intros (X1 & X2). apply elem_of_cons in X1 as [->|X1]; [|right; auto]. left.
        destruct Cpn as [[G ->]|(s & G & _ & ->)]; [congruence|]. assert (s = s') as -> by congruence. right. left. }
    split.
    { intros d' X. rewrite dests_app in X. apply elem_of_app in X as [X|X]; [|right; auto].
      destruct Cpn as [[_ ->]|(s & _ & _ & ->)]; cbn in X; [inversion X|]. apply elem_of_list_singleton in X as ->. left. }
    split.
    { rewrite dests_app. destruct Cpn as [[_ ->]|(s & _ & _ & ->)]; cbn; [assumption|].
      apply NoDup_cons. split; [intro X; apply Nn, E5, X|assumption]. }
    split.
    { intros p s q X v Hv. apply app_eq_inv in X as [(k & X1 & X2)|(k & X1 & X2)].
      - destruct k as [|k0 k].
        + cbn in X2. rewrite app_nil_r in X1. subst p. destruct (E7 [] s q (eq_sym X2) v Hv) as [Y|Y]; [|inversion Y].
          apply elem_of_cons in Y as [->|Y]; [|left; assumption]. right. 
          destruct Cpn as [[_ ->]|(s' & _ & _ & ->)]; cbn; left.
        + cbn in X2. injection X2 as <- X2. left. apply Bf.
          destruct Cpn as [[_ ->]|(s' & G & Hs' & ->)].
          * destruct p; [|destruct p; discriminate X1]. cbn in X1. injection X1 as <- _. apply Ha. exact Hv.
          * destruct p as [|p0 [|p1 p]]; cbn in X1.
            -- injection X1 as <- _. apply Ha. exact Hv.
            -- injection X1 as _ <- _. cbn in Hv. apply elem_of_list_singleton in Hv as ->.
               destruct (ops_shape n nd Hnd) as [(Eo & s2 & Es & Ec)|(No & Ec & _)]; [|congruence].
               rewrite Es. assert (s2 = s') as -> by congruence. left.
            -- destruct p; discriminate X1.
      - destruct (E7 _ _ _ X2 v Hv) as [Y|Y].
        + apply elem_of_cons in Y as [->|Y]; [|left; assumption]. right. subst p. rewrite defs_app. apply elem_of_app. left.
          destruct Cpn as [[_ ->]|(s' & _ & _ & ->)]; cbn; left.
        + right. subst p. rewrite defs_app. apply elem_of_app. right. assumption. }
    split.
    { intros p r o' k' t' l' a' q s X Hc.
      assert (Hr : Def r o' k' t' l' a' ∈ pn ++ P) by (rewrite X; apply elem_of_app; right; left).
      assert (Cn : forall s, Con n s ∈ pn ++ P -> s ∈ done).
      { intros s1 H1. apply elem_of_app in H1 as [H1|H1].
        - destruct Cpn as [[_ ->]|(s' & _ & Hs' & ->)]; rewrite ?elem_of_cons in H1; rewrite ?elem_of_nil in H1; [destruct H1; [discriminate|tauto]|].
          destruct H1 as [H1|[H1|H1]]; [discriminate|congruence|tauto].
        - exfalso. apply E4 in H1 as [H1 _]. tauto. }
      apply app_eq_inv in X as [(k & X1 & X2)|(k & X1 & X2)].
      - destruct k as [|k0 k].
        + cbn in X2. rewrite app_nil_r in X1. subst p.
          assert (Con r s ∈ P) as Hc'.
          { apply elem_of_app in Hc as [Hc|Hc]; [|assumption]. exfalso. apply Nn.
            assert (r = n) as <-. { destruct Cpn as [[_ ->]|(s' & _ & Hs' & ->)]; rewrite ?elem_of_cons in Hc; rewrite ?elem_of_nil in Hc; destruct Hc as [Hc|Hc]; try discriminate; try tauto. destruct Hc; [congruence|tauto]. }
            rewrite <- E2, <- X2. apply defs_elem. exists o', k', t', l', a'. left. }
          destruct (E8 [] _ _ _ _ _ _ _ s (eq_sym X2) Hc') as [Y|Y]; [|inversion Y].
          apply elem_of_cons in Y as [->|Y]; [|left; assumption]. right. 
          destruct Cpn as [[_ ->]|(s' & _ & _ & ->)]; cbn; left.
        + cbn in X2. injection X2 as <- X2. left. 
          assert (r = n) as ->. { destruct Cpn as [[_ ->]|(s' & G & Hs' & ->)].
            - destruct p; [|destruct p; discriminate X1]. cbn in X1. injection X1; auto.
            - destruct p as [|p0 [|p1 p]]; cbn in X1; [injection X1; auto|discriminate|destruct p; discriminate X1]. }
          apply Cn. assumption.
      - assert (r ∈ rest) as Hrr. { rewrite <- E2, X2, defs_app. apply elem_of_app. right. left. }
        assert (Con r s ∈ P) as Hc'.
        { apply E4. split; [assumption|]. apply elem_of_app in Hc as [Hc|Hc]; [|apply E4 in Hc; tauto].
          exfalso. assert (r = n) as <-. { destruct Cpn as [[_ ->]|(s' & _ & Hs' & ->)]; rewrite ?elem_of_cons in Hc; rewrite ?elem_of_nil in Hc; destruct Hc as [Hc|Hc]; try discriminate; try tauto. destruct Hc; [congruence|tauto]. }
          tauto. }
        destruct (E8 _ _ _ _ _ _ _ _ _ X2 Hc') as [Y|Y].
        + apply elem_of_cons in Y as [->|Y]; [|left; assumption]. right. subst p. rewrite defs_app. apply elem_of_app. left.
          destruct Cpn as [[_ ->]|(s' & _ & _ & ->)]; cbn; left.
        + right. subst p. rewrite defs_app. apply elem_of_app. right. assumption. }
    { intros p d' s q X. apply app_eq_inv in X as [(k & X1 & X2)|(k & X1 & X2)].
      - destruct k as [|k0 k].
        + cbn in X2. rewrite app_nil_r in X1. subst p. pose proof (E9 [] d' s q (eq_sym X2)) as Y. inversion Y.
        + cbn in X2. injection X2 as <- X2. 
          destruct Cpn as [[_ ->]|(s' & G & Hs' & ->)].
          * destruct p; [discriminate|destruct p; discriminate X1].
          * destruct p as [|p0 [|p1 p]]; cbn in X1; [discriminate| |destruct p; discriminate X1].
            injection X1 as <- -> -> _. cbn. left.
      - subst p. rewrite defs_app. apply elem_of_app. right. eapply E9. exact X2. }
Qed.

Lemma build_spec : exists P, build w order = Ok P /\ defs P = order /\ wfp P /\ connects_back P /\
    (forall r o k t l a, Def r o k t l a ∈ P <-> r ∈ order /\ node_def r o k t a /\ l = -1) /\
    (forall d s, Con d s ∈ P <-> d ∈ order /\ get_connection w d = Some s).
Proof.
  destruct (translate_spec order [] eq_refl) as (P & E1 & E2 & E3 & E4 & _ & E6 & E7 & E8 & E9).
  exists P. split; [exact E1|]. split; [exact E2|]. split; [|split; [|split; assumption]].
  - constructor.
    + rewrite E2. assumption.
    + assumption.
    + intros p s q E v Hv. destruct (E7 p s q E v Hv) as [X|X]; [inversion X|assumption].
    + exact E9.
    + intros d s H. apply E4 in H as [H G]. destruct (proj1 (LV d) H) as (nd & Hnd).
      destruct (ops_shape d nd Hnd) as [(Eo & s' & Es & Ec)|(No & Ec & _)]; [|congruence].
      destruct (cs_type w (proj1 W) d nd Hnd) as (t & Ht).
      eexists _, _, _, t, _, []. apply E3. split; [assumption|]. split; [|reflexivity].
      exists nd. split; [assumption|]. split; [reflexivity|]. rewrite result_other by (intros k X; congruence). split; [assumption|]. unfold translate_op. rewrite Eo. reflexivity.
    + intros v d k t l a H. apply E3 in H as (_ & (nd & Hnd & _ & _ & X) & _).
      destruct (ops_shape v nd Hnd) as [(Eo & s' & Es & Ec)|(No & Ec & A)].
      * unfold translate_op in X. rewrite Eo in X. discriminate.
      * unfold translate_op in X. destruct (n_op nd); cbn in A; try discriminate X; destruct (operands w v) as [|y [|z r]]; try discriminate X; cbn in A; try lia.
        injection X as _ <-. reflexivity.
  - intros p r o k t l a q s E Hc. destruct (E8 p r o k t l a q s E Hc) as [X|X]; [inversion X|assumption].
Qed.

Lemma kval_ind' {V} (I : interp V) (R : nat -> Z -> V -> Prop) :
  (forall n nd i, w_nodes w !! n = Some nd -> n_op nd = IN -> n_vk nd = VStream -> 0 <= i -> R n i (i_stream I (n_name nd) i)) ->
  (forall n nd i, w_nodes w !! n = Some nd -> n_op nd = IN -> n_vk nd <> VStream -> R n i (i_scalar I (n_name nd))) ->
  (forall n nd t c i, w_nodes w !! n = Some nd -> n_op nd = CONST c -> type_of w n = Some t -> R n i (i_const I t c)) ->
  (forall n nd k a i x, w_nodes w !! n = Some nd -> n_op nd = OFFSET k -> operands w n = [a] -> R a (i + k) x -> R n i x) ->
  (forall n nd a i x, w_nodes w !! n = Some nd -> n_op nd = OUT -> operands w n = [a] -> R a i x -> R n i x) ->
  (forall n nd c arms a i xc x, w_nodes w !! n = Some nd -> n_op nd = MUX -> operands w n = c :: arms ->
     0 <= i -> R c i xc -> arms !! i_idx I xc = Some a -> R a i x -> kval I w a i x ->
     (forall b, b ∈ arms -> exists y, R b i y) -> R n i x) ->
  (forall n nd t i xs x, w_nodes w !! n = Some nd ->
     (match n_op nd with BIN _ | UN _ | CAST | SHL _ | SHR _ | BITS _ _ | CAT => True | _ => False end) ->
     type_of w n = Some t -> 0 <= i -> Forall2 (fun a y => R a i y) (operands w n) xs -> i_op I (n_op nd) t xs = Some x -> R n i x) ->
  forall n i x, kval I w n i x -> R n i x.
Proof.
  intros H1 H2 H3 H4 H5 H6 H7. fix IH 4. intros n i x K. destruct K as [n nd i A1 A2 A3 A4|n nd i A1 A2 A3|n nd t c i A1 A2 A3|n nd k a i x A1 A2 A3 K|n nd a i x A1 A2 A3 K|n nd c arms a i xc x A1 A2 A3 A4 K1 A5 K2 K3|n nd t i xs x A1 A2 A3 A4 K A5].
  - eapply H1; eassumption.
  - eapply H2; eassumption.
  - eapply H3; eassumption.
  - eapply H4; [eassumption|eassumption|eassumption|apply IH; assumption].
  - eapply H5; [eassumption|eassumption|eassumption|apply IH; assumption].
  - eapply H6; [exact A1|exact A2|exact A3|exact A4|apply IH; exact K1|exact A5|apply IH; exact K2|exact K2|].
    intros b Hb. destruct (K3 b Hb) as (y & Ky). exists y. apply IH. exact Ky.
  - eapply H7; [exact A1|exact A2|exact A3|exact A4| |exact A5].
    clear -IH K. induction K; constructor; [apply IH; assumption|assumption].
Qed.

Lemma mux_rev {A} (ys : list A) k : mux_hw k (rev ys) = ys !! k.
Proof.
  unfold mux_hw. rewrite rev_length. destruct (Nat.ltb_spec k (length ys)) as [L|L].
  - change (rev ys) with (List.rev ys). rewrite rev_alt. fold (reverse ys). 
    rewrite reverse_lookup by lia. f_equal. lia.
  - symmetry. apply lookup_ge_None. lia.
Qed.

Lemma Forall2_rev {A B} (R : A -> B -> Prop) a b : Forall2 R a b -> Forall2 R (rev a) (rev b).
Proof. induction 1; cbn; [constructor|]. apply Forall2_app; [assumption|]. constructor; [assumption|constructor]. Qed.

Theorem stream_preserved P : build w order = Ok P -> forall V (I : interp V) n i x,
  is_Some (w_nodes w !! n) -> (kval I w n i x <-> dval I P n i x).
Proof.
  intros EP V I. destruct build_spec as (P' & EP' & ED & WP & _ & DD & DC). rewrite EP in EP'. injection EP' as <-.
  assert (Lop : forall n a, a ∈ operands w n -> is_Some (w_nodes w !! a)).
  { intros n a H. apply (operands_live w n a (proj1 W) H). }
  assert (Ty : forall n nd t, w_nodes w !! n = Some nd -> type_of w n = Some t <-> w_types w !! n_ty nd = Some t).
  { intros n nd t H. unfold type_of. rewrite H. tauto. }
  assert (Mk : forall n nd o a t, w_nodes w !! n = Some nd -> w_types w !! n_ty nd = Some t -> (forall k, n_op nd <> OFFSET k) ->
     translate_op nd (operands w n) = Ok (o, a) -> Def n o (n_vk nd) t (-1) a ∈ P).
  { intros n nd o a t H Ht No Ho. apply DD. split; [apply LV; eauto|]. split; [|reflexivity]. exists nd. rewrite result_other by exact No. auto. }
  assert (TT : forall n nd, w_nodes w !! n = Some nd -> exists t, w_types w !! n_ty nd = Some t).
  { intros n nd H. destruct (cs_type w (proj1 W) n nd H) as (t & Ht). eauto. }
  intros n i x Hn. split; intro K.
  - clear Hn. revert n i x K. apply kval_ind'.
    + intros n nd i H Ho Hv Hi. destruct (TT _ _ H) as (t & Ht).
      eapply dv_stream; [|exact Hi]. eapply Mk; [exact H|exact Ht|intros k0 X0; congruence|]. unfold translate_op. rewrite Ho, Hv. reflexivity.
    + intros n nd i H Ho Hv. destruct (TT _ _ H) as (t & Ht).
      eapply dv_scalar. eapply Mk; [exact H|exact Ht|intros k0 X0; congruence|]. unfold translate_op. rewrite Ho. destruct (n_vk nd); [congruence| |]; reflexivity.
    + intros n nd t c i H Ho Ht. apply (Ty _ _ _ H) in Ht.
      eapply dv_const. eapply Mk; [exact H|exact Ht|intros k0 X0; congruence|]. unfold translate_op. rewrite Ho. reflexivity.
    + intros n nd k a i x H Ho Ha R. destruct (TT _ _ H) as (t & Ht).
      destruct (result_typed n nd [a] H) as (tr & Htr).
      eapply dv_offset; [|exact R]. apply DD. split; [apply LV; eauto|]. split; [|reflexivity]. exists nd. split; [exact H|]. split; [reflexivity|]. split; [exact Htr|].
      unfold translate_op. rewrite Ho, Ha. reflexivity.
    + intros n nd a i x H Ho Ha R. destruct (TT _ _ H) as (t & Ht).
      eapply dv_out; [| |exact R].
      * eapply Mk; [exact H|exact Ht|intros k0 X0; congruence|]. unfold translate_op. rewrite Ho. reflexivity.
      * apply DC. split; [apply LV; eauto|]. destruct (ops_shape n nd H) as [(_ & s & Es & Ec)|(No & _)]; [|congruence]. congruence.
    + intros n nd c arms a i xc x H Ho Ha Hi Rc Hk Ra _ Rall. destruct (TT _ _ H) as (t & Ht).
      assert (exists ys, Forall2 (fun b y => dval I P b i y) arms ys /\ ys !! i_idx I xc = Some x) as (ys & Fy & Hy).
      { revert Hk Rall. generalize (i_idx I xc) as k. clear -Ra. intro k. revert k. induction arms as [|b arms IH]; intros k Hk Rall; [discriminate|].
        destruct k as [|k].
        - cbn in Hk. injection Hk as ->. assert (exists ys, Forall2 (fun b y => dval I P b i y) arms ys) as (ys & Fy).
          { assert (Q : forall b, b ∈ arms -> exists y, dval I P b i y) by (intros; apply Rall; right; assumption). clear -Q.
            induction arms as [|b arms IH]; [exists []; constructor|]. destruct (Q b ltac:(left)) as (y & Hy).
            destruct IH as (ys & Fy); [intros; apply Q; right; assumption|]. exists (y :: ys). constructor; assumption. }
          exists (x :: ys). split; [constructor; assumption|reflexivity].
        - destruct (IH k Hk) as (ys & Fy & Hy); [intros; apply Rall; right; assumption|].
          destruct (Rall b ltac:(left)) as (y & Hb). exists (y :: ys). split; [constructor; assumption|exact Hy]. }
      eapply dv_op with (o := DMux) (xs := xc :: rev ys); [|reflexivity|exact Hi| |].
      * eapply Mk; [exact H|exact Ht|intros k0 X0; congruence|]. unfold translate_op. rewrite Ho, Ha. reflexivity.
      * constructor; [exact Rc|]. apply Forall2_rev. exact Fy.
      * cbn. rewrite mux_rev. exact Hy.
    + intros n nd t i xs x H Ho Ht Hi R E. apply (Ty _ _ _ H) in Ht.
      destruct (ops_shape n nd H) as [(X & _)|(No & _ & A)]; [rewrite X in Ho; contradiction|].
      assert (exists o, translate_op nd (operands w n) = Ok (o, operands w n) /\ is_oper o = true /\
                d_op I o t xs = i_op I (n_op nd) t xs) as (o & T1 & T2 & T3).
      { unfold translate_op. destruct (n_op nd); try contradiction; cbn in A; destruct (operands w n) as [|p [|q [|]]]; cbn in A; try lia;
          eexists; (split; [reflexivity|]); split; reflexivity. }
      eapply dv_op; [eapply Mk; [eassumption..|intros k0 X0; rewrite X0 in Ho; contradiction|eassumption]|exact T2|exact Hi|exact R|]. rewrite T3. exact E.
  - revert n i x K Hn. apply (dval_ind' I P (fun n i x => is_Some (w_nodes w !! n) -> kval I w n i x)).
    + intros v name k t l a i H Hi Lv. apply DD in H as (_ & (nd & H & Hk & Ht & T) & _).
      unfold translate_op in T. destruct (n_op nd) eqn:Eo; try (destruct (operands w v) as [|p [|q r]]; discriminate T); try discriminate T.
      injection T as Ev <- _. eapply kv_stream; [exact H|exact Eo| |exact Hi]. destruct (n_vk nd); congruence.
    + intros v name k t l a i H Lv. apply DD in H as (_ & (nd & H & Hk & Ht & T) & _).
      unfold translate_op in T. destruct (n_op nd) eqn:Eo; try (destruct (operands w v) as [|p [|q r]]; discriminate T); try discriminate T.
      injection T as Ev <- _. eapply kv_scalar; [exact H|exact Eo|]. destruct (n_vk nd); congruence.
    + intros v c k t l a i H Lv. apply DD in H as (_ & (nd & H & Hk & Ht & T) & _).
      unfold translate_op in T. destruct (n_op nd) eqn:Eo; try (destruct (operands w v) as [|p [|q r]]; discriminate T); try discriminate T.
      injection T as <- _. eapply kv_const; [exact H|exact Eo|]. apply (Ty _ _ _ H). rewrite result_other in Ht by (intros k0 X0; congruence). assumption.
    + intros v d k t l s i x H _ IH Lv. apply DD in H as (_ & (nd & H & Hk & Ht & T) & _).
      destruct (ops_shape v nd H) as [(X & _)|(No & _ & A)]; [unfold translate_op in T; rewrite X in T; discriminate|].
      unfold translate_op in T. destruct (n_op nd) eqn:Eo; try discriminate T; cbn in A;
        destruct (operands w v) as [|p [|q r]] eqn:Ea; cbn in A; try lia; try discriminate T.
      injection T as <- <-. eapply kv_offset; [exact H|exact Eo|exact Ea|]. apply IH. eapply Lop. rewrite Ea. left.
    + intros v sc name k t l a s i x H Hc _ IH Lv. apply DD in H as (_ & (nd & H & Hk & Ht & T) & _).
      apply DC in Hc as [_ Hc]. destruct (ops_shape v nd H) as [(X & s' & Es & Ec)|(No & Ec & A)]; [|congruence].
      assert (s' = s) as -> by congruence. eapply kv_out; [exact H|exact X|exact Es|]. apply IH. eapply Lop. rewrite Es. left.
    + intros v o k t l args i xs x H Ho Hi F E Lv. apply DD in H as (_ & (nd & H & Hk & Ht & T) & _).
      destruct (ops_shape v nd H) as [(X & _)|(No & _ & A)]; [unfold translate_op in T; rewrite X in T; injection T as <- _; discriminate|].
      destruct (translate_op_total v nd H) as (o' & a' & T' & Sub). rewrite T in T'. injection T' as <- <-.
      assert (F' : Forall2 (fun a y => kval I w a i y) args xs).
      { assert (Q : forall a, a ∈ args -> is_Some (w_nodes w !! a)) by (intros; eapply Lop; apply Sub; assumption).
        clear -F Q. induction F as [|a y args xs [_ Ra] F IH]; constructor; [apply Ra, Q; left|apply IH; intros; apply Q; right; assumption]. }
      destruct (decide (o = DMux)) as [->|Nm].
      * unfold translate_op in T. destruct (n_op nd) eqn:Eo; try discriminate T;
          destruct (operands w v) as [|c arms] eqn:Ea; try discriminate T; try (destruct arms; discriminate T).
        injection T as <-. inversion F' as [|? xc ? ys Fc Fr]; subst. cbn in E.
        apply Forall2_rev in Fr. rewrite rev_involutive in Fr. rewrite <- (rev_involutive ys), mux_rev in E.
        destruct (Forall2_lookup_r _ _ _ _ _ Fr E) as (a & Hla & Ka).
        eapply kv_mux; [exact H|exact Eo|exact Ea|exact Hi|exact Fc|exact Hla|exact Ka|].
        intros b Hb. apply elem_of_list_lookup in Hb as (j & Hj). destruct (Forall2_lookup_l _ _ _ _ _ Fr Hj) as (y & _ & Ky). eauto.
      * assert (args = operands w v /\ match n_op nd with BIN _ | UN _ | CAST | SHL _ | SHR _ | BITS _ _ | CAT => True | _ => False end
                /\ d_op I o t xs = i_op I (n_op nd) t xs) as (-> & B1 & B2).
        { unfold translate_op in T. destruct (n_op nd) eqn:Eo; try discriminate T; cbn in A;
            destruct (operands w v) as [|p [|q [|]]]; cbn in A; try lia; try discriminate T; injection T as <- <-; try discriminate Ho; try congruence; auto. }
        rewrite result_other in Ht by (intros k0 X0; rewrite X0 in B1; contradiction).
        eapply kv_op; [exact H|exact B1|apply (Ty _ _ _ H); exact Ht|exact Hi|exact F'|]. rewrite <- B2. exact E.
Qed.
End Build.
