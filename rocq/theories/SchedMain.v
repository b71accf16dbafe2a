(** The scheduled circuit computes the stream function of the program (proofs). *)
From Coq Require Import ZArith Bool Lia String.
From stdpp Require Import list.
From Verif Require Import Types Value Graph Dfcir StreamSpec Sched SchedSpec SchedProofs DfcirProofs SchedStream.
Local Open Scope Z_scope.
Local Arguments nearest : simpl never.

Lemma wrap8_small i : (i < 128)%nat -> wrap8 (Z.of_nat i) = Z.of_nat i.
Proof. intro H. unfold wrap8. rewrite Z.mod_small; lia. Qed.
Lemma wrap8_lt i : wrap8 i < 128.
Proof. unfold wrap8. pose proof (Z.mod_pos_bound (i + 128) 256 ltac:(lia)). lia. Qed.

Lemma dval_ind' {V} (I : interp V) (P : program) (R : nat -> Z -> V -> Prop) :
  (forall v name k t l a i, Def v (DIn false name) k t l a ∈ P -> 0 <= i -> R v i (i_stream I name i)) ->
  (forall v name k t l a i, Def v (DIn true name) k t l a ∈ P -> R v i (i_scalar I name)) ->
  (forall v c k t l a i, Def v (DConst c) k t l a ∈ P -> R v i (i_const I t c)) ->
  (forall v d k t l s i x, Def v (DOffset d) k t l [s] ∈ P -> dval I P s (i + d) x -> R s (i + d) x -> R v i x) ->
  (forall v sc name k t l a s i x, Def v (DOut sc name) k t l a ∈ P -> Con v s ∈ P ->
     dval I P s i x -> R s i x -> R v i x) ->
  (forall v o k t l args i xs x, Def v o k t l args ∈ P -> is_oper o = true -> 0 <= i ->
     Forall2 (fun a y => dval I P a i y /\ R a i y) args xs -> d_op I o t xs = Some x -> R v i x) ->
  forall v i x, dval I P v i x -> R v i x.
Proof.
  intros H1 H2 H3 H4 H5 H6. fix IH 4. intros v i x D. destruct D.
  - eapply H1; eassumption.
  - eapply H2; eassumption.
  - eapply H3; eassumption.
  - eapply H4; [eassumption|assumption|apply IH; assumption].
  - eapply H5; [eassumption|eassumption|assumption|apply IH; assumption].
  - eapply H6; [eassumption|assumption|assumption| |eassumption].
    match goal with A : Forall2 _ _ _ |- _ => rename A into F end. clear -IH F. induction F; constructor; [split; [assumption|apply IH; assumption]|assumption].
Qed.

(** [bs] makes up the differences between the start times [m] *)
Definition realises (ns : list snode) (cs : list schan) (m : nat -> Z) (bs : list (schan * Z)) : Prop :=
  (forall c z, (c, z) ∈ bs -> c ∈ cs /\ node_is_const ns (sc_src c) = false) /\
  (forall c, c ∈ cs -> node_is_const ns (sc_src c) = false ->
     buf_of bs c (m (sc_tgt c) - (m (sc_src c) + chan_delay ns c))).

(** ** Distinct buffer positions *)
Section Keys.
Variable P : program.
Hypothesis WF : wfp P.
Variable isc : nat -> bool.
Hypothesis NARROW : forall r o k t l args i a s off, Def r o k t l args ∈ P -> is_oper o = true ->
  args !! i = Some a -> nearest P a = Some (s, off) -> isc s = false -> (i < 128)%nat.
Definition nc (c : schan) : bool := negb (isc (sc_src c)).

Lemma op_chans_keys done tgt : forall args i cs, op_chans P done tgt (Z.of_nat i) args = Some cs ->
  (forall j a s off, args !! j = Some a -> nearest P a = Some (s, off) -> isc s = false -> (i + j < 128)%nat) ->
  NoDup (map key (List.filter nc cs)) /\
  (forall c, c ∈ List.filter nc cs -> sc_tgt c = tgt /\ Z.of_nat i <= sc_ind c).
Proof.
  induction args as [|a args IH]; intros i cs E H.
  - cbn in E. injection E as <-. split; [constructor|intros c X; inversion X].
  - cbn in E. destruct (nearest P a) as [[s off]|] eqn:En; [|discriminate].
    destruct (bool_decide (s ∈ done)); [|discriminate].
    replace (Z.of_nat i + 1) with (Z.of_nat (S i)) in E by lia.
    destruct (op_chans P done tgt (Z.of_nat (S i)) args) as [l|] eqn:El; [|discriminate]. injection E as <-.
    destruct (IH (S i) l El) as [N1 N2].
    { intros j b s' off' Hj. replace (S i + j)%nat with (i + S j)%nat by lia. apply (H (S j)). exact Hj. }
    assert (Enc : nc (mkSChan s tgt (wrap8 (Z.of_nat i)) off) = negb (isc s)) by reflexivity.
    cbn [List.filter]. rewrite Enc. destruct (isc s) eqn:Es; cbn.
    + split; [assumption|]. intros c Hc. apply N2 in Hc. split; [tauto|lia].
    + assert (Hi : (i < 128)%nat). { specialize (H 0%nat a s off eq_refl En Es). lia. }
      rewrite wrap8_small by assumption. split.
      * apply NoDup_cons. split; [|assumption]. intro X. apply elem_of_list_fmap in X as (c & Ec & Hc).
        unfold key in Ec. cbn in Ec. injection Ec as E1 E2. apply N2 in Hc. lia.
      * intros c Hc. apply elem_of_cons in Hc as [->|Hc]; [cbn; split; [reflexivity|lia]|]. apply N2 in Hc. split; [tauto|lia].
Qed.

Lemma chan_key_op c r o k t l args : Def r o k t l args ∈ P -> chan_of P c (Def r o k t l args) -> isc (sc_src c) = false ->
  sc_tgt c = r /\ 0 <= sc_ind c.
Proof.
  intros Hin H Hc. inversion H; subst. split; [reflexivity|].
  match goal with A : sc_ind c = _ |- _ => rewrite A end.
  rewrite wrap8_small; [lia|]. eapply NARROW; eassumption.
Qed.

Lemma construct_keys : forall rest done ns cs, (forall s, s ∈ rest -> s ∈ P) -> NoDup (defs rest) -> NoDup (dests rest) ->
  construct P done rest = Some (ns, cs) -> NoDup (map key (List.filter nc cs)).
Proof.
  induction rest as [|s rest IH]; intros done ns cs Sub ND DN E.
  - cbn in E. injection E as <- <-. constructor.
  - cbn [construct] in E. destruct (process P done s) as [[ns1 cs1]|] eqn:Ep; [|discriminate].
    destruct (construct P (map s_id ns1 ++ done) rest) as [[ns2 cs2]|] eqn:Ec; [|discriminate]. injection E as <- <-.
    assert (Sub' : forall s, s ∈ rest -> s ∈ P) by (intros; apply Sub; right; assumption).
    assert (Hs : s ∈ P) by (apply Sub; left).
    pose proof (construct_spec P WF _ _ _ _ Sub' Ec) as (_ & _ & K & _).
    assert (N2 : NoDup (map key (List.filter nc cs2))).
    { eapply IH; [assumption| | |exact Ec]; destruct s; cbn in ND, DN; try assumption;
        [apply NoDup_cons in ND; tauto|apply NoDup_cons in DN; tauto]. }
    rewrite List.filter_app, map_app. apply NoDup_app.
    assert (K2 : forall c, c ∈ List.filter nc cs2 -> isc (sc_src c) = false /\ exists s', s' ∈ rest /\ chan_of P c s').
    { intros c Hc. rewrite elem_of_list_In, List.filter_In, <- elem_of_list_In in Hc. destruct Hc as [Hc X].
      unfold nc in X. apply negb_true_iff in X. split; [assumption|]. apply K. assumption. }
    destruct s as [r o k t l args|d v].
    + destruct (is_oper o) eqn:Eo.
      * assert (exists cs', op_chans P (r :: done) r 0 args = Some cs' /\ cs1 = cs') as (cs' & E1 & ->).
        { cbn in Ep. destruct o; try discriminate Eo; cbn in Ep;
            (destruct (op_chans P (r :: done) r 0 args) as [cs'|]; [|discriminate]; injection Ep as _ <-; eauto). }
        destruct (op_chans_keys _ _ _ 0%nat _ E1) as [M1 M2].
        { intros j a s' off' Hj. cbn. eapply NARROW; eassumption. }
        split; [assumption|]. split; [|assumption].
        intros x Hx Hx'. apply elem_of_list_fmap in Hx as (c1 & -> & Hc1). apply M2 in Hc1 as [T1 T2].
        apply elem_of_list_fmap in Hx' as (c2 & E2 & Hc2). apply K2 in Hc2 as (T3 & s' & Hs' & T4).
        unfold key in E2. injection E2 as E2 E3.
        destruct s' as [r' o' k' t' l' args'|d' v'].
        -- destruct (chan_key_op c2 _ _ _ _ _ _ (Sub' _ Hs') T4 T3) as [T5 _]. cbn in ND. apply NoDup_cons in ND as [ND _].
           apply ND. apply defs_elem. assert (r' = r) as -> by congruence. eauto 10.
        -- inversion T4; subst. lia.
      * assert (cs1 = []) as -> by (cbn in Ep; destruct o; try discriminate Eo; injection Ep as _ <-; reflexivity).
        split; [constructor|]. split; [intros x Hx; inversion Hx|assumption].
    + cbn in Ep. destruct (op_of P d) as [od|] eqn:Ed.
      2:{ injection Ep as <- <-. cbn. split; [constructor|]. split; [intros x Hx; inversion Hx|assumption]. }
      assert (cs1 = [] \/ exists s' off', cs1 = [mkSChan s' d (-1) off']) as [->|(s' & off' & ->)].
      { destruct od; try (injection Ep as _ <-; left; reflexivity).
        destruct (nearest P v) as [[s' off']|]; [|discriminate].
        destruct (bool_decide (s' ∈ done) && bool_decide (d ∈ done)); [|discriminate]. injection Ep as _ <-. right. eauto. }
      * split; [constructor|]. split; [intros x Hx; inversion Hx|assumption].
      * split; [cbn; destruct (nc _); cbn; [apply NoDup_singleton|constructor]|].
        split; [|assumption]. intros x Hx Hx'. cbn in Hx. destruct (nc _); [|inversion Hx].
        cbn in Hx. apply elem_of_list_singleton in Hx. subst x.
        apply elem_of_list_fmap in Hx' as (c2 & E2 & Hc2). apply K2 in Hc2 as (T3 & st & Hs' & T4).
        unfold key in E2. cbn in E2. injection E2 as E2 E3. destruct st as [r' o' k' t' l' args'|d' v'].
        -- destruct (chan_key_op c2 _ _ _ _ _ _ (Sub' _ Hs') T4 T3). lia.
        -- inversion T4; subst. cbn in DN. apply NoDup_cons in DN as [DN _]. apply DN. apply dests_elem. eauto.
Qed.
End Keys.

(** ** One scheduled program *)
Section Main.
Variable P : program.
Hypothesis WF : wfp P.
Hypothesis SM : small_offsets P.
Hypothesis NR : narrow P.
Variables (ns : list snode) (cs : list schan) (m : lats) (bs : list (schan * Z)) (P2 : program).
Hypothesis EG : sgraph P = Some (ns, cs).
(** start times and the buffers that realise them *)
Hypothesis M0 : forall x, 0 <= m x.
Hypothesis L0 : forall n, n ∈ ns -> 0 <= s_lat n.
Hypothesis MI : forall v name k t l a, Def v (DIn false name) k t l a ∈ P -> m v = 0.
Hypothesis BF : realises ns cs m bs.
Hypothesis BD : NoDup (map fst bs).
Hypothesis EI : insert_buffers P bs (fresh P) = Some P2.

Let ND := wp_defs P WF.
Let DN := wp_dests P WF.
Let OD := sgraph_ordered P WF ns cs EG.
Let isc := node_is_const ns.
Let B := Bof bs (fun _ _ => 0).

Lemma sub_refl : forall s : stmt, s ∈ P -> s ∈ P. Proof. auto. Qed.
Let CS := construct_spec P WF P [] ns cs sub_refl EG.

Lemma node_in v o k t l a : Def v o k t l a ∈ P -> (forall d, o <> DOffset d) ->
  mkSNode v o (if is_scheduled o then l else 0) ∈ ns.
Proof.
  intros H Ho. destruct CS as (C1 & C2 & _).
  assert (v ∈ map s_id ns) as Hv.
  { rewrite C1. unfold node_ids. apply elem_of_list_omap. exists (Def v o k t l a). split; [assumption|].
    destruct o; try reflexivity. exfalso. eapply Ho; reflexivity. }
  apply elem_of_list_fmap in Hv as (n & -> & Hn). destruct (C2 n Hn) as (k' & t' & l' & a' & Hd & El).
  pose proof (def_unique _ _ _ _ _ _ _ _ _ _ _ _ ND H Hd) as X. injection X as X1 X2 X3 X4 X5. subst.
  destruct n as [id op la]; cbn in *. subst. assumption.
Qed.
Lemma isc_def v o k t l a : Def v o k t l a ∈ P -> (forall d, o <> DOffset d) -> isc v = is_constant_input o.
Proof.
  intros H Ho. unfold isc, node_is_const. pose proof (node_in _ _ _ _ _ _ H Ho) as Hn.
  destruct CS as (C1 & C2 & _).
  assert (U : forall n, n ∈ ns -> s_id n = v -> s_op n = o).
  { intros n Hn' E. destruct (C2 n Hn') as (k' & t' & l' & a' & Hd & El). rewrite E in Hd.
    pose proof (def_unique _ _ _ _ _ _ _ _ _ _ _ _ ND H Hd) as X. congruence. }
  destruct (is_constant_input o) eqn:E.
  - apply existsb_exists. eexists. split; [apply elem_of_list_In; exact Hn|]. cbn. rewrite Nat.eqb_refl, E. reflexivity.
  - apply not_true_iff_false. intro X. apply existsb_exists in X as (n & Hn' & X). apply andb_true_iff in X as [X1 X2].
    apply Nat.eqb_eq in X1. rewrite (U n) in X2; [congruence|apply elem_of_list_In; assumption|assumption].
Qed.
Lemma lat_def v o k t l a : Def v o k t l a ∈ P -> (forall d, o <> DOffset d) ->
  node_lat ns v = delay o l.
Proof.
  intros H Ho. pose proof (node_in _ _ _ _ _ _ H Ho) as Hn. destruct CS as (C1 & _).
  pose proof (node_lat_in ns _ ltac:(rewrite C1; apply node_ids_nodup; exact ND) Hn) as X. cbn in X. rewrite X.
  pose proof (L0 _ Hn) as L. cbn in L.
  unfold delay. destruct (is_scheduled o); [|reflexivity]. lia.
Qed.

Lemma nearest_const a o : op_of P a = Some o -> is_constant_input o = true -> forall s off,
  nearest P a = Some (s, off) -> s = a.
Proof.
  intros E C s off H. apply op_of_in in E as (k & t & l & ar & E).
  unfold nearest in H. cbn [resolve] in H. rewrite (op_of_def _ _ _ _ _ _ _ ND E), (def_of_def _ _ _ _ _ _ _ ND E) in H.
  assert (con_of P a = None) as X.
  { destruct (con_of P a) as [s'|] eqn:Ec; [|reflexivity]. apply con_of_in in Ec.
    destruct (wp_con P WF _ _ Ec) as (sc & nm & k' & t' & l' & a' & Hd).
    pose proof (def_unique _ _ _ _ _ _ _ _ _ _ _ _ ND E Hd) as X. injection X as <- _ _ _ _. discriminate C. }
  destruct o; try discriminate C; rewrite X in H; injection H as <- _; reflexivity.
Qed.

Lemma narrow' r o k t l args i a s off : Def r o k t l args ∈ P -> is_oper o = true ->
  args !! i = Some a -> nearest P a = Some (s, off) -> isc s = false -> (i < 128)%nat.
Proof.
  intros H Ho Ha Hn Hc. destruct (Nat.lt_ge_cases i 128) as [|G]; [assumption|]. exfalso.
  destruct (NR _ _ _ _ _ _ _ _ H Ha G) as (o' & E1 & E2).
  pose proof (nearest_const _ _ E1 E2 _ _ Hn) as ->.
  apply op_of_in in E1 as (k' & t' & l' & a' & E1). rewrite (isc_def _ _ _ _ _ _ E1) in Hc; [congruence|].
  intros d ->. discriminate.
Qed.

Lemma keys : NoDup (map key (List.filter (nc isc) cs)).
Proof. eapply (construct_keys P WF isc narrow' P []); [auto|exact ND|exact DN|exact EG]. Qed.

Lemma key_inj c c' : c ∈ cs -> c' ∈ cs -> isc (sc_src c) = false -> isc (sc_src c') = false -> key c = key c' -> c = c'.
Proof.
  intros H H' N N' E. pose proof keys as K.
  assert (F : forall c, c ∈ cs -> isc (sc_src c) = false -> c ∈ List.filter (nc isc) cs).
  { intros x Hx Nx. rewrite elem_of_list_In, List.filter_In, <- elem_of_list_In. split; [assumption|]. unfold nc. rewrite Nx. reflexivity. }
  apply F in H; [|assumption]. apply F in H'; [|assumption]. revert K H H' E. clear.
  induction (List.filter (nc isc) cs) as [|x l IH]; intros K H H' E; [inversion H|].
  cbn in K. apply NoDup_cons in K as [K1 K2].
  apply elem_of_cons in H as [->|H]; apply elem_of_cons in H' as [->|H']; try reflexivity.
  - exfalso. apply K1. apply elem_of_list_fmap. eauto.
  - exfalso. apply K1. apply elem_of_list_fmap. exists c. auto.
  - auto.
Qed.

Lemma bs_keys : NoDup (map (fun x => key (fst x)) bs).
Proof.
  destruct BF as [B1 _]. rewrite <- map_map. 
  assert (G : forall l : list schan, NoDup l -> (forall c, c ∈ l -> c ∈ cs /\ isc (sc_src c) = false) -> NoDup (map key l)).
  { induction l as [|c l IH]; intros N H; [constructor|]. apply NoDup_cons in N as [N1 N2]. cbn. apply NoDup_cons. split.
    - intro X. apply elem_of_list_fmap in X as (c' & Ek & X). destruct (H c) as [A1 A2]; [left|].
      destruct (H c') as [A3 A4]; [right; assumption|]. assert (c = c') as -> by (apply key_inj; assumption). contradiction.
    - apply IH; [assumption|]. intros c' Hc'. apply H. right. assumption. }
  apply G; [exact BD|]. intros c Hc. apply elem_of_list_fmap in Hc as ([c' z] & -> & Hc). apply (B1 c' z Hc).
Qed.

Lemma B_chan c : c ∈ cs -> isc (sc_src c) = false ->
  B (sc_tgt c) (sc_ind c) = m (sc_tgt c) - (m (sc_src c) + chan_delay ns c).
Proof.
  intros H N. destruct BF as [B1 B2]. destruct (B2 c H N) as [X|[Z X]].
  - unfold B. apply (Bof_in 0%nat); [apply bs_keys|]. assumption.
  - rewrite Z. unfold B. rewrite (Bof_notin 0%nat); [reflexivity|]. intro Y. apply elem_of_list_fmap in Y as ([c' z] & Ek & Y).
    cbn in Ek. destruct (B1 c' z Y) as (Y1 & Y2).
    assert (c = c') as -> by (apply key_inj; assumption). exact (X z Y).
Qed.

Lemma B_const r i : (forall c, c ∈ cs -> sc_tgt c = r -> sc_ind c = i -> isc (sc_src c) = true) -> B r i = 0.
Proof.
  intro H. unfold B. rewrite (Bof_notin 0%nat); [reflexivity|]. intro Y. apply elem_of_list_fmap in Y as ([c' z] & Ek & Y).
  cbn in Ek. unfold key in Ek. injection Ek as Ek1 Ek2. destruct BF as [B1 _]. destruct (B1 c' z Y) as (Y1 & Y2).
  specialize (H c' Y1 (eq_sym Ek1) (eq_sym Ek2)). unfold isc in H. congruence.
Qed.

Lemma def_not_con r o k t l args : Def r o k t l args ∈ P -> is_oper o = true -> forall v, Con r v ∉ P.
Proof.
  intros H Ho v X. destruct (wp_con P WF _ _ X) as (sc & nm & k' & t' & l' & a' & Hd).
  pose proof (def_unique _ _ _ _ _ _ _ _ _ _ _ _ ND H Hd) as Y. injection Y as <- _ _ _ _. discriminate Ho.
Qed.

(** the buffer in front of operand [i] *)
Lemma B_op r o k t l args i a : Def r o k t l args ∈ P -> is_oper o = true -> args !! i = Some a ->
  exists s off, final P s /\ hops P a s off /\
    B r (Z.of_nat i) = if isc s then 0 else m r - (m s + node_lat ns s + off).
Proof.
  intros H Ho Ha. destruct CS as (_ & _ & C3 & C4 & _). destruct (C4 _ _ _ _ _ _ _ _ H Ho Ha) as (s & off & Hn & Hc).
  exists s, off. destruct (nearest_hops P WF _ _ _ Hn) as [F Hh]. split; [assumption|]. split; [assumption|].
  destruct (isc s) eqn:Es.
  - apply B_const. intros c Hcc Ht Hi. destruct (isc (sc_src c)) eqn:Ec; [reflexivity|]. exfalso.
    destruct (C3 c Hcc) as (st & Hst & Hco). destruct st as [r' o' k' t' l' args'|d v].
    + inversion Hco; subst. 
      pose proof (def_unique _ _ _ _ _ _ _ _ _ _ _ _ ND H Hst) as Y. injection Y as -> -> -> -> ->.
      match goal with A : args !! ?j = Some ?b, A2 : nearest P ?b = Some (sc_src c, _) |- _ =>
        pose proof (narrow' _ _ _ _ _ _ _ _ _ _ H Ho A A2 Ec) as L; 
        match goal with A3 : sc_ind c = wrap8 (Z.of_nat j) |- _ => rewrite wrap8_small in A3 by assumption; 
          assert (j = i) as -> by lia end; rewrite Ha in A; injection A as <-; rewrite Hn in A2; injection A2 as A2 _ end.
      congruence.
    + inversion Hco; subst. eapply def_not_con; eassumption.
  - pose proof (narrow' _ _ _ _ _ _ _ _ _ _ H Ho Ha Hn Es) as L. rewrite wrap8_small in Hc by assumption.
    pose proof (B_chan _ Hc Es) as X. cbn in X. rewrite X. unfold chan_delay. cbn. lia.
Qed.

Lemma B_con d v : Con d v ∈ P -> exists s off, final P s /\ hops P v s off /\
    B d (-1) = if isc s then 0 else m d - (m s + node_lat ns s + off).
Proof.
  intros H. destruct CS as (_ & _ & C3 & _ & C5 & _).
  destruct (C5 d v H) as (s & off & Hn & Hc). { rewrite (con_of_con P d v DN H). eauto. }
  exists s, off. destruct (nearest_hops P WF _ _ _ Hn) as [F Hh]. split; [assumption|]. split; [assumption|].
  destruct (isc s) eqn:Es.
  - apply B_const. intros c Hcc Ht Hi. destruct (isc (sc_src c)) eqn:Ec; [reflexivity|]. exfalso.
    destruct (C3 c Hcc) as (st & Hst & Hco). destruct st as [r' o' k' t' l' args'|d' v'].
    + inversion Hco; subst. eapply def_not_con; eassumption.
    + inversion Hco; subst. assert (v' = v) as -> by (eapply con_unique; eassumption). congruence.
  - pose proof (B_chan _ Hc Es) as X. cbn in X. rewrite X. unfold chan_delay. cbn. lia.
Qed.

Lemma fresh_spec Q v : (exists s, s ∈ Q /\ v ∈ match s with Def r _ _ _ _ a => r :: a | Con d x => [d; x] end) -> (v < fresh Q)%nat.
Proof.
  intros (s & Hs & Hv). unfold fresh.
  set (l := mjoin _). assert (v ∈ l) as Hl.
  { unfold l. apply elem_of_list_join. eexists. split; [exact Hv|]. apply elem_of_list_fmap. exists s. split; [reflexivity|assumption]. }
  clearbody l. clear -Hl. induction l as [|x l IH]; [inversion Hl|]. cbn.
  apply elem_of_cons in Hl as [->|Hl]; [lia|]. specialize (IH Hl). lia.
Qed.

Lemma buffered0 : (forall v, v ∈ defs P -> (v < fresh P)%nat) -> buffered P (fresh P) (fun _ _ => 0) P (fresh P).
Proof.
  intro FR. constructor; try assumption.
  - lia.
  - intros. eauto.
  - intros v o k t l a H L. exfalso. assert (v ∈ defs P) as X by (apply defs_elem; eauto 10). apply FR in X. lia.
  - auto.
  - intros v o k t l a H. exists a. split; [assumption|]. split; [reflexivity|]. intros i x Hx. exists x. split; [assumption|]. left. auto.
  - intros d s H. exists s. split; [assumption|]. left. auto.
Qed.

Lemma fresh_defs v : v ∈ defs P -> (v < fresh P)%nat.
Proof.
  intro H. apply defs_elem in H as (o & k & t & l & a & H). apply fresh_spec. eexists. split; [exact H|]. left.
Qed.

Lemma buffered2 : exists f, buffered P (fresh P) B P2 f.
Proof.
  eapply buffered_all; [apply buffered0, fresh_defs|exact EI|apply bs_keys|].
  intros c z Hc. split; [reflexivity|]. destruct BF as [B1 _]. destruct (B1 c z Hc) as (Y1 & _).
  destruct CS as (C1 & C2 & C3 & _). 
  pose proof (od_tgt _ _ OD c Y1) as Ht. apply elem_of_list_fmap in Ht as (n & En & Hn). destruct (C2 n Hn) as (k & t & l & a & Hd & _).
  split; [apply fresh_defs; apply defs_elem; rewrite En; eauto 10|].
  intros d k' t' l' a' X. rewrite En in X.
  pose proof (def_unique _ _ _ _ _ _ _ _ _ _ _ _ ND Hd X) as Y. injection Y as E1 _ _ _ _.
  assert (In1 : s_id n ∈ node_ids P) by (rewrite <- C1; apply elem_of_list_fmap; eauto).
  unfold node_ids in In1. apply elem_of_list_omap in In1 as (st & Hst & Est). destruct st as [r o2 k2 t2 l2 a2|]; [|discriminate].
  assert (r = s_id n) as -> by (destruct o2; congruence).
  pose proof (def_unique _ _ _ _ _ _ _ _ _ _ _ _ ND X Hst) as Y. injection Y as -> _ _ _ _. discriminate Est.
Qed.

(** read outputs are not buffered *)
Lemma hops_nonneg : (forall v d k t l a, Def v (DOffset d) k t l a ∈ P -> 0 <= d) ->
  forall v s off, hops P v s off -> 0 <= off.
Proof.
  intros H v s off Hh. induction Hh as [|v s d u e Hp Hh IH]; [lia|].
  destruct Hp as [v d k t l s Hd|]; [|lia]. pose proof (H _ _ _ _ _ _ Hd). pose proof (SM _ _ _ _ _ _ Hd).
  unfold wrap32. rewrite Z.mod_small; lia.
Qed.

(** ** Signals: outputs that are used as operands must not be buffered *)
Hypothesis RU : forall d v, Con d v ∈ P -> is_read P d -> B d (-1) = 0.
Context {V : Type} (I : interp V) (h : nat -> Z -> V).
Hypothesis CI : circuit I P2 h.

Lemma wire_hops v s off : is_read P v -> hops P v s off -> forall c, 0 <= c -> h v c = h s c.
Proof.
  intros Hr Hh. destruct buffered2 as (f & BU). induction Hh as [|v s d u e Hp Hh IH]; [auto|].
  intros c Hc. rewrite <- IH; [|destruct Hp as [v d k t l s Hd|v s Hd]; eexists; (split; [exact Hd|left])|assumption].
  destruct Hp as [v d k t l s Hd|v s Hd].
  - destruct (bf_def _ _ _ _ _ BU _ _ _ _ _ _ Hd) as (a2 & X1 & X2 & _). cbn in X2.
    pose proof (bf_off _ _ _ _ _ BU _ _ _ _ _ _ X1) as X3.
    pose proof (def_unique _ _ _ _ _ _ _ _ _ _ _ _ ND Hd X3) as Y. injection Y as ->.
    apply (CI _ X1). assumption.
  - destruct (bf_con _ _ _ _ _ BU _ _ Hd) as (s2 & X1 & X2). rewrite (RU _ _ Hd Hr) in X2.
    destruct X2 as [[_ ->]|(X & _)]; [|lia]. apply (CI _ X1). assumption.
Qed.

(** what a value is once it is resolved *)
Definition good (v : nat) (i : Z) (x : V) : Prop :=
  forall s off, hops P v s off -> final P s ->
    (isc s = false -> 0 <= i + off /\ h s (i + off + m s + node_lat ns s) = x) /\
    (isc s = true -> forall c, 0 <= c -> h s c = x).

Lemma final_hops v s off : final P v -> hops P v s off -> s = v /\ off = 0.
Proof.
  intros [F1 F2] H. inversion H as [|v' s' d u e Hp Hh]; subst; [auto|]. exfalso.
  destruct Hp as [x d' k t l y Hd|x y Hd]; [eapply F2; exact Hd|].
  rewrite (con_of_con P x y DN Hd) in F1. discriminate.
Qed.
Lemma final_def v o k t l a : Def v o k t l a ∈ P -> is_output o = false -> (forall d, o <> DOffset d) -> final P v.
Proof.
  intros H Ho Hd. split.
  - destruct (con_of P v) as [s|] eqn:E; [|reflexivity]. apply con_of_in in E.
    destruct (wp_con P WF _ _ E) as (sc & nm & k' & t' & l' & a' & X).
    pose proof (def_unique _ _ _ _ _ _ _ _ _ _ _ _ ND H X) as Y. injection Y as <- _ _ _ _. discriminate.
  - intros d k' t' l' a' X. pose proof (def_unique _ _ _ _ _ _ _ _ _ _ _ _ ND H X) as Y. injection Y as <- _ _ _ _.
    eapply Hd; reflexivity.
Qed.

Lemma h_old v o k t l a : Def v o k t l a ∈ P -> exists a2, Def v o k t l a2 ∈ P2.
Proof. destruct buffered2 as (f & BU). intro H. destruct (bf_def _ _ _ _ _ BU _ _ _ _ _ _ H) as (a2 & X & _). eauto. Qed.

Lemma arg_signal b a a2 s off i x : arg_ok (fresh P) P2 b a a2 -> is_read P a -> hops P a s off ->
  good a i x -> final P s -> forall C, 0 <= C ->
  (isc s = true -> b = 0) -> (isc s = false -> C = i + off + m s + node_lat ns s + b) ->
  0 <= m s + node_lat ns s ->
  h a2 C = x.
Proof.
  intros Hb Hr Hh G Fs C HC H1 H2 H3. destruct (G s off Hh Fs) as [G1 G2].
  destruct Hb as [[-> ->]|(Hb & _ & k & t & Hd)].
  - rewrite (wire_hops _ _ _ Hr Hh C HC). destruct (isc s) eqn:Es; [apply G2; auto|].
    destruct (G1 eq_refl) as [_ <-]. f_equal. specialize (H2 eq_refl). lia.
  - destruct (isc s) eqn:Es; [specialize (H1 eq_refl); lia|]. destruct (G1 eq_refl) as [G3 G4]. specialize (H2 eq_refl).
    assert (h a2 (i + off + m s + node_lat ns s + delay DLatency b) = x) as X.
    { apply (CI _ Hd _ x); [lia|]. cbn. rewrite (wire_hops _ _ _ Hr Hh) by lia. rewrite G4. reflexivity. }
    rewrite <- X. f_equal. unfold delay. cbn. lia.
Qed.

Lemma lat_nonneg x : x ∈ map s_id ns -> 0 <= node_lat ns x.
Proof.
  intro X. apply elem_of_list_fmap in X as (n & -> & Hn'). rewrite (node_lat_in ns n (od_nd _ _ OD) Hn').
  apply L0. assumption.
Qed.
Lemma lat_nonneg' x : 0 <= node_lat ns x.
Proof.
  destruct (decide (x ∈ map s_id ns)) as [H|H]; [apply lat_nonneg; assumption|].
  unfold node_lat. destruct (List.find _ ns) as [n|] eqn:E; [|lia]. exfalso. apply in_find in E as [E1 E2].
  apply Nat.eqb_eq in E2 as <-. apply H. apply elem_of_list_fmap. eauto.
Qed.
Lemma m_nonneg x : 0 <= m x.
Proof. apply M0. Qed.

Lemma oper_props o : is_oper o = true -> is_output o = false /\ (forall d, o <> DOffset d) /\ is_constant_input o = false.
Proof. destruct o; intro H; try discriminate H; repeat split; intros; congruence. Qed.

Lemma all_good v i x : dval I P v i x -> good v i x.
Proof.
  intro D0. revert v i x D0.
  apply (dval_ind' I P); [intros v name k t l a i H H0|intros v name k t l a i H|intros v c k t l a i H|intros v d k t l s i x H D IHD|intros v sc name k t l a s i x H H0 D IHD|intros v o k t l args i xs x H H0 H1 H2 H3].
  - intros s off Hh Fs. pose proof (final_def _ _ _ _ _ _ H eq_refl ltac:(discriminate)) as Fv.
    destruct (final_hops _ _ _ Fv Hh) as [-> ->]. rewrite (isc_def _ _ _ _ _ _ H ltac:(discriminate)). cbn.
    split; [|discriminate]. intros _. split; [lia|]. destruct (h_old _ _ _ _ _ _ H) as (a2 & X).
    rewrite (lat_def _ _ _ _ _ _ H ltac:(discriminate)). cbn.
    rewrite (MI _ _ _ _ _ _ H).
    rewrite !Z.add_0_r. apply (CI _ X). assumption.
  - intros s off Hh Fs. pose proof (final_def _ _ _ _ _ _ H eq_refl ltac:(discriminate)) as Fv.
    destruct (final_hops _ _ _ Fv Hh) as [-> ->]. rewrite (isc_def _ _ _ _ _ _ H ltac:(discriminate)). cbn.
    split; [discriminate|]. intros _ c Hc. destruct (h_old _ _ _ _ _ _ H) as (a2 & X). apply (CI _ X). assumption.
  - intros s off Hh Fs. pose proof (final_def _ _ _ _ _ _ H eq_refl ltac:(discriminate)) as Fv.
    destruct (final_hops _ _ _ Fv Hh) as [-> ->]. rewrite (isc_def _ _ _ _ _ _ H ltac:(discriminate)). cbn.
    split; [discriminate|]. intros _ c' Hc. destruct (h_old _ _ _ _ _ _ H) as (a2 & X). apply (CI _ X). assumption.
  - intros u off Hh Fs. inversion Hh as [|v' s' d' u' e Hp Hh']; subst.
    { exfalso. destruct Fs as [_ Fs]. eapply Fs. exact H. }
    assert (s' = s /\ d' = d) as [-> ->].
    { destruct Hp as [v d' k' t' l' y Hd|v y Hd].
      - pose proof (def_unique _ _ _ _ _ _ _ _ _ _ _ _ ND H Hd) as Y. injection Y as -> _ _ _ ->. split; [reflexivity|].
        pose proof (SM _ _ _ _ _ _ H). unfold wrap32. rewrite Z.mod_small; lia.
      - exfalso. eapply not_off_con; eassumption. }
    specialize (IHD u e Hh' Fs). replace (i + (d + e)) with (i + d + e) by lia. exact IHD.
  - intros u off Hh Fs. inversion Hh as [|v' s' d' u' e Hp Hh']; subst.
    { exfalso. destruct Fs as [Fs _]. rewrite (con_of_con P _ _ DN H0) in Fs. discriminate. }
    assert (s' = s /\ d' = 0) as [-> ->].
    { destruct Hp as [v d' k' t' l' y Hd|v y Hd].
      - exfalso. eapply not_off_con; eassumption.
      - split; [eapply con_unique; eassumption|reflexivity]. }
    specialize (IHD u e Hh' Fs). rewrite Z.add_0_l. exact IHD.
  - destruct (oper_props o H0) as (O1 & O2 & O3).
    intros s off Hh Fs. pose proof (final_def _ _ _ _ _ _ H O1 O2) as Fv.
    destruct (final_hops _ _ _ Fv Hh) as [-> ->]. rewrite (isc_def _ _ _ _ _ _ H O2), O3.
    split; [|discriminate]. intros _. split; [lia|].
    destruct buffered2 as (f & BU). destruct (bf_def _ _ _ _ _ BU _ _ _ _ _ _ H) as (a2 & X1 & X2 & X3).
    rewrite (lat_def _ _ _ _ _ _ H O2).
    assert (E : map (fun a => h a (i + m v)) a2 = xs).
    { apply list_eq. intro j. rewrite list_lookup_fmap.
      destruct (args !! j) as [a|] eqn:Ea.
      - destruct (X3 j a Ea) as (y & Ey & Ay). rewrite Ey. cbn.
        destruct (Forall2_lookup_l _ _ _ _ _ H2 Ea) as (xj & Exj & Dj & Gj). rewrite Exj. f_equal.
        destruct (B_op _ _ _ _ _ _ _ _ H H0 Ea) as (s & off & Fs' & Hh' & EB'). rewrite EB' in Ay.
        eapply arg_signal; [exact Ay| |exact Hh'|exact Gj|exact Fs'| | | |].
        + eexists. split; [exact H|]. cbn. eapply elem_of_list_lookup_2. exact Ea.
        + pose proof (m_nonneg v). lia.
        + intros ->. reflexivity.
        + intros ->. lia.
        + pose proof (m_nonneg s). pose proof (lat_nonneg' s). lia.
      - assert (a2 !! j = None) as -> by (apply lookup_ge_None; rewrite X2; apply lookup_ge_None; assumption).
        cbn. symmetry. apply lookup_ge_None. rewrite <- (Forall2_length _ _ _ H2). apply lookup_ge_None. assumption. }
    assert (SH := CI _ X1).
    assert (h v (i + m v + delay o l) = x) as G.
    { pose proof (m_nonneg v). destruct o; try discriminate H0; cbn [stmt_holds] in SH; apply SH; try lia; rewrite E; assumption. }
    rewrite <- G. f_equal. lia.
Qed.

Lemma output_signal d v i x : Con d v ∈ P -> dval I P d i x -> 0 <= i -> h d (i + m d) = x.
Proof.
  intros H D Hi. destruct (wp_con P WF _ _ H) as (sc & nm & k & t & l & a & Hd).
  assert (D' : dval I P v i x).
  { inversion D; subst; try (match goal with Z : Def d _ _ _ _ _ ∈ P |- _ =>
      pose proof (def_unique _ _ _ _ _ _ _ _ _ _ _ _ ND Hd Z) as Y; try discriminate Y end).
    - match goal with Z : Con d ?s ∈ P |- _ => assert (v = s) as -> by (eapply con_unique; [exact DN|exact H|exact Z]) end. assumption.
    - injection Y as -> _ _ _ _. discriminate. }
  apply all_good in D'. destruct buffered2 as (f & BU). destruct (bf_con _ _ _ _ _ BU _ _ H) as (s2 & X1 & X2).
  destruct (B_con d v H) as (s & off & Fs & Hh & EB'). rewrite EB' in X2.
  pose proof (m_nonneg d). rewrite (CI _ X1) by lia.
  eapply arg_signal; [exact X2| |exact Hh|exact D'|exact Fs|lia| | |].
  - eexists. split; [exact H|]. left.
  - intros ->. reflexivity.
  - intros ->. lia.
  - pose proof (m_nonneg s). pose proof (lat_nonneg' s). lia.
Qed.
End Main.

(** ** ASAP *)
Section AsapMain.
Variable P : program.
Hypothesis WF : wfp P.
Hypothesis SM : small_offsets P.
Hypothesis NR : narrow P.
Variables (ns : list snode) (cs : list schan) (m : lats) (mx : Z) (bs0 bs : list (schan * Z)).
Hypothesis EG : sgraph P = Some (ns, cs).
Hypothesis NS : no_self cs.
Hypothesis EN : asap_nodes ns cs ns (fun _ => 0) 0 = Some (m, mx).
Hypothesis EB : asap_buffers ns m cs = Some bs0.
Hypothesis PM : bs ≡ₚ bs0.
Let ND := wp_defs P WF.
Let DN := wp_dests P WF.
Let OD := sgraph_ordered P WF ns cs EG.
Let isc := node_is_const ns.
Let B := Bof bs (fun _ _ => 0).
Let CS := construct_spec P WF P [] ns cs (sub_refl P) EG.

Lemma asap_realises : realises ns cs m bs.
Proof.
  destruct (asap_buffers_spec ns m cs bs0 EB) as [B1 B2]. split.
  - intros c z H. rewrite PM in H. destruct (B1 c z H) as (X1 & _ & _ & X2). auto.
  - intros c Hc Hk. destruct (B2 c Hc Hk) as [X|[X Y]]; [left; rewrite PM; exact X|right].
    split; [exact X|]. intros y Hy. rewrite PM in Hy. exact (Y y Hy).
Qed.
Lemma asap_nodup : NoDup (map fst bs).
Proof.
  rewrite PM. pose proof (keys P WF NR ns cs EG) as K. clear - K EB. revert bs0 K EB.
  induction cs as [|c cs' IH]; intros bs0 K EB; cbn in EB.
  { injection EB as <-. constructor. }
  destruct (i32 (m (sc_src c) + node_lat ns (sc_src c))) as [x|]; [|discriminate].
  destruct (i32 (x + sc_off c)) as [y|]; [|discriminate].
  destruct (i32 (m (sc_tgt c) - y)) as [d|]; [|discriminate].
  destruct (asap_buffers ns m cs') as [l|] eqn:E; [|discriminate].
  cbn [List.filter] in K. unfold nc at 1 in K.
  assert (K' : NoDup (map key (List.filter (nc (node_is_const ns)) cs'))).
  { destruct (negb _); [cbn in K; apply NoDup_cons in K; tauto|assumption]. }
  specialize (IH l K' eq_refl).
  destruct (negb (d =? 0) && negb (node_is_const ns (sc_src c))) eqn:Eb; injection EB as <-; [|assumption].
  apply andb_true_iff in Eb as [_ Eb]. rewrite Eb in K. cbn in K |- *. apply NoDup_cons in K as [K1 _].
  apply NoDup_cons. split; [|assumption]. intro X. apply K1. clear K1.
  apply elem_of_list_fmap in X as ([c' z] & Ek & X). cbn in Ek. rewrite Ek. apply elem_of_list_fmap. exists c'. split; [reflexivity|].
  destruct (asap_buffers_spec ns m cs' l E) as [A _]. apply A in X as (X1 & _ & _ & X2).
  rewrite elem_of_list_In, List.filter_In, <- elem_of_list_In. split; [assumption|]. unfold nc. rewrite X2. reflexivity.
Qed.
Lemma asap_input v name k t l a : Def v (DIn false name) k t l a ∈ P -> m v = 0.
Proof.
  intro H. pose proof (final_def P WF _ _ _ _ _ _ H eq_refl ltac:(discriminate)) as Fv.
  destruct (asap_nodes_spec ns cs OD NS m mx EN) as (_ & Pth & _). destruct (Pth v) as (a' & Hp).
  inversion Hp as [Y|b z c Hb Hc Es Y1 Y2]; [congruence|exfalso].
  destruct CS as (_ & _ & C3 & _). destruct (C3 c Hc) as (st & Hst & Hco). inversion Hco; subst.
  - pose proof (def_unique _ _ _ _ _ _ _ _ _ _ _ _ ND H Hst) as Y. injection Y as -> _ _ _ _. discriminate.
  - pose proof (con_of_con P _ _ DN Hst) as Z. destruct Fv as [Fv _]. congruence.
Qed.
Hypothesis OS : outputs_safe P.
Let B_con := B_con P WF NR ns cs m bs EG asap_realises asap_nodup.
Let B_chan := B_chan P WF NR ns cs m bs EG asap_realises asap_nodup.
Let hops_nonneg := hops_nonneg P SM.
Let def_not_con := def_not_con P WF.
Lemma read_unbuffered d v : Con d v ∈ P -> is_read P d -> B d (-1) = 0.
Proof.
  intros H Hr. destruct OS as [O|O]; [exfalso; eapply O; eassumption|].
  destruct (B_con d v H) as (s & off & Fs & Hh & E). unfold B. rewrite E. destruct (node_is_const ns s) eqn:Es; [reflexivity|].
  pose proof (hops_nonneg O _ _ _ Hh) as Hoff.
  destruct (asap_nodes_spec ns cs OD NS m mx EN) as ((F1 & F2) & Pth & _ & _ & _ & Lp).
  destruct CS as (C1 & C2 & C3 & _ & C5 & _).
  destruct (C5 d v H) as (s' & off' & Hn & Hc). { rewrite (con_of_con P d v DN H). eauto. }
  destruct (nearest_hops P WF _ _ _ Hn) as [F' Hh'].
  (* the resolved source is unique *)
  pose proof (B_chan _ Hc) as Bc. cbn in Bc.
  assert (Us : s' = s /\ off' = off).
  { clear -WF F' Fs Hh Hh' ND DN.
    assert (forall v s d, final P v -> ~ hop P v s d) as NF.
    { intros x y d [X1 X2] Hp. destruct Hp as [x d k t l y Hd|x y Hd]; [eapply X2; exact Hd|].
      rewrite (con_of_con P x y DN Hd) in X1. discriminate. }
    assert (forall v s d s' d', hop P v s d -> hop P v s' d' -> s = s' /\ d = d') as UH.
    { intros x y d y' d' A A'. destruct A as [x d k t l y Hd|x y Hd]; inversion A'; subst.
      - match goal with Z : Def x _ _ _ _ _ ∈ P |- _ => pose proof (def_unique _ _ _ _ _ _ _ _ _ _ _ _ ND Hd Z) as Y end.
        injection Y as -> _ _ _ ->. auto.
      - exfalso. eapply not_off_con; eassumption.
      - exfalso. eapply not_off_con; eassumption.
      - split; [eapply con_unique; eassumption|reflexivity]. }
    revert s' off' F' Hh'. induction Hh as [v|v s d u e Hp Hh IH]; intros s' off' F' Hh'.
    - inversion Hh'; subst; [auto|]. exfalso. eapply (NF _ _ _ Fs); eassumption.
    - inversion Hh'; subst; [exfalso; eapply NF; [exact F'|exact Hp]|].
      match goal with Z : hop P v ?y ?z |- _ => destruct (UH _ _ _ _ _ Hp Z) as [-> ->] end.
      match goal with Z : hops P ?y s' ?z |- _ => destruct (IH Fs _ _ F' Z) as [-> ->] end. auto. }
  destruct Us as [-> ->]. specialize (Bc Es). clear Bc.
  pose proof (F2 _ Hc) as G. unfold chan_delay in G. cbn in G.
  assert (Ls : 0 <= node_lat ns s).
  { pose proof (od_src _ _ OD _ Hc) as X. cbn in X. apply elem_of_list_fmap in X as (n & -> & Hn').
    rewrite (node_lat_in ns n (od_nd _ _ OD) Hn'). apply Lp. assumption. }
  destruct (Pth d) as (a & Hp). pose proof (F1 s) as Ps.
  assert (Hle : forall b z, path ns cs a b z -> z <= m b).
  { intros b z Hb. induction Hb as [|b z c Hb IH Hc' Es']; [apply F1|]. pose proof (F2 _ Hc'). rewrite Es' in *. lia. }
  inversion Hp as [X|b z c Hb Hc' Es' X1 X2].
  - lia.
  - assert (sc_src c = s /\ sc_off c = off) as [Y1 Y2].
    { destruct (C3 c Hc') as (st & Hst & Hco). destruct st as [r' o' k' t' l' args'|d' v'].
      - inversion Hco; subst. exfalso. eapply def_not_con; eassumption.
      - inversion Hco; subst. assert (v' = v) as -> by (eapply con_unique; [exact DN|exact Hst|congruence]).
        match goal with Z : nearest P v = Some (sc_src c, _) |- _ => rewrite Hn in Z; injection Z as -> -> end. auto. }
    pose proof (Hle _ _ Hb) as Z1. rewrite X1 in X2. unfold chan_delay in *. rewrite Y1, Y2 in *. subst b. lia.
Qed.

End AsapMain.
