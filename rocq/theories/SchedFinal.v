(** The ASAP pass as a whole (proofs). *)
From Coq Require Import ZArith Bool Lia String.
From stdpp Require Import list.
From Verif Require Import Types Value Graph Dfcir StreamSpec Sched SchedSpec SchedProofs DfcirProofs SchedStream SchedMain.
Local Open Scope Z_scope.
Local Arguments nearest : simpl never.

Lemma rank_before P : NoDup (defs P) -> exists rk : nat -> nat,
  forall p r o k t l a q x, P = p ++ Def r o k t l a :: q -> x ∈ defs p -> (rk x < rk r)%nat.
Proof.
  intros ND.
  exists (fun x => match list_find (fun y => y = x) (defs P) with Some (i, _) => i | None => length (defs P) end).
  intros p v o k t l a q x E Hp. rewrite E in ND |- *. rewrite defs_app in *.
  change (defs (Def v o k t l a :: q)) with (v :: defs q) in *.
  apply elem_of_list_lookup in Hp as (i & Hi).
  assert (Lx : list_find (fun y => y = x) (defs p ++ v :: defs q) = Some (i, x)).
  { apply list_find_Some. split; [rewrite lookup_app_l; [assumption|apply lookup_lt_Some in Hi; assumption]|].
    split; [reflexivity|]. intros j y Hj Lj ->.
    assert (Hi' : (defs p ++ v :: defs q) !! i = Some x) by (rewrite lookup_app_l; [assumption|apply lookup_lt_Some in Hi; assumption]).
    pose proof (NoDup_lookup _ _ _ _ ND Hi' Hj). lia. }
  assert (Lv : list_find (fun y => y = v) (defs p ++ v :: defs q) = Some (length (defs p), v)).
  { apply list_find_Some. split; [rewrite lookup_app_r, Nat.sub_diag by lia; reflexivity|].
    split; [reflexivity|]. intros j y Hj Lj ->.
    assert (Hi' : (defs p ++ v :: defs q) !! length (defs p) = Some v) by (rewrite lookup_app_r, Nat.sub_diag by lia; reflexivity).
    pose proof (NoDup_lookup _ _ _ _ ND Hi' Hj). lia. }
  rewrite Lx, Lv. apply lookup_lt_Some in Hi. assumption.
Qed.

Lemma back_no_self P ns cs : wfp P -> connects_back P -> sgraph P = Some (ns, cs) -> no_self cs.
Proof.
  intros W CB E c Hc Es. destruct (rank_before P (wp_defs P W)) as (rk & R).
  assert (RC : forall d s, Con d s ∈ P -> (rk s < rk d)%nat).
  { intros d s H. destruct (wp_con P W _ _ H) as (sc & nm & k & t & l & a & Hd).
    apply elem_of_list_split in Hd as (p & q & Ep). eapply R; [exact Ep|]. eapply CB; eassumption. }
  assert (RD : forall r o k t l a x, Def r o k t l a ∈ P -> x ∈ a -> (rk x < rk r)%nat).
  { intros r o k t l a x H Hx. apply elem_of_list_split in H as (p & q & Ep). eapply R; [exact Ep|]. eapply wp_dom; [eassumption|exact Ep|exact Hx]. }
  assert (RH : forall v s d, hops P v s d -> (rk s <= rk v)%nat).
  { intros v s d Hh. induction Hh as [|v s d u e Hp Hh IH]; [lia|].
    enough (rk s < rk v)%nat by lia. destruct Hp as [v d k t l s Hd|v s Hd]; [eapply RD; [exact Hd|left]|apply RC; assumption]. }
  destruct (construct_spec P W P [] ns cs ltac:(auto) E) as (_ & _ & C3 & _). destruct (C3 c Hc) as (st & Hst & Hco).
  destruct Hco as [r o k t l args i a Ho Ha Hn Ht Hi|d v sc nm Hop Hn Ht Hi].
  - destruct (nearest_hops P W _ _ _ Hn) as [_ Hh]. apply RH in Hh.
    apply elem_of_list_lookup_2 in Ha. pose proof (RD _ _ _ _ _ _ _ Hst Ha). rewrite Es, Ht in Hh. lia.
  - destruct (nearest_hops P W _ _ _ Hn) as [_ Hh]. apply RH in Hh.
    pose proof (RC _ _ Hst). rewrite Es, Ht in Hh. lia.
Qed.

(** ** The latency configuration changes latencies only *)
Section Cfg.
Variable cfg : latcfg.
Lemma cfg_def P r o k t l a : Def r o k t l a ∈ P -> exists l', Def r o k t l' a ∈ apply_config cfg P.
Proof. intro H. unfold apply_config. eexists. apply elem_of_list_fmap. eexists. split; [|exact H]. reflexivity. Qed.
Lemma cfg_con P d s : Con d s ∈ P -> Con d s ∈ apply_config cfg P.
Proof. intro H. unfold apply_config. apply elem_of_list_fmap. eexists. split; [|exact H]. reflexivity. Qed.
Lemma cfg_def_inv P r o k t l a : Def r o k t l a ∈ apply_config cfg P -> exists l', Def r o k t l' a ∈ P.
Proof.
  unfold apply_config. intro H. apply elem_of_list_fmap in H as (st & E & H). destruct st; [|discriminate].
  injection E as -> -> -> -> _ ->. eauto.
Qed.
Lemma cfg_con_inv P d s : Con d s ∈ apply_config cfg P -> Con d s ∈ P.
Proof.
  unfold apply_config. intro H. apply elem_of_list_fmap in H as (st & E & H). destruct st; [discriminate|].
  injection E as -> ->. eauto.
Qed.
Lemma cfg_defs P : defs (apply_config cfg P) = defs P.
Proof.
  induction P as [|[] P IH]; [reflexivity| |exact IH].
  unfold defs, apply_config in *. cbn. f_equal. exact IH.
Qed.
Lemma cfg_dests P : dests (apply_config cfg P) = dests P.
Proof.
  induction P as [|[] P IH]; [reflexivity|exact IH|].
  unfold dests, apply_config in *. cbn. f_equal. exact IH.
Qed.
Lemma cfg_reads s : forall P, s ∈ apply_config cfg P -> exists s', s' ∈ P /\ reads s' = reads s.
Proof.
  intros P H. unfold apply_config in H. apply elem_of_list_fmap in H as (st & -> & H). exists st. split; [assumption|]. destruct st; reflexivity.
Qed.
Lemma cfg_split P p s q : apply_config cfg P = p ++ s :: q -> exists p' s' q', P = p' ++ s' :: q' /\
  apply_config cfg p' = p /\ apply_config cfg [s'] = [s].
Proof.
  unfold apply_config. intro E. apply fmap_app_inv in E as (p' & r & E1 & E2 & ->).
  destruct r as [|s' q']; [discriminate|]. cbn in E2. exists p', s', q'. split; [reflexivity|]. split; [symmetry; exact E1|].
  injection E2 as E2 _. cbn. rewrite E2. reflexivity.
Qed.
Lemma cfg_op_of P v : op_of (apply_config cfg P) v = op_of P v.
Proof.
  unfold op_of, def_of, apply_config. induction P as [|[r o k t l a|d s] P IH]; cbn; [reflexivity| |apply IH].
  destruct (Nat.eqb r v); [reflexivity|apply IH].
Qed.
Lemma cfg_wfp P : wfp P -> wfp (apply_config cfg P).
Proof.
  intros [W1 W2 W3 W6 W4 W5]. constructor.
  - rewrite cfg_defs. assumption.
  - rewrite cfg_dests. assumption.
  - intros p s q E v Hv. apply cfg_split in E as (p' & s' & q' & -> & <- & E). rewrite cfg_defs.
    eapply W3; [reflexivity|]. destruct s', s; cbn in E; try discriminate; injection E; intros; subst; cbn in *; assumption.
  - intros p d s q E. apply cfg_split in E as (p' & s' & q' & -> & <- & E). rewrite cfg_defs.
    destruct s' as [|d' x]; [discriminate|]. cbn in E. injection E as -> ->. eapply W6. reflexivity.
  - intros d s H. apply cfg_con_inv in H. destruct (W4 _ _ H) as (sc & nm & k & t & l & a & X). apply cfg_def in X as (l' & X). eauto 10.
  - intros v d k t l a H. apply cfg_def_inv in H as (l' & H). eauto.
Qed.
Lemma cfg_small P : small_offsets P -> small_offsets (apply_config cfg P).
Proof. intros H v d k t l a X. apply cfg_def_inv in X as (l' & X). eauto. Qed.
Lemma cfg_narrow P : narrow P -> narrow (apply_config cfg P).
Proof. intros H r o k t l args i a X Y Z. apply cfg_def_inv in X as (l' & X). rewrite cfg_op_of. eauto. Qed.
Lemma cfg_outputs P : outputs_safe P -> outputs_safe (apply_config cfg P).
Proof.
  intros [H|H]; [left|right].
  - intros d s X (st & Y & Z). apply cfg_con_inv in X. apply cfg_reads in Y as (st' & Y & E). apply (H _ _ X). exists st'. rewrite E. auto.
  - intros v d k t l a X. apply cfg_def_inv in X as (l' & X). eauto.
Qed.
Lemma cfg_back P : connects_back P -> connects_back (apply_config cfg P).
Proof.
  intros H p r o k t l a q s E X. apply cfg_con_inv in X. apply cfg_split in E as (p' & s' & q' & -> & <- & E). rewrite cfg_defs.
  destruct s'; [|discriminate]. cbn in E. injection E as -> -> -> -> _ ->. eapply H; [reflexivity|exact X].
Qed.
Lemma cfg_dval {V} (I : interp V) P v i x : dval I P v i x -> dval I (apply_config cfg P) v i x.
Proof.
  revert v i x. apply (dval_ind' I P).
  - intros v name k t l a i H H0. apply cfg_def in H as (l' & H). eapply dv_stream; eassumption.
  - intros v name k t l a i H. apply cfg_def in H as (l' & H). eapply dv_scalar; eassumption.
  - intros v c k t l a i H. apply cfg_def in H as (l' & H). eapply dv_const; eassumption.
  - intros v d k t l s i x H D IH. apply cfg_def in H as (l' & H). eapply dv_offset; eassumption.
  - intros v sc name k t l a s i x H H0 D IH. apply cfg_def in H as (l' & H). apply cfg_con in H0. eapply dv_out; eassumption.
  - intros v o k t l args i xs x H H0 H1 H2 H3. apply cfg_def in H as (l' & H). eapply dv_op; [eassumption|assumption|assumption| |eassumption].
    eapply Forall2_impl; [exact H2|]. cbn. tauto.
Qed.
End Cfg.

Lemma out_node P ns cs d : wfp P -> sgraph P = Some (ns, cs) -> (exists sc name k t l a, Def d (DOut sc name) k t l a ∈ P) ->
  node_is_output ns d = true.
Proof.
  intros W E (sc & nm & k & t & l & a & H). pose proof (node_in P W ns cs E _ _ _ _ _ _ H ltac:(discriminate)) as X.
  unfold node_is_output. apply existsb_exists. eexists. split; [apply elem_of_list_In; exact X|]. cbn. rewrite Nat.eqb_refl. reflexivity.
Qed.
Lemma node_out P ns cs d : wfp P -> sgraph P = Some (ns, cs) -> node_is_output ns d = true ->
  exists sc name k t l a, Def d (DOut sc name) k t l a ∈ P.
Proof.
  intros W E H. unfold node_is_output in H. apply existsb_exists in H as (n & Hn & H). apply andb_true_iff in H as [H1 H2].
  apply Nat.eqb_eq in H1 as <-. destruct (construct_spec P W P [] ns cs ltac:(auto) E) as (_ & C2 & _).
  apply elem_of_list_In in Hn. destruct (C2 n Hn) as (k & t & l & a & Hd & _). destruct (s_op n); try discriminate H2. eauto 10.
Qed.

(** any start times, realised by buffers, give the right circuit *)
Lemma scheduled_stream cfg P ns cs m bs P2 :
  wfp P -> small_offsets P -> narrow P ->
  sgraph (apply_config cfg P) = Some (ns, cs) ->
  (forall x, 0 <= m x) -> (forall n, n ∈ ns -> 0 <= s_lat n) ->
  (forall v name k t l a, Def v (DIn false name) k t l a ∈ P -> m v = 0) ->
  realises ns cs m bs -> NoDup (map fst bs) ->
  insert_buffers (apply_config cfg P) bs (fresh (apply_config cfg P)) = Some P2 ->
  (forall d v, Con d v ∈ P -> is_read P d -> Bof bs (fun _ _ => 0) d (-1) = 0) ->
  forall V (I : interp V) h, circuit I (erase_offsets P2) h ->
  forall d s i x, Con d s ∈ P -> 0 <= i -> dval I P d i x -> h d (i + m d) = x.
Proof.
  intros W SM NR EG M0 L0 MI RL BD EI RU V I h C d s i x Hc Hi Dv. set (P1 := apply_config cfg P) in *.
  assert (W1 := cfg_wfp cfg P W). fold P1 in W1.
  assert (Hc1 : Con d s ∈ P1) by (apply cfg_con; assumption).
  assert (NR1 := cfg_narrow cfg P NR). assert (SM1 := cfg_small cfg P SM).
  destruct (buffered2 P1 W1 NR1 ns cs m bs P2 EG RL BD EI) as (f & BU).
  assert (ER : erasable P2).
  { constructor.
    - apply (bf_nd _ _ _ _ _ BU).
    - intros v e k t l a H. apply (bf_off _ _ _ _ _ BU) in H. eapply wp_off; [exact W1|exact H].
    - destruct (wfp_rank P1 W1) as (rk & R). exists rk. intros v e k t l y H. apply (bf_off _ _ _ _ _ BU) in H.
      eapply R; [exact H|reflexivity|left]. }
  destruct (erase_circuit I P2 h ER C) as (h' & C' & X).
  rewrite <- (X d).
  - eapply (output_signal P1 W1 SM1 NR1 ns cs m bs P2 EG M0 L0); [|exact RL|exact BD|exact EI| |exact C'|exact Hc1|apply cfg_dval; exact Dv|exact Hi].
    + intros v name k t l a H. apply cfg_def_inv in H as (l' & H). eauto.
    + intros d' v' H (st & Y & Z). apply cfg_con_inv in H. apply cfg_reads in Y as (st' & Y & E). eapply RU; [exact H|]. exists st'. rewrite E. auto.
  - intros e k t l a H. apply (bf_off _ _ _ _ _ BU) in H. eapply not_off_con; [exact W1|exact Hc1|exact H].
Qed.

Theorem asap_pass_stream cfg order P Q L :
  wfp P -> small_offsets P -> narrow P -> outputs_safe P -> connects_back P ->
  (forall bs, order bs ≡ₚ bs) ->
  asap_pass cfg order P = Some (Q, L) ->
  exists D : nat -> Z,
    (forall v, 0 <= D v) /\
    (forall d sc name k t l a, Def d (DOut sc name) k t l a ∈ P -> D d <= L) /\
    (L = 0 \/ exists d sc name k t l a, Def d (DOut sc name) k t l a ∈ P /\ D d = L) /\
    (exists ns cs, sgraph (apply_config cfg P) = Some (ns, cs) /\
       forall v, (exists a, path ns cs a v (D v)) /\ forall a z, path ns cs a v z -> z <= D v) /\
    forall V (I : interp V) h, circuit I Q h ->
      forall d s i x, Con d s ∈ P -> 0 <= i -> dval I P d i x -> h d (i + D d) = x.
Proof.
  intros W SM NR OS CB PM E. unfold asap_pass in E.
  set (P1 := apply_config cfg P) in *.
  assert (W1 := cfg_wfp cfg P W). fold P1 in W1.
  destruct (sgraph P1) as [[ns cs]|] eqn:EG; [|discriminate].
  unfold asap in E. destruct (asap_nodes ns cs ns (fun _ => 0) 0) as [[m mx]|] eqn:EN; [|discriminate].
  destruct (asap_buffers ns m cs) as [bs|] eqn:EB; [|discriminate].
  destruct (insert_buffers P1 (order bs) (fresh P1)) as [P2|] eqn:EI; [|discriminate].
  injection E as <- <-.
  assert (NS := back_no_self P1 ns cs W1 (cfg_back cfg P CB) EG).
  assert (OD := sgraph_ordered P1 W1 ns cs EG).
  destruct (asap_nodes_spec ns cs OD NS m mx EN) as ((F & Fc) & Pth & _ & S1 & S2 & L0).
  exists m. split; [exact F|]. split.
  { intros d sc name k t l a H. apply S1. apply cfg_def with (cfg := cfg) in H as (l' & H).
    eapply out_node; [exact W1|exact EG|]. eauto 10. }
  split.
  { destruct S2 as [S2|(x & X1 & X2)]; [left; exact S2|right]. 
    destruct (node_out P1 ns cs x W1 EG X1) as (sc & nm & k & t & l & a & Hd). apply cfg_def_inv in Hd as (l' & Hd).
    exists x, sc, nm, k, t, l', a. auto. }
  split.
  { exists ns, cs. split; [reflexivity|]. intro v. split; [apply Pth|]. intros a z Hp.
    induction Hp as [|b z c Hp IH Hc' Es]; [apply F|]. pose proof (Fc _ Hc'). rewrite Es in *. lia. }
  intros V I h C d s i x Hc Hi Dv.
  assert (NR1 := cfg_narrow cfg P NR). assert (SM1 := cfg_small cfg P SM).
  assert (RL := asap_realises ns cs m bs (order bs) EB (PM bs)).
  assert (BD := asap_nodup P1 W1 NR1 ns cs m bs (order bs) EG EB (PM bs)).
  eapply (scheduled_stream cfg P ns cs m (order bs) P2 W SM NR EG F L0); [|exact RL|exact BD|exact EI| |exact C|exact Hc|exact Hi|exact Dv].
  - intros v name k t l a H. apply (cfg_def cfg) in H as (l' & H). eapply (asap_input P1 W1 ns cs m mx EG NS EN); exact H.
  - intros d' v' H (st & Y & Z). eapply (read_unbuffered P1 W1 SM1 NR1 ns cs m mx bs (order bs) EG NS EN EB (PM bs) (cfg_outputs cfg P OS)); [apply cfg_con; exact H|].
    exists (match st with Def r o k t l a => Def r o k t (if is_scheduled o then config_latency cfg o t else l) a | Con d s => Con d s end).
    split; [|destruct st; exact Z]. unfold P1, apply_config. apply elem_of_list_fmap. exists st. split; [|exact Y]. destruct st; reflexivity.
Qed.
