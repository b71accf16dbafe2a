(** The combinational pipelining pass (proofs). *)
From Coq Require Import ZArith Bool QArith Lia.
From stdpp Require Import list.
From Verif Require Import Types Value Graph Dfcir StreamSpec Sched SchedSpec SchedProofs DfcirProofs SchedStream SchedMain SchedFinal
     SchedProgress LinearFinal Pipeline PipelineSpec PipelineProofs.
Local Open Scope Z_scope.
Local Arguments nearest : simpl never.

Lemma node_lat_zero ns v : (forall n, n ∈ ns -> s_lat n = 0) -> node_lat ns v = 0.
Proof.
  intro H. unfold node_lat. destruct (List.find _ ns) as [n|] eqn:E; [|reflexivity]. apply H. apply elem_of_list_In.
  apply find_some in E. tauto.
Qed.

(** ** Start times *)
Section Start.
Variables (ns : list snode) (cs : list schan) (m : lats) (mx n : Z) (ks : list Z).
Hypothesis M1 : forall c, c ∈ cs -> m (sc_src c) + 1 <= m (sc_tgt c).
Hypothesis M2 : forall v, 0 <= m v <= mx.
Hypothesis K1 : length ks = S (Z.to_nat mx).
Hypothesis K2 : forall i z, ks !! i = Some z -> 0 <= z <= n - 1.
Hypothesis K3 : forall i j z z', (i <= j)%nat -> ks !! i = Some z -> ks !! j = Some z' -> z <= z'.
Hypothesis K4 : (2 <= length ks)%nat -> ks !! 0%nat = Some 0.
Hypothesis K5 : ks !! (length ks - 1)%nat = Some (n - 1).
Hypothesis NB : n < 2 ^ 31.

Definition stt (v : nat) : Z := if mx =? 0 then 0 else casc_at ks (m v) + (if m v =? mx then 1 else 0).
Lemma casc_lookup l : 0 <= l <= mx -> ks !! Z.to_nat l = Some (casc_at ks l).
Proof.
  intro H. destruct (ks !! Z.to_nat l) as [z|] eqn:E; [|apply lookup_ge_None in E; lia].
  unfold casc_at. rewrite <- nth_lookup_or_length with (d := 0) in E; [|lia] || idtac.
  f_equal. symmetry. apply nth_lookup_Some. exact E.
Qed.
Lemma casc_bounds l : 0 <= l <= mx -> 0 <= casc_at ks l <= n - 1.
Proof. intro H. eapply K2. apply casc_lookup. exact H. Qed.
Lemma casc_mono l l' : 0 <= l -> l <= l' -> l' <= mx -> casc_at ks l <= casc_at ks l'.
Proof. intros A B C. eapply (K3 (Z.to_nat l) (Z.to_nat l')); [lia|apply casc_lookup; lia|apply casc_lookup; lia]. Qed.
Lemma mx_pos : 0 <= mx. Proof. specialize (M2 0%nat). lia. Qed.
Lemma n_pos : 0 < n. Proof. apply K2 in K5. lia. Qed.
Lemma casc_last : casc_at ks mx = n - 1.
Proof.
  pose proof mx_pos as X. pose proof (casc_lookup mx ltac:(lia)) as Y. replace (Z.to_nat mx) with (length ks - 1)%nat in Y by (rewrite K1; lia).
  rewrite K5 in Y. congruence.
Qed.
Lemma stt_bounds v : 0 <= stt v <= n.
Proof.
  unfold stt. pose proof n_pos. destruct (Z.eqb_spec mx 0); [lia|]. pose proof (casc_bounds (m v) (M2 v)). destruct (m v =? mx); lia.
Qed.
Lemma stt_zero v : m v = 0 -> stt v = 0.
Proof.
  intro E. unfold stt. destruct (Z.eqb_spec mx 0) as [|N]; [reflexivity|]. rewrite E.
  pose proof mx_pos. destruct (Z.eqb_spec 0 mx); [lia|]. assert (L : (2 <= length ks)%nat) by (rewrite K1; lia).
  pose proof (casc_lookup 0 ltac:(lia)) as Y. change (Z.to_nat 0) with 0%nat in Y. rewrite (K4 L) in Y. injection Y as <-. reflexivity.
Qed.
Lemma stt_last v : m v = mx -> 0 < mx -> stt v = n.
Proof. intros E H. unfold stt. destruct (Z.eqb_spec mx 0); [lia|]. rewrite E, Z.eqb_refl, casc_last. lia. Qed.
Lemma chan_mx c : c ∈ cs -> 0 < mx /\ m (sc_src c) < mx.
Proof. intro H. specialize (M1 c H). pose proof (M2 (sc_src c)). pose proof (M2 (sc_tgt c)). lia. Qed.
Lemma stt_chan c : c ∈ cs -> stt (sc_src c) <= stt (sc_tgt c) /\
  stt (sc_tgt c) - stt (sc_src c) = casc_at ks (m (sc_tgt c)) - casc_at ks (m (sc_src c)) + (if m (sc_tgt c) =? mx then 1 else 0).
Proof.
  intro H. destruct (chan_mx c H) as [X Y]. unfold stt. destruct (Z.eqb_spec mx 0); [lia|].
  destruct (Z.eqb_spec (m (sc_src c)) mx); [lia|]. specialize (M1 c H). pose proof (M2 (sc_src c)). pose proof (M2 (sc_tgt c)).
  pose proof (casc_mono (m (sc_src c)) (m (sc_tgt c)) ltac:(lia) ltac:(lia) ltac:(lia)). destruct (m (sc_tgt c) =? mx); lia.
Qed.

Definition wanted (c : schan) : bool := negb (node_is_const ns (sc_src c)) && negb (stt (sc_tgt c) - stt (sc_src c) =? 0).
Lemma comb_buffers_eq : forall l, (forall c, c ∈ l -> c ∈ cs) ->
  comb_buffers ns m ks l = Some (map (fun c => (c, stt (sc_tgt c) - stt (sc_src c))) (List.filter wanted l)).
Proof.
  induction l as [|c l IH]; intro H; cbn [comb_buffers List.filter map]; [reflexivity|].
  rewrite IH by (intros; apply H; right; assumption). 
  change (wanted c) with (negb (node_is_const ns (sc_src c)) && negb (stt (sc_tgt c) - stt (sc_src c) =? 0)). destruct (node_is_const ns (sc_src c)); [reflexivity|].
  assert (Hc : c ∈ cs) by (apply H; left). destruct (stt_chan c Hc) as [S1 S2].
  pose proof (casc_bounds _ (M2 (sc_src c))). pose proof (casc_bounds _ (M2 (sc_tgt c))). pose proof mx_pos.
  rewrite wrap32_small by lia. replace (Z.of_nat (length ks) - 1) with mx by (rewrite K1; lia).
  set (D := casc_at ks (m (sc_tgt c)) - casc_at ks (m (sc_src c))) in *.
  assert ((if m (sc_tgt c) =? mx then i32 (D + 1) else Some D) = Some (stt (sc_tgt c) - stt (sc_src c))) as ->.
  { rewrite S2. destruct (m (sc_tgt c) =? mx); [apply i32_ok; unfold D; lia|f_equal; lia]. }
  cbn [negb andb]. destruct (Z.eqb_spec (stt (sc_tgt c) - stt (sc_src c)) 0); reflexivity.
Qed.

Hypothesis C0 : forall c, c ∈ cs -> sc_off c = 0.
Hypothesis L0 : forall x, x ∈ ns -> s_lat x = 0.
Lemma delay0 c : c ∈ cs -> chan_delay ns c = 0.
Proof. intro H. unfold chan_delay. rewrite (node_lat_zero ns _ L0), (C0 c H). reflexivity. Qed.

Lemma wanted_spec c z : (c, z) ∈ map (fun c => (c, stt (sc_tgt c) - stt (sc_src c))) (List.filter wanted cs) <->
  c ∈ cs /\ node_is_const ns (sc_src c) = false /\ z = stt (sc_tgt c) - stt (sc_src c) /\ z <> 0.
Proof.
  rewrite elem_of_list_fmap. split.
  - intros (c' & E & H). injection E as -> ->. apply elem_of_list_In, List.filter_In in H as [H1 H2]. apply elem_of_list_In in H1.
    apply andb_true_iff in H2 as [H2 H3]. apply negb_true_iff in H2, H3. apply Z.eqb_neq in H3. auto.
  - intros (H1 & H2 & -> & H3). exists c. split; [reflexivity|]. apply elem_of_list_In, List.filter_In. rewrite <- elem_of_list_In. split; [exact H1|].
    unfold wanted. rewrite H2. apply Z.eqb_neq in H3. rewrite H3. reflexivity.
Qed.
Lemma comb_realises bs : comb_buffers ns m ks cs = Some bs -> realises ns cs stt bs /\ (forall c z, (c, z) ∈ bs -> 0 < z).
Proof.
  rewrite comb_buffers_eq by auto. intros [= <-]. split; [split|].
  - intros c z H. apply wanted_spec in H. tauto.
  - intros c Hc Hk. rewrite (delay0 c Hc), Z.add_0_r. unfold buf_of.
    destruct (Z.eq_dec (stt (sc_tgt c) - stt (sc_src c)) 0) as [E|E].
    + right. split; [exact E|]. intros y H. apply wanted_spec in H as (_ & _ & -> & H). contradiction.
    + left. apply wanted_spec. auto.
  - intros c z H. apply wanted_spec in H as (H & _ & -> & Hz). destruct (stt_chan c H). lia.
Qed.
End Start.

Lemma nodup_keys (isc : nat -> bool) (f : schan -> Z) (g : schan -> bool) cs :
  NoDup (map key (List.filter (nc isc) cs)) -> (forall c, g c = true -> nc isc c = true) ->
  NoDup (map fst (map (fun c => (c, f c)) (List.filter g cs))).
Proof.
  intros K G. rewrite map_map. cbn. rewrite map_id. revert K. induction cs as [|c cs IH]; cbn; intro K; [constructor|].
  destruct (nc isc c) eqn:E; cbn in K.
  - apply NoDup_cons in K as [K1 K2]. destruct (g c); [|auto]. apply NoDup_cons. split; [|auto]. intro X. apply K1. apply elem_of_list_fmap. exists c.
    split; [reflexivity|]. apply elem_of_list_In, List.filter_In. apply elem_of_list_In, List.filter_In in X as [X1 X2]. auto.
  - destruct (g c) eqn:Eg; [apply G in Eg; congruence|auto].
Qed.

(** ** The pass *)
Definition cfg0 : latcfg := fun _ => Some 0.
Lemma cfg0_lat P r o k t l a : Def r o k t l a ∈ apply_config cfg0 P -> is_scheduled o = true -> l = 0.
Proof.
  intros H Hs. unfold apply_config in H. apply elem_of_list_fmap in H as (st & E & H). destruct st as [r' o' k' t' l' a'|]; [|discriminate].
  injection E as -> -> -> -> -> ->. rewrite Hs. reflexivity.
Qed.
Lemma layer_weights_length ns m mx : length (layer_weights ns m mx) = S (Z.to_nat mx).
Proof. unfold layer_weights. rewrite map_length, seq_length. reflexivity. Qed.

Section Pass.
Variables (rnd : Q -> Q) (eps : Q) (n : Z) (order : list (schan * Z) -> list (schan * Z)) (P Q : program).
Hypothesis W : wfp P.
Hypothesis NR : narrow P.
Hypothesis CB : connects_back P.
Hypothesis PM : forall bs, order bs ≡ₚ bs.
Hypothesis NB : 0 < n < 2 ^ 31.
Hypothesis E : comb_pass rnd eps n order P = Some Q.

(** what the pass did *)
Lemma comb_parts : exists ns cs m mx ks bs,
  cgraph (apply_config cfg0 P) = Some (ns, cs) /\ comb_layers ns cs = (m, mx) /\
  cascades rnd eps n (layer_weights ns m mx) = Some ks /\ comb_buffers ns m ks cs = Some bs /\
  insert_buffers (apply_config cfg0 P) (order bs) (fresh (apply_config cfg0 P)) = Some Q.
Proof.
  unfold comb_pass in E. destruct (Z.eqb_spec n 0); [lia|]. fold cfg0 in E.
  destruct (cgraph (apply_config cfg0 P)) as [[ns cs]|] eqn:E1; [|discriminate].
  destruct (comb_layers ns cs) as [m mx] eqn:E2. destruct (cascades rnd eps n (layer_weights ns m mx)) as [ks|] eqn:E3; [|discriminate].
  destruct (comb_buffers ns m ks cs) as [bs|] eqn:E4; [|discriminate]. exists ns, cs, m, mx, ks, bs. auto 10.
Qed.
Theorem comb_schedule : exists ns cs bs (D : nat -> Z),
  cgraph (apply_config cfg0 P) = Some (ns, cs) /\ sgraph (apply_config cfg0 P) = Some (ns, cs) /\
  insert_buffers (apply_config cfg0 P) (order bs) (fresh (apply_config cfg0 P)) = Some Q /\
  realises ns cs D bs /\ NoDup (map fst bs) /\ (forall c z, (c, z) ∈ bs -> 0 < z) /\
  (forall c, c ∈ cs -> chan_delay ns c = 0) /\ (forall x, x ∈ ns -> s_lat x = 0) /\
  (forall v, 0 <= D v <= n) /\ (forall v, source cs v -> D v = 0) /\
  (forall v, ~ source cs v -> deepest cs v -> D v = n).
Proof.
  destruct comb_parts as (ns & cs & m & mx & ks & bs & E1 & E2 & E3 & E4 & E5). set (P1 := apply_config cfg0 P) in *.
  assert (W1 := cfg_wfp cfg0 P W). fold P1 in W1. assert (CB1 := cfg_back cfg0 P CB). fold P1 in CB1.
  assert (EG := cgraph_sgraph P1 W1 (cfg0_lat P) ns cs E1).
  destruct (comb_construct_off P1 P1 [] ns cs E1) as [C0 L0].
  assert (NS := back_no_self P1 ns cs W1 CB1 EG). assert (OD := sgraph_ordered P1 W1 ns cs EG).
  destruct (layers_spec ns cs OD NS m mx E2) as (Y1 & Y2 & Y3 & Y4).
  destruct (cascades_spec rnd eps n _ ks E3) as (K1 & _ & K2 & K3 & K4 & K5).
  rewrite layer_weights_length in *. assert (K4' : (2 <= length ks)%nat -> ks !! 0%nat = Some 0) by (rewrite K1; exact K4).
  assert (K5' : ks !! (length ks - 1)%nat = Some (n - 1)) by (rewrite K1; exact K5).
  exists ns, cs, bs, (stt m mx ks). split; [exact E1|]. split; [exact EG|]. split; [exact E5|].
  destruct (comb_realises ns cs m mx n ks Y2 Y3 K1 K2 K3 K4' ltac:(lia) C0 L0 bs E4) as [RL PS].
  split; [exact RL|]. split.
  { rewrite (comb_buffers_eq ns cs m mx n ks Y2 Y3 K1 K2 K3 K4' ltac:(lia) cs ltac:(auto)) in E4. injection E4 as <-.
    apply (nodup_keys (node_is_const ns)); [exact (keys P1 W1 (cfg_narrow cfg0 P NR) ns cs EG)|].
    intros c Hc. unfold wanted in Hc. apply andb_true_iff in Hc as [Hc _]. exact Hc. }
  split; [exact PS|]. split; [intros c Hc; exact (delay0 ns cs C0 L0 c Hc)|]. split; [exact L0|].
  split; [intro v; exact (stt_bounds m mx n ks Y3 K1 K2 K4' K5' v)|]. split.
  - intros v Sv. apply (stt_zero m mx ks Y3 K1 K4'). destruct (Y1 v) as [(a & _ & Ha) _].
    inversion Ha as [Hz|z c Hz Hc Hv He]; [reflexivity|exfalso]. exact (Sv c Hc Hv).
  - intros v Sv Dv. destruct (Y4) as [Z0|(u & Hu)].
    + exfalso. apply Sv. intros c Hc _. pose proof (Y2 c Hc). pose proof (Y3 (sc_src c)). pose proof (Y3 (sc_tgt c)). lia.
    + assert (Hv : m v = mx) by (pose proof (Dv _ (Y1 v) u _ (Y1 u)); pose proof (Y3 v); lia).
      apply (stt_last m mx n ks Y3 K1 K4' K5'); [exact Hv|]. destruct (Z.eq_dec mx 0) as [Z0|]; [|pose proof (Y3 v); lia].
      exfalso. apply Sv. intros c Hc _. pose proof (Y2 c Hc). pose proof (Y3 (sc_src c)). pose proof (Y3 (sc_tgt c)). lia.
Qed.

(** the circuit: every output shows its value [D] cycles later *)
Hypothesis SM : small_offsets P.
Hypothesis UR : outputs_unread P.
Theorem comb_pass_stream : exists ns cs (D : nat -> Z),
  cgraph (apply_config cfg0 P) = Some (ns, cs) /\
  (forall v, 0 <= D v <= n) /\ (forall v, ~ source cs v -> deepest cs v -> D v = n) /\
  forall V (I : interp V) h, circuit I Q h ->
    forall d s i x, Con d s ∈ P -> 0 <= i -> dval I P d i x -> h d (i + D d) = x.
Proof.
  destruct comb_schedule as (ns & cs & bs & D & E1 & EG & EI & RL & BD & PS & CD & L0 & D1 & D2 & D3).
  exists ns, cs, D. split; [exact E1|]. split; [exact D1|]. split; [exact D3|].
  intros V I h Ci d s i x Hc Hi Dv. set (P1 := apply_config cfg0 P) in *.
  assert (W1 := cfg_wfp cfg0 P W). assert (NR1 := cfg_narrow cfg0 P NR). assert (SM1 := cfg_small cfg0 P SM). fold P1 in W1, NR1, SM1.
  assert (RL' : realises ns cs D (order bs)).
  { destruct RL as [R1 R2]. split.
    - intros c z H. rewrite PM in H. exact (R1 c z H).
    - intros c H1 H2. destruct (R2 c H1 H2) as [X|[X Y]]; [left; rewrite PM; exact X|right]. split; [exact X|]. intros y Hy. rewrite PM in Hy. exact (Y y Hy). }
  assert (BD' : NoDup (map fst (order bs))) by (rewrite PM; exact BD).
  eapply (output_signal P1 W1 SM1 NR1 ns cs D (order bs) Q EG (fun x => proj1 (D1 x))); [|  |exact RL'|exact BD'|exact EI| |exact Ci|apply cfg_con; exact Hc|apply cfg_dval; exact Dv|exact Hi].
  - intros y Hy. rewrite (L0 y Hy). lia.
  - intros v name k t l a H. apply D2. intros c Hc' Et.
    destruct (construct_spec P1 W1 P1 [] ns cs ltac:(auto) EG) as (_ & _ & C3 & _). destruct (C3 c Hc') as (st & Hst & Hco).
    destruct Hco as [r o k' ty l' args j a' Ho Ha Hn Ht Hj|d1 v1 sc nm Hop Hn Ht Hj].
    + rewrite <- Ht, Et in Hst. pose proof (def_unique _ _ _ _ _ _ _ _ _ _ _ _ (wp_defs P1 W1) H Hst) as Y. injection Y as Y _ _ _ _. subst o. discriminate.
    + rewrite <- Ht, Et in Hop. rewrite (op_of_def _ _ _ _ _ _ _ (wp_defs P1 W1) H) in Hop. discriminate.
  - intros d' v' H (st & Y & Z). exfalso. apply cfg_con_inv in H. apply cfg_reads in Y as (st' & Y & Er). eapply UR; [exact H|]. exists st'. rewrite Er. auto.
Qed.

(** every path crosses the registers between its ends, which make up the difference *)
Theorem comb_pass_paths : exists ns cs bs, cgraph (apply_config cfg0 P) = Some (ns, cs) /\
  insert_buffers (apply_config cfg0 P) (order bs) (fresh (apply_config cfg0 P)) = Some Q /\
  (forall c z, (c, z) ∈ bs -> 0 < z) /\
  forall buf, (forall c, c ∈ cs -> node_is_const ns (sc_src c) = false -> buf_of bs c (buf c)) ->
  (forall a b z z', bpath ns cs buf a b z -> bpath ns cs buf a b z' -> z = z') /\
  (forall a b z, source cs a -> ~ source cs b -> deepest cs b -> bpath ns cs buf a b z -> z = n).
Proof.
  destruct comb_schedule as (ns & cs & bs & D & E1 & EG & EI & RL & BD & PS & CD & L0 & D1 & D2 & D3).
  exists ns, cs, bs. split; [exact E1|]. split; [exact EI|]. split; [exact PS|]. intros buf HB. split.
  - intros a b z z' H H'. apply (realises_balanced _ _ _ _ _ RL BD HB) in H. apply (realises_balanced _ _ _ _ _ RL BD HB) in H'. lia.
  - intros a b z Sa Sb Db H. apply (realises_balanced _ _ _ _ _ RL BD HB) in H. rewrite (D2 a Sa), (D3 b Sb Db) in H. lia.
Qed.
End Pass.

(** ** The pass completes *)
Section Completes.
Variables (rnd : Q -> Q) (eps : Q).
Hypothesis RD : rounding rnd.
Hypothesis EP : (0 < eps)%Q.
Variables (n : Z) (order : list (schan * Z) -> list (schan * Z)) (P : program).
Hypothesis W : wfp P.
Hypothesis NR : narrow P.
Hypothesis CB : connects_back P.
Hypothesis PM : forall bs, order bs ≡ₚ bs.
Hypothesis NB : 0 < n < 2 ^ 31.
Hypothesis NO : no_offsets P.
Hypothesis UR : outputs_unread P.
Hypothesis HO : has_operands P.
Hypothesis SZ : Z.of_nat (length P) < 2 ^ 31.
Let P1 := apply_config cfg0 P.
Let W1 : wfp P1 := cfg_wfp cfg0 P W.
Lemma noff1 v : no_off P1 v.
Proof. intros d H. apply op_of_in in H as (k & t & l & a & H). apply cfg_def_inv in H as (l' & H). exact (NO _ _ _ _ _ _ H). Qed.
Lemma unread1 v : is_read P1 v -> con_of P1 v = None.
Proof.
  intros (st & Y & Z). destruct (con_of P1 v) as [s|] eqn:Ec; [exfalso|reflexivity]. apply con_of_in in Ec. apply cfg_con_inv in Ec.
  apply cfg_reads in Y as (st' & Y & Er). eapply UR; [exact Ec|]. exists st'. rewrite Er. auto.
Qed.
Lemma nearest1 v : is_read P1 v -> comb_source P1 v = Some v /\ nearest P1 v = Some (v, 0).
Proof.
  intro H. assert (Es : comb_source P1 v = Some v) by (unfold comb_source; rewrite (unread1 v H); reflexivity).
  split; [exact Es|]. destruct (comb_nearest P1 v v Es (noff1 v)) as [_ X]. exact X.
Qed.
Lemma op_comb_chans done tgt : forall args i, (forall a, a ∈ args -> is_read P1 a) -> comb_chans P1 done tgt i args = op_chans P1 done tgt i args.
Proof.
  induction args as [|a args IH]; intros i H; cbn; [reflexivity|]. destruct (nearest1 a ltac:(apply H; left)) as [-> ->].
  rewrite IH by (intros; apply H; right; assumption). reflexivity.
Qed.
Lemma process_comb done s : s ∈ P1 -> comb_process P1 done s = process P1 done s.
Proof.
  intro Hs. destruct s as [r o k t l args|d v].
  - assert (Ha : forall a, a ∈ args -> is_read P1 a) by (intros a Ha; eexists; split; [exact Hs|exact Ha]).
    assert (El : (if is_scheduled o then l else 0) = 0) by (destruct (is_scheduled o) eqn:Es; [eapply (cfg0_lat P); eassumption|reflexivity]).
    cbn. destruct o; try reflexivity; rewrite (op_comb_chans (r :: done) r args 0 Ha), El; reflexivity.
  - assert (Hv : is_read P1 v) by (eexists; split; [exact Hs|left]). destruct (nearest1 v Hv) as [X Y]. cbn. rewrite X, Y. reflexivity.
Qed.
Lemma construct_comb : forall rest done, (forall s, s ∈ rest -> s ∈ P1) -> comb_construct P1 done rest = construct P1 done rest.
Proof.
  induction rest as [|s rest IH]; intros done H; cbn; [reflexivity|]. rewrite process_comb by (apply H; left).
  destruct (process P1 done s) as [[n1 c1]|]; [|reflexivity]. rewrite IH by (intros; apply H; right; assumption). reflexivity.
Qed.
Lemma cgraph_some : exists ns cs, cgraph P1 = Some (ns, cs).
Proof.
  unfold cgraph. rewrite construct_comb by auto. eapply (sgraph_progress P1 W1 (cfg_back cfg0 P CB) 0 1); try lia.
  - intros v d k t l a H. apply cfg_def_inv in H as (l' & H). exfalso. exact (NO _ _ _ _ _ _ H).
  - unfold P1, apply_config. rewrite map_length. lia.
Qed.

Theorem comb_pass_completes : exists Q, comb_pass rnd eps n order P = Some Q.
Proof.
  unfold comb_pass. destruct (Z.eqb_spec n 0); [lia|]. fold cfg0 P1. destruct cgraph_some as (ns & cs & E1). rewrite E1.
  assert (EG := cgraph_sgraph P1 W1 (cfg0_lat P) ns cs E1). destruct (comb_construct_off P1 P1 [] ns cs E1) as [C0 L0].
  assert (CB1 : connects_back P1) by exact (cfg_back cfg0 P CB).
  assert (NS := back_no_self P1 ns cs W1 CB1 EG). assert (OD := sgraph_ordered P1 W1 ns cs EG).
  destruct (comb_layers ns cs) as [m mx] eqn:E2. destruct (layers_spec ns cs OD NS m mx E2) as (Y1 & Y2 & Y3 & Y4).
  destruct (construct_spec P1 W1 P1 [] ns cs ltac:(auto) EG) as (A0 & A1 & A2 & A3 & _).
  assert (Wt : forall o, (0 <= comb_weight o)%Q) by (intros []; discriminate).
  assert (Lw : forall l, (0 <= layer_weight ns m l)%Q).
  { intro l. unfold layer_weight. assert (G : forall acc, (0 <= acc)%Q -> (0 <= fold_left (fun acc n0 => if m (s_id n0) =? l then (if Qle_bool (comb_weight (s_op n0)) acc then acc else comb_weight (s_op n0)) else acc) ns acc)%Q).
    { clear - Wt. induction ns as [|x l' IH]; intros acc Ha; cbn [fold_left]; [exact Ha|]. apply IH. destruct (_ =? _); [|exact Ha]. destruct (Qle_bool _ _); [exact Ha|apply Wt]. }
    apply G. discriminate. }
  assert (Lz : (layer_weight ns m 0 == 0)%Q).
  { unfold layer_weight. assert (G : forall acc l, (forall x, x ∈ l -> x ∈ ns) -> (acc == 0)%Q -> (fold_left (fun acc n0 => if m (s_id n0) =? 0 then (if Qle_bool (comb_weight (s_op n0)) acc then acc else comb_weight (s_op n0)) else acc) l acc == 0)%Q).
    { intros acc l. revert acc. induction l as [|x l' IH]; intros acc Hs Ha; cbn [fold_left]; [exact Ha|]. apply IH; [intros; apply Hs; right; assumption|].
      destruct (Z.eqb_spec (m (s_id x)) 0) as [Ex|]; [|exact Ha]. destruct (Qle_bool _ _); [exact Ha|].
      destruct (A1 x (Hs x ltac:(left))) as (k & t & l & a & Hd & _). destruct (is_oper (s_op x)) eqn:Io.
      - exfalso. assert (a <> []) as Na by (apply cfg_def_inv in Hd as (l0 & Hd); eapply HO; eassumption). destruct a as [|a0 a]; [congruence|].
        destruct (A3 _ _ _ _ _ _ 0%nat a0 Hd Io eq_refl) as (s & off & _ & Hc). specialize (Y2 _ Hc). cbn in Y2. specialize (Y3 s). lia.
      - destruct (s_op x); try discriminate Io; try reflexivity. exfalso. apply cfg_def_inv in Hd as (l0 & Hd). exact (NO _ _ _ _ _ _ Hd). }
    apply G; [auto|reflexivity]. }
  destruct (cascades_complete rnd eps RD EP n (layer_weights ns m mx)) as (ks & E3); [lia| | | |].
  { unfold layer_weights. discriminate. }
  { intros l Hl. unfold layer_weights in Hl. apply elem_of_list_fmap in Hl as (j & -> & _). apply Lw. }
  { intros l Hl. unfold layer_weights in Hl. cbn [seq map] in Hl. cbn in Hl. injection Hl as <-. exact Lz. }
  rewrite E3. destruct (cascades_spec rnd eps n _ ks E3) as (K1 & _ & K2 & K3 & K4 & K5).
  rewrite layer_weights_length in *. assert (K4' : (2 <= length ks)%nat -> ks !! 0%nat = Some 0) by (rewrite K1; exact K4).
  assert (E4 := comb_buffers_eq ns cs m mx n ks Y2 Y3 K1 K2 K3 K4' ltac:(lia) cs ltac:(auto)).
  rewrite E4. set (bs := map (fun c => (c, stt m mx ks (sc_tgt c) - stt m mx ks (sc_src c))) _) in *.
  destruct (comb_realises ns cs m mx n ks Y2 Y3 K1 K2 K3 K4' ltac:(lia) C0 L0 bs E4) as [RL PS].
  assert (NR1 := cfg_narrow cfg0 P NR). fold P1 in NR1.
  assert (BD : NoDup (map fst bs)).
  { apply (nodup_keys (node_is_const ns)); [exact (keys P1 W1 NR1 ns cs EG)|].
    intros c Hc. unfold wanted in Hc. apply andb_true_iff in Hc as [Hc _]. exact Hc. }
  assert (BK : NoDup (map (fun x => key (fst x)) bs)) by (exact (bs_keys P1 W1 NR1 ns cs (stt m mx ks) bs EG RL BD)).
  eapply (insert_progress P1 (fresh P1) (order bs) (fun _ _ => 0) P1 (fresh P1)); [apply buffered0; [exact W1|apply fresh_defs]|rewrite PM; exact BK|].
  intros c z Hb. rewrite PM in Hb. split; [eapply PS; exact Hb|]. split; [reflexivity|].
  destruct RL as [R1 _]. destruct (R1 c z Hb) as [Hc Nc]. destruct (A2 c Hc) as (st & Hst & Hco).
  assert (Hfr : forall o k t l a, Def (sc_tgt c) o k t l a ∈ P1 -> (sc_tgt c < fresh P1)%nat).
  { intros. apply (fresh_spec P1). eexists. split; [eassumption|]. left. }
  destruct Hco as [r o k t l args i a Ho Ha Hn Ht Hi|d v sc nm Hop Hn Ht Hi].
  - subst r. split; [eapply Hfr; exact Hst|]. split.
    { intros d k' t' l' a' X. pose proof (def_unique _ _ _ _ _ _ _ _ _ _ _ _ (wp_defs P1 W1) Hst X) as Y. injection Y as <- _ _ _ _. discriminate. }
    left. pose proof (narrow' P1 W1 NR1 ns cs EG _ _ _ _ _ _ _ _ _ _ Hst Ho Ha Hn Nc) as L. rewrite Hi, wrap8_small by exact L.
    split; [lia|]. exists o, k, t, l, args. split; [exact Hst|]. rewrite Nat2Z.id. eapply lookup_lt_Some. exact Ha.
  - subst d. destruct (wp_con P1 W1 _ _ Hst) as (sc' & nm' & k & t & l & a & HD). split; [eapply Hfr; exact HD|]. split.
    { eapply not_off_con; [exact W1|exact Hst]. }
    right. eauto.
Qed.
End Completes.
