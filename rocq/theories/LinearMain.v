(** The linear scheduler as a whole (proofs). *)
From Coq Require Import ZArith Bool QArith Qround Lqa Lia String.
From stdpp Require Import list list_numbers.
From Verif Require Import Types Value Graph Dfcir StreamSpec Sched SchedSpec SchedProofs DfcirProofs SchedStream SchedMain SchedFinal
     Linear LinearSpec LinearProofs.
Local Open Scope Z_scope.
Local Arguments nearest : simpl never.

Lemma trunc_int q z : (q == inject_Z z)%Q -> forall r, trunc q = Some r -> r = z.
Proof.
  intros H r E. unfold trunc in E. apply i32_some in E as [-> _]. unfold Qeq in H. cbn in H. rewrite Z.mul_1_r in H. rewrite H.
  apply Z.quot_mul. lia.
Qed.
Lemma join_app {A} (x y : list (list A)) : mjoin (x ++ y) = mjoin x ++ mjoin y.
Proof. induction x as [|a x IH]; [reflexivity|]. change (a ++ mjoin (x ++ y) = (a ++ mjoin x) ++ mjoin y). rewrite IH. apply app_assoc. Qed.
Lemma join_filter (ids : list nat) : forall cs : list schan, NoDup ids -> (forall c, c ∈ cs -> sc_tgt c ∈ ids) ->
  mjoin (map (fun v => inputs_of cs v) ids) ≡ₚ cs.
Proof.
  induction cs as [|c cs IH]; intros ND H.
  - induction ids as [|v ids IH]; [reflexivity|]. cbn. apply IH; [apply NoDup_cons in ND; tauto|intros c X; inversion X].
  - assert (Hc := H c ltac:(left)). apply elem_of_list_split in Hc as (a & b & ->).
    specialize (IH ND ltac:(intros; apply H; right; assumption)).
    apply NoDup_app in ND as (N1 & N2 & N3). apply NoDup_cons in N3 as [N3 N4].
    assert (G : forall l, sc_tgt c ∉ l -> map (fun v => inputs_of (c :: cs) v) l = map (fun v => inputs_of cs v) l).
    { intros l Hl. apply map_ext_in. intros v Hv. unfold inputs_of. cbn. destruct (Nat.eqb_spec (sc_tgt c) v) as [E|]; [|reflexivity].
      exfalso. apply Hl. rewrite E. apply elem_of_list_In. assumption. }
    rewrite map_app. cbn [map]. rewrite (G a), (G b).
    2: { exact N3. } 2: { intro X. apply (N2 _ X). left. }
    rewrite map_app in IH. cbn [map] in IH. rewrite join_app in *. cbn [mjoin list_join] in *.
    assert (E : inputs_of (c :: cs) (sc_tgt c) = c :: inputs_of cs (sc_tgt c)) by (unfold inputs_of; cbn; rewrite Nat.eqb_refl; reflexivity).
    rewrite E. cbn. rewrite <- Permutation_middle. constructor. exact IH.
Qed.

Lemma filter_perm {A} (f : A -> bool) (l k : list A) : Permutation l k -> Permutation (List.filter f l) (List.filter f k).
Proof.
  intro Q. induction Q as [|z u v Q IH|z w u|u v w Q IH Q' IH']; cbn [List.filter].
  - constructor.
  - destruct (f z); [constructor|]; exact IH.
  - destruct (f z), (f w); first [apply perm_swap|reflexivity].
  - etransitivity; eassumption.
Qed.

Section Lp.
Variable P : program.
Hypothesis WF : wfp P.
Hypothesis NR : narrow P.
Variables (ns : list snode) (cs : list schan).
Hypothesis EG : sgraph P = Some (ns, cs).
Let OD := sgraph_ordered P WF ns cs EG.
Variables (p : lp) (nm : list (nat * nat)) (l : list (schan * nat * nat)).
Hypothesis EB : lp_build ns cs = Some (p, nm, l).
Let oc := lp_order ns cs.

Lemma oc_perm : oc ≡ₚ cs.
Proof.
  pose proof (join_filter (map s_id ns) cs (od_nd _ _ OD) (od_tgt _ _ OD)) as H. rewrite map_map in H. exact H.
Qed.

Variable x : nat -> Q.
Definition start (v : nat) : Z := if bool_decide (v ∈ map s_id ns) then Qfloor (x (col_of nm v)) else 0.

Section Vertex.
Hypothesis HV : lp_integral p x.
Lemma start_eq v : v ∈ map s_id ns -> (x (col_of nm v) == inject_Z (start v))%Q.
Proof.
  intro H. unfold start. rewrite bool_decide_eq_true_2 by assumption. apply elem_of_list_fmap in H as (n & -> & Hn).
  eapply integral_col; eassumption.
Qed.
Lemma start_schedule : lp_schedule_of ns cs start.
Proof.
  destruct (point_schedule ns cs OD p nm l EB x (proj1 HV)) as [(S1 & S2 & S3) _]. split; [split|split].
  - intro v. unfold start. case_bool_decide as H; [|lia]. apply elem_of_list_fmap in H as (n & -> & Hn). apply floor_ge. apply S1. assumption.
  - intros c Hc. destruct (S3 c Hc) as [A _]. rewrite !start_eq in A by (apply (od_src _ _ OD) + apply (od_tgt _ _ OD); assumption).
    rewrite <- inject_Z_opp, <- inject_Z_plus, <- Zle_Qle in A || (unfold Qminus in A; rewrite <- inject_Z_opp, <- inject_Z_plus, <- Zle_Qle in A).
    unfold chan_delay. lia.
  - intros n Hn Hi. pose proof (S2 n Hn Hi) as A. rewrite start_eq in A by (apply elem_of_list_fmap; eauto).
    change 0%Q with (inject_Z 0) in A. rewrite inject_Z_injective in A. exact A.
  - intros c Hc. destruct (S3 c Hc) as [_ A]. rewrite !start_eq in A by (apply (od_src _ _ OD) + apply (od_tgt _ _ OD); assumption).
    unfold Qminus in A. change 0%Q with (inject_Z 0) in A. rewrite <- inject_Z_opp, <- inject_Z_plus, <- Zle_Qle in A. lia.
Qed.

Lemma res_at i : (1 <= i <= lp_cols p)%nat -> results p x !! (i - 1)%nat = Some (x i).
Proof.
  intro H. unfold results. rewrite list_lookup_fmap, lookup_seq_lt by lia. cbn. do 2 f_equal. lia.
Qed.

Lemma lp_buffers_spec : forall r, (forall e, e ∈ r -> e ∈ l) -> forall bs, lp_buffers ns (results p x) r = Some bs ->
  (forall c z, (c, z) ∈ bs <-> c ∈ map (fun e => fst (fst e)) r /\ z = start (sc_tgt c) - (start (sc_src c) + chan_delay ns c) /\ z <> 0 /\
                 node_is_const ns (sc_src c) = false) /\
  (exists k, sublist (map fst bs) k /\ k = List.filter (nc (node_is_const ns)) (map (fun e => fst (fst e)) r)).
Proof.
  destruct (build_spec ns cs p nm l EB) as (_ & _ & Ec & Ll & Hl & _ & HC).
  destruct (proj1 HV) as [P1 P2]. apply HC in P2 as [_ P2].
  assert (V : forall c d b, (c, d, b) ∈ l -> (1 <= b <= lp_cols p)%nat /\
    (x b == inject_Z (start (sc_tgt c) - (start (sc_src c) + chan_delay ns c)))%Q).
  { intros c d b H. apply elem_of_list_lookup in H as (j & H).
    destruct (lookup_lt_is_Some_2 oc j) as (c' & E'); [unfold oc; rewrite <- Ll; eapply lookup_lt_Some; exact H|].
    pose proof (Hl _ _ E') as H'. rewrite H in H'. injection H' as <- -> ->. 
    apply lookup_lt_Some in E' as L'. fold oc in Ec. split; [unfold oc in *; lia|].
    destruct (P2 j c E' _ _ eq_refl eq_refl) as (_ & _ & A & _). rewrite A.
    assert (Hc : c ∈ cs) by (rewrite <- oc_perm; eapply elem_of_list_lookup_2; exact E').
    rewrite !start_eq by (apply (od_src _ _ OD) + apply (od_tgt _ _ OD); assumption).
    unfold Qminus. rewrite <- !inject_Z_opp, <- !inject_Z_plus. unfold chan_delay. apply inject_Z_injective. lia. }
  induction r as [|[[c d] b] r IH]; intros Hr bs E; cbn [lp_buffers] in E.
  { injection E as <-. split; [|exists []; split; [constructor|reflexivity]]. intros c z. split; [intro X; inversion X|intros [X _]; inversion X]. }
  destruct (V c d b (Hr _ ltac:(left))) as [Rb Vb]. rewrite (res_at b Rb) in E.
  destruct (trunc (x b)) as [z|] eqn:Et; [|discriminate]. apply (trunc_int _ _ Vb) in Et.
  destruct (lp_buffers ns (results p x) r) as [bs1|] eqn:E1; [|discriminate].
  destruct (IH ltac:(intros; apply Hr; right; assumption) bs1 eq_refl) as (I1 & k & I2 & I3).
  cbn [map fst List.filter]. unfold nc at 1.
  destruct (Z.eqb_spec z 0) as [Z0|Z0]; cbn in E.
  - injection E as <-. split.
    + intros c' z'. rewrite I1, elem_of_cons. split; [tauto|]. intros ([->|A] & B & C & D); [congruence|tauto].
    + destruct (negb _); eexists; (split; [|reflexivity]); [apply sublist_cons|]; rewrite <- I3; assumption.
  - destruct (node_is_const ns (sc_src c)) eqn:En; cbn in E; injection E as <-; cbn.
    + split; [|eexists; split; [|reflexivity]; rewrite <- I3; assumption].
      intros c' z'. rewrite I1, elem_of_cons. split; [tauto|]. intros ([->|A] & B & C & D); [congruence|tauto].
    + split; [|eexists; split; [|reflexivity]; constructor; rewrite <- I3; assumption].
      intros c' z'. rewrite !elem_of_cons, I1. split.
      * intros [X|X]; [injection X as -> ->|tauto]. rewrite <- Et. auto.
      * intros ([->|A] & B & C & D); [left; congruence|right; tauto].
Qed.

Lemma l_chans : map (fun e => fst (fst e)) l = oc.
Proof.
  destruct (build_spec ns cs p nm l EB) as (_ & _ & Ec & Ll & Hl & _ & HC). apply list_eq. intro j. rewrite list_lookup_fmap.
  fold oc in Hl, Ll. destruct (oc !! j) as [c|] eqn:E; [rewrite (Hl _ _ E); reflexivity|].
  apply lookup_ge_None in E. assert (l !! j = None) as -> by (apply lookup_ge_None; lia). reflexivity.
Qed.

Lemma lp_realises bs : lp_buffers ns (results p x) l = Some bs -> realises ns cs start bs /\ NoDup (map fst bs).
Proof.
  intro E. destruct (lp_buffers_spec l ltac:(auto) bs E) as (A & k & B & C). rewrite l_chans in A, C. split; [split|].
  - intros c z H. apply A in H as (H1 & _ & _ & H2). rewrite oc_perm in H1. auto.
  - intros c Hc Hk. set (z := start (sc_tgt c) - (start (sc_src c) + chan_delay ns c)).
    destruct (Z.eq_dec z 0) as [Z0|Z0].
    + right. split; [assumption|]. intros y Hy. apply A in Hy as (_ & Ey & Ny & _). fold z in Ey. congruence.
    + left. apply A. rewrite oc_perm. auto.
  - pose proof (keys P WF NR ns cs EG) as K. apply NoDup_fmap_1 in K.
    assert (SN : forall (a b : list schan), sublist a b -> NoDup b -> NoDup a).
    { intros a b Hs. induction Hs as [|z a b Hs IH|z a b Hs IH]; intro Hb; [constructor| |]; apply NoDup_cons in Hb as [Hb1 Hb2]; [|auto].
      constructor; [|auto]. intro X. apply Hb1. apply sublist_submseteq in Hs. eapply elem_of_submseteq; eassumption. }
    apply (SN _ _ B). rewrite C.
    assert (Permutation (List.filter (nc (node_is_const ns)) oc) (List.filter (nc (node_is_const ns)) cs)) as Pm.
    { apply filter_perm. apply oc_perm. }
    rewrite Pm. exact K.
Qed.

(** every buffer is positive *)
Lemma lp_positive bs : lp_buffers ns (results p x) l = Some bs -> forall c z, (c, z) ∈ bs -> 0 < z.
Proof.
  intros E c z H. destruct (lp_buffers_spec l ltac:(auto) bs E) as (A & _). apply A in H as (H1 & -> & H2 & _).
  rewrite l_chans, oc_perm in H1. pose proof (proj2 (proj1 start_schedule) c H1). lia.
Qed.
End Vertex.

(** ** Objective *)
Definition sumq (T : nat -> Q) (k : list schan) : Q := foldr (fun c acc => T (sc_tgt c) - T (sc_src c) + acc)%Q 0%Q k.
Lemma value_pt y : lp_point p y -> (lp_value p y == sumq (fun v => y (col_of nm v)) oc)%Q.
Proof.
  intro HP. destruct (build_spec ns cs p nm l EB) as (_ & _ & Ec & Ll & Hl & Ho & HC). unfold lp_value. rewrite Ho.
  destruct HP as [_ HP]. apply HC in HP as [_ HP].
  assert (G : forall r k, length r = length k -> (forall j c, k !! j = Some c -> exists d b, r !! j = Some (c, d, b) /\ (y d == y (col_of nm (sc_tgt c)) - y (col_of nm (sc_src c)))%Q) ->
     (foldr (fun i acc => y i + acc) 0 (map (fun e : schan * nat * nat => snd (fst e)) r) == sumq (fun v => y (col_of nm v)) k)%Q).
  { induction r as [|e r IH]; intros [|c k] L H; try discriminate L; [reflexivity|]. cbn.
    destruct (H 0%nat c eq_refl) as (d & b & Ed & Vd). cbn in Ed. injection Ed as ->. cbn. rewrite Vd.
    rewrite (IH k); [reflexivity|cbn in L; lia|]. intros j c' Ej. exact (H (S j) c' Ej). }
  apply G; [exact Ll|]. intros j c Ej. eexists _, _. split; [exact (Hl _ _ Ej)|]. destruct (HP j c Ej _ _ eq_refl eq_refl) as (_ & A & _). exact A.
Qed.
Lemma sumq_mono T T' k : (forall c, c ∈ k -> T (sc_tgt c) - T (sc_src c) <= T' (sc_tgt c) - T' (sc_src c))%Q -> (sumq T k <= sumq T' k)%Q.
Proof.
  induction k as [|c k IH]; intro H; [apply Qle_refl|].
  apply (Qplus_le_compat _ _ _ _ (H c ltac:(left)) (IH ltac:(intros; apply H; right; assumption))).
Qed.
Lemma sumq_strict T T' k c0 : (forall c, c ∈ k -> T (sc_tgt c) - T (sc_src c) <= T' (sc_tgt c) - T' (sc_src c))%Q ->
  c0 ∈ k -> (T (sc_tgt c0) - T (sc_src c0) < T' (sc_tgt c0) - T' (sc_src c0))%Q -> (sumq T k < sumq T' k)%Q.
Proof.
  induction k as [|c k IH]; intros H H0 H1; [inversion H0|].
  change (T (sc_tgt c) - T (sc_src c) + sumq T k < T' (sc_tgt c) - T' (sc_src c) + sumq T' k)%Q.
  pose proof (H c ltac:(left)) as Hc. apply elem_of_cons in H0 as [->|H0].
  - pose proof (sumq_mono T T' k ltac:(intros; apply H; right; assumption)). apply Qplus_lt_le_compat; assumption.
  - specialize (IH ltac:(intros; apply H; right; assumption) H0 H1). rewrite !(Qplus_comm _ (sumq _ _)). apply Qplus_lt_le_compat; assumption.
Qed.
Lemma sumq_ext T T' k : (forall c, c ∈ k -> T (sc_tgt c) == T' (sc_tgt c) /\ T (sc_src c) == T' (sc_src c))%Q -> (sumq T k == sumq T' k)%Q.
Proof.
  induction k as [|c k IH]; intro H; cbn; [reflexivity|]. destruct (H c ltac:(left)) as [-> ->]. rewrite IH by (intros; apply H; right; assumption). reflexivity.
Qed.
Lemma sumq_z (t : nat -> Z) k : (sumq (fun v => inject_Z (t v)) k == inject_Z (total_distance k t))%Q.
Proof. induction k as [|c k IH]; [reflexivity|].
  change (inject_Z (t (sc_tgt c)) - inject_Z (t (sc_src c)) + sumq (fun v => inject_Z (t v)) k == inject_Z (t (sc_tgt c) - t (sc_src c) + total_distance k t))%Q.
  rewrite IH. unfold Z.sub. rewrite !inject_Z_plus, inject_Z_opp. reflexivity. Qed.
Lemma dist_perm t (k k' : list schan) : k ≡ₚ k' -> total_distance k t = total_distance k' t.
Proof. unfold total_distance. induction 1; cbn; lia. Qed.

Lemma schedule_inj t : lp_schedule_of ns cs t -> schedule_q ns cs (fun v => inject_Z (t v)).
Proof.
  intros ((A & B) & C & D). split; [|split].
  - intros n _. rewrite <- (Zle_Qle 0). apply A.
  - intros n Hn Hi. rewrite (C n Hn Hi). reflexivity.
  - intros c Hc. unfold Qminus. rewrite <- inject_Z_opp, <- inject_Z_plus. split; [rewrite <- Zle_Qle|change 0%Q with (inject_Z 0); rewrite <- Zle_Qle].
    + specialize (B c Hc). unfold chan_delay in B. lia.
    + specialize (D c Hc). lia.
Qed.

Lemma start_optimal : lp_integral p x -> lp_optimal p x -> forall t, lp_schedule_of ns cs t -> total_distance cs start <= total_distance cs t.
Proof.
  intros HV HO t Ht. pose proof (pt_point ns cs OD p nm l EB _ (schedule_inj t Ht)) as Pt.
  specialize (HO _ Pt). rewrite (value_pt _ (proj1 HV)), (value_pt _ Pt) in HO.
  rewrite <- !(dist_perm _ _ _ oc_perm). rewrite Zle_Qle, <- !sumq_z.
  assert (Ho : forall c, c ∈ oc -> c ∈ cs) by (intros c Hc; rewrite oc_perm in Hc; exact Hc).
  rewrite (sumq_ext (fun v => x (col_of nm v)) (fun v => inject_Z (start v))) in HO.
  2: { intros c Hc. split; apply (start_eq HV); [apply (od_tgt _ _ OD)|apply (od_src _ _ OD)]; auto. }
  rewrite (sumq_ext (fun v => pt ns cs (fun v0 => inject_Z (t v0)) (col_of nm v)) (fun v => inject_Z (t v))) in HO.
  2: { intros c Hc. rewrite !(pt_id ns cs OD p nm l EB) by (apply (od_src _ _ OD) + apply (od_tgt _ _ OD); auto). split; reflexivity. }
  exact HO.
Qed.

(** ** A schedule always exists *)
Lemma lp_feasible : connects_back P -> exists t, lp_schedule_of ns cs t.
Proof.
  intro CB. destruct (rank_before P (wp_defs P WF)) as (rk & R).
  assert (RC : forall d s, Con d s ∈ P -> (rk s < rk d)%nat).
  { intros d s H. destruct (wp_con P WF _ _ H) as (sc & nm' & k & t & l' & a & Hd).
    apply elem_of_list_split in Hd as (p' & q & Ep). eapply R; [exact Ep|]. eapply CB; eassumption. }
  assert (RD : forall r o k t l a x, Def r o k t l a ∈ P -> x ∈ a -> (rk x < rk r)%nat).
  { intros r o k t l' a x' H Hx. apply elem_of_list_split in H as (p' & q & Ep). eapply R; [exact Ep|]. eapply wp_dom; [eassumption|exact Ep|exact Hx]. }
  assert (RH : forall v s d, hops P v s d -> (rk s <= rk v)%nat).
  { intros v s d Hh. induction Hh as [|v s d u e Hp Hh IH]; [lia|].
    enough (rk s < rk v)%nat by lia. destruct Hp as [v d k t l' s Hd|v s Hd]; [eapply RD; [exact Hd|left]|apply RC; assumption]. }
  destruct (construct_spec P WF P [] ns cs ltac:(auto) EG) as (_ & C2 & C3 & _).
  assert (RK : forall c, c ∈ cs -> (rk (sc_src c) < rk (sc_tgt c))%nat).
  { intros c Hc. destruct (C3 c Hc) as (st & Hst & Hco). destruct Hco as [r o k t l' args i a Ho Ha Hn Ht Hi|d v sc nm' Hop Hn Ht Hi].
    - destruct (nearest_hops P WF _ _ _ Hn) as [_ Hh]. apply RH in Hh. apply elem_of_list_lookup_2 in Ha. pose proof (RD _ _ _ _ _ _ _ Hst Ha). rewrite Ht. lia.
    - destruct (nearest_hops P WF _ _ _ Hn) as [_ Hh]. apply RH in Hh. pose proof (RC _ _ Hst). rewrite Ht. lia. }
  assert (exists W, 0 <= W /\ forall c, c ∈ cs -> chan_delay ns c <= W) as (W & W0 & HW).
  { clear. induction cs as [|c k (W & A & B)]; [exists 0; split; [lia|intros c H; inversion H]|].
    exists (Z.max W (chan_delay ns c)). split; [lia|]. intros c' H. apply elem_of_cons in H as [->|H]; [lia|specialize (B c' H); lia]. }
  set (inp := fun v => existsb (fun n => Nat.eqb (s_id n) v && is_input (s_op n)) ns).
  assert (NT : forall c, c ∈ cs -> inp (sc_tgt c) = false).
  { intros c Hc. apply not_true_iff_false. intro X. apply existsb_exists in X as (n & Hn & X). apply andb_true_iff in X as [X1 X2].
    apply Nat.eqb_eq in X1. apply elem_of_list_In in Hn. destruct (C2 n Hn) as (k & t & l' & a & Hd & _).
    destruct (C3 c Hc) as (st & Hst & Hco). destruct Hco as [r o k' t' l'' args i a' Ho Ha Hn' Ht Hi|d v sc nm' Hop Hn' Ht Hi].
    - rewrite X1, Ht in Hd. pose proof (def_unique _ _ _ _ _ _ _ _ _ _ _ _ (wp_defs P WF) Hst Hd) as Y. injection Y as Eo _ _ _ _. rewrite Eo in X2.
      destruct o; discriminate.
    - rewrite X1, Ht in Hd. rewrite (op_of_def _ _ _ _ _ _ _ (wp_defs P WF) Hd) in Hop. injection Hop as Hop. rewrite Hop in X2. discriminate. }
  exists (fun v => if inp v then 0 else Z.of_nat (rk v) * W). split; [split|split].
  - intro v. destruct (inp v); nia.
  - intros c Hc. rewrite (NT c Hc). pose proof (RK c Hc). pose proof (HW c Hc). destruct (inp (sc_src c)); nia.
  - intros n Hn Hi. assert (inp (s_id n) = true) as ->; [|reflexivity]. apply existsb_exists. exists n. rewrite <- elem_of_list_In, Nat.eqb_refl. auto.
  - intros c Hc. rewrite (NT c Hc). pose proof (RK c Hc). destruct (inp (sc_src c)); nia.
Qed.
End Lp.
