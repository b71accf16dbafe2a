(** The linear program and its corners (proofs). *)
From Coq Require Import ZArith Bool QArith Qround Lqa Lia.
From stdpp Require Import list.
From Verif Require Import Types Value Graph Dfcir Sched SchedSpec SchedProofs Linear LinearSpec.
Local Open Scope Z_scope.

Lemma small_eps (l : list Q) : exists e : Q, (0 < e)%Q /\ forall q, q ∈ l -> (0 < q)%Q -> (e <= q)%Q.
Proof.
  induction l as [|q l (e & H1 & H2)]; [exists 1%Q; split; [lra|intros q H; inversion H]|].
  destruct (Qlt_le_dec 0 q) as [P|N].
  - destruct (Qlt_le_dec e q) as [A|A].
    + exists e. split; [assumption|]. intros r Hr Pr. apply elem_of_cons in Hr as [->|Hr]; [lra|auto].
    + exists q. split; [assumption|]. intros r Hr Pr. apply elem_of_cons in Hr as [->|Hr]; [lra|]. specialize (H2 r Hr Pr). lra.
  - exists e. split; [assumption|]. intros r Hr Pr. apply elem_of_cons in Hr as [->|Hr]; [lra|auto].
Qed.

Definition frac (q : Q) : Q := (q - inject_Z (Qfloor q))%Q.
Lemma frac_range q : (0 <= frac q)%Q /\ (frac q < 1)%Q.
Proof. unfold frac. pose proof (Qfloor_le q). pose proof (Qlt_floor q). rewrite inject_Z_plus in *. change (inject_Z 1) with 1%Q in *. split; lra. Qed.
Lemma inj_lt_1 a b : (inject_Z a < inject_Z b + 1)%Q -> a <= b.
Proof. change 1%Q with (inject_Z 1). rewrite <- inject_Z_plus, <- Zlt_Qlt. lia. Qed.
Lemma floor_ge q k : (inject_Z k <= q)%Q -> k <= Qfloor q.
Proof. intro H. apply inj_lt_1. pose proof (frac_range q). unfold frac in *. lra. Qed.

Lemma frac_shift a b k : (a == b + inject_Z k)%Q -> (frac a == frac b)%Q.
Proof.
  intro G.
  assert (E : Qfloor a = Qfloor b + k).
  { pose proof (frac_range a). pose proof (frac_range b). unfold frac in *. apply Z.le_antisymm.
    - apply inj_lt_1. rewrite inject_Z_plus. lra.
    - apply floor_ge. rewrite inject_Z_plus. lra. }
  unfold frac. rewrite E, inject_Z_plus. lra.
Qed.

Section Lp.
Variables (ns : list snode) (cs : list schan).
Hypothesis OD : ordered ns cs.
Let w (c : schan) : Z := node_lat ns (sc_src c) + sc_off c.

Lemma lp_nodes_spec : forall l col nm k col', lp_nodes l col = Some (nm, k, col') ->
  nm = zip (map s_id l) (seq col (length l)) /\ col' = (col + length l)%nat /\
  (forall n, n ∈ l -> 0 <= s_lat n) /\
  (forall x, (forall c, c ∈ k -> holds x c) <->
     (forall i n, l !! i = Some n -> is_input (s_op n) = true -> (x (col + i)%nat == 0)%Q)).
Proof.
  induction l as [|n l IH]; intros col nm k col' E; cbn in E.
  - injection E as <- <- <-. split; [reflexivity|]. split; [cbn; lia|]. split; [intros n H; inversion H|].
    intro x. split; [intros _ i n H; discriminate H|intros _ c H; inversion H].
  - destruct (Z.ltb_spec (s_lat n) 0) as [|Hl]; [discriminate|].
    destruct (lp_nodes l (S col)) as [[[nm1 k1] col1]|] eqn:E1; [|discriminate]. injection E as <- <- <-.
    destruct (IH _ _ _ _ E1) as (-> & -> & H3 & H4). cbn. split; [reflexivity|]. split; [lia|]. split.
    + intros m Hm. apply elem_of_cons in Hm as [->|Hm]; [assumption|auto].
    + intro x. split.
      * intros H [|i] m Em Hi; cbn in Em.
        -- injection Em as ->. rewrite Hi in H. specialize (H _ ltac:(left)). unfold holds in H. cbn in H.
           rewrite Nat.add_0_r. revert H. change (inject_Z 1) with 1%Q. change (inject_Z 0) with 0%Q. intro. lra.
        -- replace (col + S i)%nat with (S col + i)%nat by lia. apply H4 with (n := m); try assumption.
           intros c Hc. apply H. apply elem_of_app. auto.
      * intros H c Hc. apply elem_of_app in Hc as [Hc|Hc].
        -- destruct (is_input (s_op n)) eqn:Ei; [|inversion Hc]. apply elem_of_list_singleton in Hc as ->.
           specialize (H 0%nat n eq_refl Ei). rewrite Nat.add_0_r in H. unfold holds. cbn.
           change (inject_Z 1) with 1%Q. change (inject_Z 0) with 0%Q. lra.
        -- revert c Hc. apply H4. intros i m Em Hi. replace (S col + i)%nat with (col + S i)%nat by lia. apply (H (S i) m); assumption.
Qed.

Lemma lp_chans_spec nm : forall l col r k col', lp_chans ns nm l col = Some (r, k, col') ->
  length r = length l /\ col' = (col + 2 * length l)%nat /\
  (forall j c, l !! j = Some c -> r !! j = Some (c, col + 2 * j, S (col + 2 * j))%nat) /\
  (forall x, (forall c, c ∈ k -> holds x c) <->
     (forall j c, l !! j = Some c -> forall T S, T = x (col_of nm (sc_tgt c)) -> S = x (col_of nm (sc_src c)) ->
        (inject_Z (w c) <= T - S /\ x (col + 2 * j)%nat == T - S /\
         x (Datatypes.S (col + 2 * j)) == T - S - inject_Z (w c) /\ 0 <= x (Datatypes.S (col + 2 * j)))%Q)).
Proof.
  induction l as [|c l IH]; intros col r k col' E; cbn in E.
  - injection E as <- <- <-. split; [reflexivity|]. split; [cbn; lia|]. split; [intros j c H; discriminate H|].
    intro x. split; [intros _ j c H; discriminate H|intros _ c H; inversion H].
  - destruct (i32 _) as [z|] eqn:E0; [|discriminate]. apply i32_some in E0 as [-> _].
    destruct (lp_chans ns nm l (S (S col))) as [[[r1 k1] col1]|] eqn:E1; [|discriminate]. injection E as <- <- <-.
    destruct (IH _ _ _ _ E1) as (L & -> & H3 & H4). cbn [length]. split; [lia|]. split; [lia|]. split.
    + intros [|j] d Ed; cbn in Ed |- *.
      * injection Ed as ->. rewrite Nat.add_0_r. reflexivity.
      * etransitivity; [exact (H3 _ _ Ed)|]. replace (S (S col) + 2 * j)%nat with (col + 2 * S j)%nat by lia. reflexivity.
    + intro x. split.
      * intros H [|j] d Ed T S -> ->; cbn in Ed.
        -- injection Ed as ->. rewrite !Nat.mul_0_r, !Nat.add_0_r.
           pose proof (H _ ltac:(left)) as A1.
           pose proof (H _ ltac:(right; left)) as A2.
           pose proof (H _ ltac:(right; right; left)) as A3.
           pose proof (H _ ltac:(right; right; right; left)) as A4.
           unfold holds in A1, A2, A3, A4. cbn in A1, A2, A3, A4. rewrite inject_Z_opp in A3.
           unfold w. change (inject_Z 1) with 1%Q in *. change (inject_Z 0) with 0%Q in *. change (inject_Z (-1)) with (-1)%Q in *.
           repeat split; lra.
        -- replace (col + 2 * Datatypes.S j)%nat with (Datatypes.S (Datatypes.S col) + 2 * j)%nat by lia.
           apply H4 with (T := x (col_of nm (sc_tgt d))); try reflexivity; try assumption.
           intros e He. apply H. do 4 right. exact He.
      * intros H e He.
        assert (He' : e ∈ chan_cons nm c (w c) col (S col) \/ e ∈ k1) by (apply elem_of_app; exact He). clear He. destruct He' as [He|He].
        -- destruct (H 0%nat c eq_refl _ _ eq_refl eq_refl) as (A1 & A2 & A3 & A4).
           rewrite !Nat.mul_0_r, !Nat.add_0_r in *.
           unfold chan_cons in He. rewrite !elem_of_cons, elem_of_nil in He. destruct He as [->|[->|[->|[->|[]]]]]; unfold holds; cbn; rewrite ?inject_Z_opp;
             change (inject_Z 1) with 1%Q; change (inject_Z 0) with 0%Q; change (inject_Z (-1)) with (-1)%Q; fold (w c); lra.
        -- revert e He. apply H4. intros j d Ed T S ET ES.
           replace (Datatypes.S (Datatypes.S col) + 2 * j)%nat with (col + 2 * Datatypes.S j)%nat by lia. eapply (H (Datatypes.S j)); eassumption.
Qed.

Variables (p : lp) (nm : list (nat * nat)) (l : list (schan * nat * nat)).
Hypothesis EB : lp_build ns cs = Some (p, nm, l).
Let N := length ns.
Let oc := lp_order ns cs.
Let K := length oc.

Lemma build_spec :
  (forall n, n ∈ ns -> 0 <= s_lat n) /\
  nm = zip (map s_id ns) (seq 1 N) /\ lp_cols p = (N + 2 * K)%nat /\
  length l = K /\
  (forall j c, oc !! j = Some c -> l !! j = Some (c, S N + 2 * j, S (S N + 2 * j))%nat) /\
  lp_obj p = map (fun x => snd (fst x)) l /\
  forall x, (forall c, c ∈ lp_cons p -> holds x c) <->
    ((forall i n, ns !! i = Some n -> is_input (s_op n) = true -> (x (S i) == 0)%Q) /\
     (forall j c, oc !! j = Some c -> forall T S, T = x (col_of nm (sc_tgt c)) -> S = x (col_of nm (sc_src c)) ->
        (inject_Z (w c) <= T - S /\ x (Datatypes.S N + 2 * j)%nat == T - S /\
         x (Datatypes.S (Datatypes.S N + 2 * j)) == T - S - inject_Z (w c) /\ 0 <= x (Datatypes.S (Datatypes.S N + 2 * j)))%Q)).
Proof.
  unfold lp_build in EB. destruct (lp_nodes ns 1) as [[[nm1 k1] col1]|] eqn:E1; [|discriminate].
  destruct (lp_chans ns nm1 (lp_order ns cs) col1) as [[[r k2] col2]|] eqn:E2; [|discriminate]. injection EB as <- <- <-.
  destruct (lp_nodes_spec _ _ _ _ _ E1) as (-> & -> & H3 & H4).
  destruct (lp_chans_spec _ _ _ _ _ _ E2) as (L & -> & H5 & H6).
  split; [exact H3|]. split; [reflexivity|]. split; [cbn; fold N; fold oc; fold K; lia|]. split; [exact L|].
  split; [exact H5|]. split; [reflexivity|]. intro x. cbn [lp_cons].
  assert (G : forall A B C D : Prop, (A <-> C) -> (B <-> D) -> (A /\ B <-> C /\ D)) by (clear; tauto).
  etransitivity; [|apply G; [exact (H4 x)|exact (H6 x)]]. split.
  - intro H. split; intros c Hc; apply H; apply elem_of_app; auto.
  - intros [A B] c Hc. apply elem_of_app in Hc as [Hc|Hc]; auto.
Qed.

Lemma col_of_zip (ids : list nat) : forall col i v, NoDup ids -> ids !! i = Some v ->
  col_of (zip ids (seq col (length ids))) v = (col + i)%nat.
Proof.
  unfold col_of. induction ids as [|a ids IH]; intros col i v Nd E; [discriminate|]. apply NoDup_cons in Nd as [N1 N2].
  destruct i as [|i]; cbn in E.
  - injection E as ->. cbn. rewrite Nat.eqb_refl. cbn. lia.
  - cbn. destruct (Nat.eqb_spec a v) as [->|]; [exfalso; apply N1; eapply elem_of_list_lookup_2; exact E|].
    rewrite (IH (S col) i v N2 E). lia.
Qed.
Lemma col_node i n : ns !! i = Some n -> col_of nm (s_id n) = S i.
Proof.
  intro H. destruct build_spec as (_ & -> & _). unfold N. rewrite <- (map_length s_id ns).
  rewrite (col_of_zip (map s_id ns) 1 i (s_id n)); [lia|exact (od_nd _ _ OD)|]. rewrite list_lookup_fmap, H. reflexivity.
Qed.

Lemma oc_elem c : c ∈ oc <-> c ∈ cs.
Proof.
  unfold oc, lp_order, inputs_of. rewrite elem_of_list_join. split.
  - intros (m & H1 & H2). apply elem_of_list_fmap in H2 as (n & -> & _). apply elem_of_list_In, List.filter_In in H1 as [H1 _].
    apply elem_of_list_In. assumption.
  - intro H. pose proof (od_tgt _ _ OD c H) as Ht. apply elem_of_list_fmap in Ht as (n & En & Hn).
    eexists. split; [|apply elem_of_list_fmap; exists n; split; [reflexivity|exact Hn]].
    apply elem_of_list_In, List.filter_In. rewrite <- elem_of_list_In, En, Nat.eqb_refl. auto.
Qed.

(** ** The point given by start times *)
Definition pt (T : nat -> Q) (col : nat) : Q :=
  if (col <=? N)%nat then match ns !! (col - 1)%nat with Some n => T (s_id n) | None => 0%Q end
  else let j := (col - S N)%nat in
       match oc !! (j / 2)%nat with
       | Some c => if Nat.even j then (T (sc_tgt c) - T (sc_src c))%Q
                   else (T (sc_tgt c) - T (sc_src c) - inject_Z (w c))%Q
       | None => 0%Q
       end.
Lemma pt_node T i n : ns !! i = Some n -> pt T (S i) = T (s_id n).
Proof.
  intro H. unfold pt. pose proof (lookup_lt_Some _ _ _ H) as L. fold N in L. destruct (Nat.leb_spec (S i) N); [|lia].
  replace (S i - 1)%nat with i by lia. rewrite H. reflexivity.
Qed.
Lemma pt_id T v : v ∈ map s_id ns -> pt T (col_of nm v) = T v.
Proof.
  intro H. apply elem_of_list_fmap in H as (n & -> & H). apply elem_of_list_lookup in H as (i & H).
  rewrite (col_node _ _ H). apply pt_node. assumption.
Qed.
Lemma pt_delta T j c : oc !! j = Some c -> pt T (S N + 2 * j)%nat = (T (sc_tgt c) - T (sc_src c))%Q.
Proof.
  intro H. unfold pt. destruct (Nat.leb_spec (S N + 2 * j) N); [lia|].
  replace (S N + 2 * j - S N)%nat with (2 * j)%nat by lia. rewrite (Nat.mul_comm 2 j), Nat.div_mul by lia. rewrite H.
  rewrite Nat.even_mul. cbn. rewrite orb_true_r. reflexivity.
Qed.
Lemma pt_buf T j c : oc !! j = Some c -> pt T (S (S N + 2 * j)) = (T (sc_tgt c) - T (sc_src c) - inject_Z (w c))%Q.
Proof.
  intro H. unfold pt. destruct (Nat.leb_spec (S (S N + 2 * j)) N); [lia|].
  replace (S (S N + 2 * j) - S N)%nat with (1 + 2 * j)%nat by lia.
  assert (E : ((1 + 2 * j) / 2)%nat = j). { rewrite (Nat.mul_comm 2 j), Nat.div_add by lia. reflexivity. }
  rewrite E, H. rewrite Nat.even_add_mul_2. reflexivity.
Qed.
Lemma col_cases i : (1 <= i <= lp_cols p)%nat ->
  (exists k n, ns !! k = Some n /\ i = S k) \/
  (exists j c, oc !! j = Some c /\ (i = (S N + 2 * j)%nat \/ i = S (S N + 2 * j))).
Proof.
  destruct build_spec as (_ & _ & -> & _). intros [H1 H2]. destruct (Nat.le_gt_cases i N) as [L|L].
  - left. destruct (lookup_lt_is_Some_2 ns (i - 1)) as (n & En); [unfold N in *; lia|]. exists (i - 1)%nat, n. split; [assumption|lia].
  - right. pose proof (Nat.div_mod (i - S N) 2 ltac:(lia)) as D. pose proof (Nat.mod_upper_bound (i - S N) 2 ltac:(lia)) as M.
    destruct (lookup_lt_is_Some_2 oc ((i - S N) / 2)) as (c & Ec); [unfold K in *; lia|].
    exists ((i - S N) / 2)%nat, c. split; [assumption|]. lia.
Qed.

Definition schedule_q (T : nat -> Q) : Prop :=
  (forall n, n ∈ ns -> (0 <= T (s_id n))%Q) /\
  (forall n, n ∈ ns -> is_input (s_op n) = true -> (T (s_id n) == 0)%Q) /\
  (forall c, c ∈ cs -> (inject_Z (w c) <= T (sc_tgt c) - T (sc_src c))%Q /\ (0 <= T (sc_tgt c) - T (sc_src c))%Q).

Lemma pt_point T : schedule_q T -> lp_point p (pt T).
Proof.
  intros (H1 & H2 & H3). destruct build_spec as (_ & _ & _ & _ & _ & _ & HC). split.
  - intros i Hi. destruct (col_cases i Hi) as [(k & n & En & ->)|(j & c & Ec & [->| ->])].
    + rewrite (pt_node _ _ _ En). apply H1. eapply elem_of_list_lookup_2; eassumption.
    + rewrite (pt_delta _ _ _ Ec). apply H3, oc_elem. eapply elem_of_list_lookup_2; eassumption.
    + rewrite (pt_buf _ _ _ Ec). assert (c ∈ cs) as Hc by (apply oc_elem; eapply elem_of_list_lookup_2; eassumption).
      destruct (H3 c Hc). lra.
  - apply HC. split.
    + intros i n En Hi. rewrite (pt_node _ _ _ En). apply H2; [eapply elem_of_list_lookup_2; eassumption|assumption].
    + intros j c Ec T' S' -> ->. assert (c ∈ cs) as Hc by (apply oc_elem; eapply elem_of_list_lookup_2; eassumption).
      rewrite (pt_delta _ _ _ Ec), (pt_buf _ _ _ Ec), !pt_id by (apply (od_src _ _ OD) + apply (od_tgt _ _ OD); assumption).
      destruct (H3 c Hc). repeat split; lra.
Qed.

Lemma point_schedule x : lp_point p x -> schedule_q (fun v => x (col_of nm v)) /\
  forall i, (1 <= i <= lp_cols p)%nat -> (x i == pt (fun v => x (col_of nm v)) i)%Q.
Proof.
  intros [P1 P2]. destruct build_spec as (_ & _ & Ec & _ & _ & _ & HC). apply HC in P2 as [P2 P3]. split; [split; [|split]|].
  - intros n Hn. apply elem_of_list_lookup in Hn as (i & Hn). rewrite (col_node _ _ Hn). apply P1. rewrite Ec.
    apply lookup_lt_Some in Hn. fold N in Hn. lia.
  - intros n Hn Hi. apply elem_of_list_lookup in Hn as (i & Hn). rewrite (col_node _ _ Hn). eapply P2; eassumption.
  - intros c Hc. apply oc_elem in Hc. apply elem_of_list_lookup in Hc as (j & Hc).
    destruct (P3 j c Hc _ _ eq_refl eq_refl) as (A1 & A2 & A3 & A4). split; [exact A1|].
    rewrite <- A2. apply P1. rewrite Ec. apply lookup_lt_Some in Hc. fold K in Hc. lia.
  - intros i Hi. destruct (col_cases i Hi) as [(k & n & En & ->)|(j & c & Ecc & [->| ->])].
    + rewrite (pt_node _ _ _ En), (col_node _ _ En). reflexivity.
    + rewrite (pt_delta _ _ _ Ecc). destruct (P3 j c Ecc _ _ eq_refl eq_refl) as (A1 & A2 & A3 & A4). exact A2.
    + rewrite (pt_buf _ _ _ Ecc). destruct (P3 j c Ecc _ _ eq_refl eq_refl) as (A1 & A2 & A3 & A4). exact A3.
Qed.

(** ** Corners are integral *)
Theorem vertex_integral x : lp_vertex p x -> forall n, n ∈ ns -> (x (col_of nm (s_id n)) == inject_Z (Qfloor (x (col_of nm (s_id n)))))%Q.
Proof.
  intros [HP HV] n0 Hn0. destruct (point_schedule x HP) as [(S1 & S2 & S3) SP].
  set (T := fun v => x (col_of nm v)) in *. change (x (col_of nm (s_id n0))) with (T (s_id n0)).
  destruct (Qeq_dec (T (s_id n0)) (inject_Z (Qfloor (T (s_id n0))))) as [|NI]; [assumption|exfalso].
  set (f := frac (T (s_id n0))).
  assert (Hf : (0 < f)%Q). { pose proof (frac_range (T (s_id n0))). fold f in H. unfold f, frac in *. lra. }
  destruct (small_eps (f :: map (fun c => frac (T (sc_tgt c) - T (sc_src c))%Q) cs)) as (e & E1 & E2).
  set (chi := fun v => if Qeq_bool (frac (T v)) f then 1%Q else 0%Q).
  assert (HS : forall s : Q, (s == 1 \/ s == -1)%Q -> schedule_q (fun v => (T v + s * e * chi v)%Q)).
  { intros s Hs. assert (Ef : (e <= f)%Q) by (apply E2; [left|assumption]). split; [|split].
    - intros n Hn. pose proof (S1 n Hn) as A. fold (T (s_id n)) in A. unfold chi. destruct (Qeq_bool (frac (T (s_id n))) f) eqn:Eq; [|lra].
      apply Qeq_bool_iff in Eq. unfold frac in Eq.
      assert (0 <= Qfloor (T (s_id n))). { apply floor_ge. exact A. }
      rewrite Zle_Qle in H. change (inject_Z 0) with 0%Q in H. destruct Hs as [Hs|Hs]; rewrite Hs; lra.
    - intros n Hn Hi. pose proof (S2 n Hn Hi) as A. fold (T (s_id n)) in A. unfold chi. destruct (Qeq_bool (frac (T (s_id n))) f) eqn:Eq; [|lra].
      apply Qeq_bool_iff in Eq. unfold frac in Eq. exfalso.
      assert (Qfloor (T (s_id n)) = 0) as E0 by (rewrite A; reflexivity). rewrite E0 in Eq. change (inject_Z 0) with 0%Q in Eq. lra.
    - intros c Hc. destruct (S3 c Hc) as [A1 A2]. fold (T (sc_tgt c)) in A1, A2. fold (T (sc_src c)) in A1, A2.
      set (D := (T (sc_tgt c) - T (sc_src c))%Q) in *.
      pose proof (floor_ge _ _ A1) as F1. pose proof (floor_ge D 0 A2) as F2. rewrite Zle_Qle in F1, F2. change (inject_Z 0) with 0%Q in F2.
      assert (FD : frac D == D - inject_Z (Qfloor D)) by reflexivity.
      assert (Sl : (chi (sc_tgt c) == chi (sc_src c))%Q \/ (e <= frac D)%Q).
      { unfold chi. destruct (Qeq_bool (frac (T (sc_tgt c))) f) eqn:X1; destruct (Qeq_bool (frac (T (sc_src c))) f) eqn:X2; try (left; reflexivity); right.
        all: apply E2; [right; apply elem_of_list_fmap; exists c; split; [reflexivity|exact Hc]|].
        all: pose proof (frac_range D) as [R1 _].
        all: destruct (Qlt_le_dec 0 (frac D)) as [|R2]; [assumption|exfalso].
        all: assert (ED : (D == inject_Z (Qfloor D))%Q) by lra.
        - apply Qeq_bool_iff in X1. apply Qeq_bool_neq in X2. apply X2.
          assert (G : (T (sc_tgt c) == T (sc_src c) + inject_Z (Qfloor D))%Q) by (unfold D in ED at 1; lra).
          rewrite <- (frac_shift _ _ _ G). exact X1.
        - apply Qeq_bool_iff in X2. apply Qeq_bool_neq in X1. apply X1.
          assert (G : (T (sc_tgt c) == T (sc_src c) + inject_Z (Qfloor D))%Q) by (unfold D in ED at 1; lra).
          rewrite (frac_shift _ _ _ G). exact X2. }
      assert (C1 : (chi (sc_tgt c) == 0 \/ chi (sc_tgt c) == 1)%Q) by (unfold chi; destruct (Qeq_bool _ _); [right|left]; reflexivity).
      assert (C2 : (chi (sc_src c) == 0 \/ chi (sc_src c) == 1)%Q) by (unfold chi; destruct (Qeq_bool _ _); [right|left]; reflexivity).
      assert (G : (T (sc_tgt c) + s * e * chi (sc_tgt c) - (T (sc_src c) + s * e * chi (sc_src c)) == D + s * e * (chi (sc_tgt c) - chi (sc_src c)))%Q)
        by (unfold D; ring).
      rewrite !G. set (ct := chi (sc_tgt c)) in *. set (cr := chi (sc_src c)) in *. clearbody ct cr D. clear G.
      assert (Q1 : (s * e * (ct - cr) == 0)%Q \/ (- e <= s * e * (ct - cr))%Q).
      { destruct C1 as [C1|C1], C2 as [C2|C2], Hs as [Hs|Hs]; rewrite C1, C2, Hs; [left|left|right|right|right|right|left|left]; lra. }
      destruct Sl as [Sl|Sl].
      + assert (s * e * (ct - cr) == 0)%Q as -> by (rewrite Sl; ring). split; lra.
      + destruct Q1 as [Q1|Q1]; split; lra. }
  pose proof (pt_point _ (HS 1%Q ltac:(left; reflexivity))) as P1. pose proof (pt_point _ (HS (-1)%Q ltac:(right; reflexivity))) as P2.
  apply elem_of_list_lookup in Hn0 as (i0 & Hi0).
  assert (Ri : (1 <= S i0 <= lp_cols p)%nat).
  { destruct build_spec as (_ & _ & -> & _). apply lookup_lt_Some in Hi0. fold N in Hi0. lia. }
  pose proof (HV _ _ P1 P2) as V. specialize (V ltac:(
    intros i Hi; rewrite (SP i Hi); fold T;
    destruct (col_cases i Hi) as [(k & n & En & ->)|(j & c & Ec & [->| ->])];
    [rewrite !(pt_node _ _ _ En)|rewrite !(pt_delta _ _ _ Ec)|rewrite !(pt_buf _ _ _ Ec)]; field) (S i0) Ri).
  rewrite (SP _ Ri) in V. fold T in V. rewrite !(pt_node _ _ _ Hi0) in V. unfold chi in V.
  assert (Qeq_bool (frac (T (s_id n0))) f = true) as Eq by (apply Qeq_bool_iff; reflexivity). rewrite Eq in V. lra.
Qed.
Lemma int_floor q z : (q == inject_Z z)%Q -> (q == inject_Z (Qfloor q))%Q.
Proof. intro H. assert (Qfloor q = z) as -> by (rewrite H; apply Qfloor_Z). exact H. Qed.
Lemma integral_col x : lp_integral p x -> forall n, n ∈ ns -> (x (col_of nm (s_id n)) == inject_Z (Qfloor (x (col_of nm (s_id n)))))%Q.
Proof.
  intros [_ H] n Hn. apply elem_of_list_lookup in Hn as (i & Hn). rewrite (col_node _ _ Hn).
  destruct (H (S i)) as (z & Hz); [|eapply int_floor; exact Hz].
  destruct build_spec as (_ & _ & -> & _). apply lookup_lt_Some in Hn. fold N in Hn. lia.
Qed.
Theorem vertex_integer x : lp_vertex p x -> lp_integral p x.
Proof.
  intro HV. pose proof (vertex_integral x HV) as VI. destruct HV as [HP _]. split; [exact HP|].
  destruct (point_schedule x HP) as [_ SP]. intros i Hi.
  assert (S0 : forall c, c ∈ oc -> exists z, (x (col_of nm (sc_tgt c)) - x (col_of nm (sc_src c)) == inject_Z z)%Q).
  { intros c Hc. apply oc_elem in Hc. pose proof (od_tgt _ _ OD c Hc) as H1. pose proof (od_src _ _ OD c Hc) as H2.
    apply elem_of_list_fmap in H1 as (n1 & -> & H1). apply elem_of_list_fmap in H2 as (n2 & -> & H2).
    exists (Qfloor (x (col_of nm (s_id n1))) + - Qfloor (x (col_of nm (s_id n2))))%Z. rewrite inject_Z_plus, inject_Z_opp.
    apply Qplus_comp; [exact (VI _ H1)|]. apply Qopp_comp. exact (VI _ H2). }
  destruct (col_cases i Hi) as [(k & n & En & ->)|(j & c & Ec & [->| ->])].
  - exists (Qfloor (x (S k))). rewrite <- (col_node _ _ En). apply VI. eapply elem_of_list_lookup_2; exact En.
  - destruct (S0 c) as (z & Hz); [eapply elem_of_list_lookup_2; exact Ec|]. exists z. rewrite (SP _ Hi), (pt_delta _ _ _ Ec). exact Hz.
  - destruct (S0 c) as (z & Hz); [eapply elem_of_list_lookup_2; exact Ec|]. exists (z + - w c)%Z. rewrite (SP _ Hi), (pt_buf _ _ _ Ec).
    rewrite inject_Z_plus, inject_Z_opp, <- Hz. reflexivity.
Qed.
End Lp.
