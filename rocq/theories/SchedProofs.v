From Coq Require Import ZArith Bool Lia.
From stdpp Require Import list.
From Verif Require Import Types Value Graph Dfcir Sched SchedSpec.
Local Open Scope Z_scope.

Lemma i32_some z x : i32 z = Some x -> x = z /\ - 2 ^ 31 <= z < 2 ^ 31.
Proof.
  unfold i32. destruct (_ && _) eqn:E; [|discriminate].
  apply andb_true_iff in E as [A B]. rewrite Z.leb_le in A. rewrite Z.ltb_lt in B.
  intros [= <-]. auto.
Qed.

Global Instance bop_eq_dec : EqDecision bop. Proof. solve_decision. Defined.
Global Instance uop_eq_dec : EqDecision uop. Proof. solve_decision. Defined.
Global Instance schan_eq_dec : EqDecision schan. Proof. solve_decision. Defined.

(** the shape every constructed graph has *)
Record ordered (ns : list snode) (cs : list schan) : Prop := {
  od_nd : NoDup (map s_id ns);
  od_src : forall c, c ∈ cs -> sc_src c ∈ map s_id ns;
  od_tgt : forall c, c ∈ cs -> sc_tgt c ∈ map s_id ns;
  od_ord : forall c l1 l2, c ∈ cs -> map s_id ns = l1 ++ sc_src c :: l2 ->
           sc_tgt c ∈ sc_src c :: l2 \/ (forall c', c' ∈ cs -> sc_src c' <> sc_tgt c)
}.
Definition no_self (cs : list schan) : Prop := forall c, c ∈ cs -> sc_src c <> sc_tgt c.

Lemma outputs_of_spec cs v c : c ∈ outputs_of cs v <-> c ∈ cs /\ sc_src c = v.
Proof.
  unfold outputs_of. rewrite !elem_of_list_In, List.filter_In, Nat.eqb_eq. tauto.
Qed.

Lemma upd_eq m k z : upd m k z k = z.
Proof. unfold upd. rewrite Nat.eqb_refl. reflexivity. Qed.
Lemma upd_ne m k z x : x <> k -> upd m k z x = m x.
Proof. intro H. unfold upd. destruct (Nat.eqb_spec x k); congruence. Qed.

Lemma node_lat_in ns n : NoDup (map s_id ns) -> n ∈ ns -> node_lat ns (s_id n) = s_lat n.
Proof.
  unfold node_lat. induction ns as [|x ns IH]; intros ND H; [inversion H|].
  cbn in ND |- *. apply NoDup_cons in ND as [A B].
  destruct (Nat.eqb_spec (s_id x) (s_id n)) as [E|E].
  - apply elem_of_cons in H as [->|H]; [reflexivity|].
    exfalso. apply A. rewrite E. apply elem_of_list_fmap. eauto.
  - apply elem_of_cons in H as [->|H]; [congruence|]. auto.
Qed.

Section Asap.
Variables (ns : list snode) (cs : list schan).
Hypothesis OD : ordered ns cs.
Hypothesis NS : no_self cs.

Notation lat := (node_lat ns).
Definition outp x := node_is_output ns x = true.

(** invariant after the nodes in [done] *)
Record inv (done : list nat) (m : lats) (mx : Z) : Prop := {
  iv_pos : forall x, 0 <= m x;
  iv_feas : forall c, c ∈ cs -> sc_src c ∈ done -> m (sc_src c) + chan_delay ns c <= m (sc_tgt c);
  iv_path : forall x, exists a, path ns cs a x (m x);
  iv_le : forall t, feasible ns cs t -> forall x, m x <= t x;
  iv_mx : forall x, outp x -> m x <= mx;
  iv_mxat : mx = 0 \/ exists x, outp x /\ m x = mx
}.

Lemma asap_chans_inv done n l : forall m mx m' mx',
  (forall c, c ∈ l -> c ∈ cs /\ sc_src c = s_id n) ->
  n ∈ ns -> s_id n ∉ done ->
  (forall c, c ∈ l -> sc_tgt c ∈ done -> forall c', c' ∈ cs -> sc_src c' <> sc_tgt c) ->
  inv done m mx ->
  asap_chans ns n l m mx = Some (m', mx') ->
  inv done m' mx' /\ m' (s_id n) = m (s_id n) /\
  (forall x, m x <= m' x) /\
  (forall c, c ∈ l -> m' (s_id n) + chan_delay ns c <= m' (sc_tgt c)).
Proof.
  induction l as [|c l IH]; intros m mx m' mx' HL Hn Hd Ho Hi E.
  - cbn in E. injection E as <- <-. split; [assumption|]. repeat split; try lia.
    intros c Hc. inversion Hc.
  - cbn in E.
    destruct (i32 (m (s_id n) + s_lat n)) as [x|] eqn:E1; [|discriminate].
    destruct (i32 (x + sc_off c)) as [y|] eqn:E2; [|discriminate].
    apply i32_some in E1 as [-> _]. apply i32_some in E2 as [-> _].
    destruct (HL c ltac:(left)) as [Hc Hs].
    assert (Hlat : m (s_id n) + s_lat n + sc_off c = m (s_id n) + chan_delay ns c).
    { unfold chan_delay. rewrite Hs, node_lat_in; [lia|apply (od_nd _ _ OD)|assumption]. }
    rewrite Hlat in E. set (v := m (s_id n) + chan_delay ns c) in *.
    set (m1 := if m (sc_tgt c) <? v then upd m (sc_tgt c) v else m) in *.
    set (mx1 := if node_is_output ns (sc_tgt c) && (mx <? v) then v else mx) in *.
    assert (Hself : sc_tgt c <> s_id n) by (rewrite <- Hs; intro; apply (NS c Hc); congruence).
    assert (M1 : forall x, x <> sc_tgt c -> m1 x = m x).
    { intros x Hx. unfold m1. destruct (_ <? _); [apply upd_ne; assumption|reflexivity]. }
    assert (M2 : m1 (sc_tgt c) = Z.max (m (sc_tgt c)) v).
    { unfold m1. destruct (Z.ltb_spec (m (sc_tgt c)) v); [rewrite upd_eq; lia|lia]. }
    assert (Mle : forall x, m x <= m1 x).
    { intro x. destruct (Nat.eq_dec x (sc_tgt c)) as [->|N]; [lia|rewrite M1 by assumption; lia]. }
    assert (Hi1 : inv done m1 mx1).
    { destruct Hi as [I1 I2 I3 I4 I5 I6]. constructor.
      - intro x. pose proof (I1 x). pose proof (Mle x). lia.
      - intros c' Hc' Hd'. pose proof (I2 c' Hc' Hd'). pose proof (Mle (sc_tgt c')).
        assert (sc_src c' <> sc_tgt c).
        { intro E0. assert (sc_tgt c ∈ done) by (rewrite <- E0; assumption).
          apply (Ho c ltac:(left) H1 c' Hc'). assumption. }
        rewrite (M1 (sc_src c')) by assumption. lia.
      - intro x. destruct (Nat.eq_dec x (sc_tgt c)) as [->|N]; [|rewrite M1 by assumption; apply I3].
        rewrite M2. destruct (Z.max_spec (m (sc_tgt c)) v) as [[_ ->]|[_ ->]]; [|apply I3].
        destruct (I3 (s_id n)) as [a Ha]. exists a. unfold v.
        eapply path_snoc; eauto.
      - intros t Ht x. destruct (Nat.eq_dec x (sc_tgt c)) as [->|N]; [|rewrite M1 by assumption; auto].
        rewrite M2. destruct Ht as [T1 T2]. pose proof (T2 c Hc). rewrite Hs in H.
        pose proof (I4 t (conj T1 T2) (s_id n)). pose proof (I4 t (conj T1 T2) (sc_tgt c)). unfold v. lia.
      - intros x Hx. destruct (Nat.eq_dec x (sc_tgt c)) as [->|N].
        + unfold outp in Hx. pose proof (I5 _ Hx). rewrite M2. unfold mx1. rewrite Hx. cbn.
          destruct (Z.ltb_spec mx v); lia.
        + rewrite M1 by assumption. pose proof (I5 x Hx). unfold mx1.
          destruct (node_is_output ns (sc_tgt c)); cbn; [destruct (Z.ltb_spec mx v); lia|lia].
      - unfold mx1. destruct (node_is_output ns (sc_tgt c)) eqn:EO; cbn.
        + destruct (Z.ltb_spec mx v) as [L|L].
          * right. exists (sc_tgt c). split; [exact EO|]. pose proof (I5 _ EO). lia.
          * destruct I6 as [->|[x [Hx <-]]]; [left; reflexivity|right].
            destruct (Nat.eq_dec x (sc_tgt c)) as [->|N].
            -- exists (sc_tgt c). split; [exact EO|]. lia.
            -- exists x. split; [assumption|]. rewrite M1 by assumption. reflexivity.
        + destruct I6 as [->|[x [Hx <-]]]; [left; reflexivity|right].
          exists x. split; [assumption|]. apply M1. intros ->. unfold outp in Hx. congruence. }
    specialize (IH m1 mx1 m' mx' (fun c' H => HL c' (elem_of_list_further _ _ _ H)) Hn Hd
                  (fun c' H => Ho c' (elem_of_list_further _ _ _ H)) Hi1 E) as (J1 & J2 & J3 & J4).
    split; [assumption|]. split; [rewrite J2; apply M1; congruence|]. split.
    { intro x. pose proof (Mle x). pose proof (J3 x). lia. }
    intros c' Hc'. apply elem_of_cons in Hc' as [->|Hc']; [|auto].
    rewrite J2, M1 by congruence. pose proof (J3 (sc_tgt c)). unfold v in M2. lia.
Qed.

Lemma asap_nodes_inv : forall rest done m mx m' mx',
  map s_id ns = rev done ++ map s_id rest -> (forall n, n ∈ rest -> n ∈ ns) ->
  inv done m mx ->
  asap_nodes ns cs rest m mx = Some (m', mx') ->
  inv (rev (map s_id rest) ++ done) m' mx' /\ (forall n, n ∈ rest -> 0 <= s_lat n).
Proof.
  induction rest as [|n rest IH]; intros done m mx m' mx' EQ Sub Hi E.
  - cbn in E |- *. injection E as <- <-. split; [assumption|]. intros n Hn. inversion Hn.
  - cbn in E. destruct (Z.ltb_spec (s_lat n) 0) as [L|L]; [discriminate|].
    destruct (asap_chans ns n (outputs_of cs (s_id n)) m mx) as [[m1 mx1]|] eqn:E1; [|discriminate].
    assert (ND := od_nd _ _ OD). rewrite EQ in ND. cbn in ND.
    assert (Hd : s_id n ∉ done).
    { apply NoDup_app in ND as (_ & X & _). intro H. apply (X (s_id n)); [|left].
      rewrite elem_of_list_In, <- in_rev, <- elem_of_list_In. assumption. }
    eapply (asap_chans_inv done) in E1; try assumption.
    + destruct E1 as (J1 & J2 & J3 & J4).
      assert (J : inv (s_id n :: done) m1 mx1).
      { destruct J1 as [I1 I2 I3 I4 I5 I6]. constructor; try assumption.
        intros c Hc Hs. apply elem_of_cons in Hs as [Hs|Hs]; [|auto].
        rewrite Hs at 1. apply J4. apply outputs_of_spec. auto. }
      destruct (IH (s_id n :: done) m1 mx1 m' mx') as [A B].
      * cbn. rewrite <- app_assoc. exact EQ.
      * intros x Hx. apply Sub. right. assumption.
      * assumption.
      * assumption.
      * split.
        -- replace (rev (map s_id (n :: rest)) ++ done) with (rev (map s_id rest) ++ s_id n :: done); [exact A|].
           cbn. rewrite <- app_assoc. reflexivity.
        -- intros x Hx. apply elem_of_cons in Hx as [->|Hx]; [assumption|auto].
    + intros c Hc. apply outputs_of_spec in Hc. assumption.
    + apply Sub. left.
    + intros c Hc Ht c' Hc'. apply outputs_of_spec in Hc as [Hc Hs].
      destruct (od_ord _ _ OD c (rev done) (map s_id rest) Hc) as [O|O].
      * rewrite Hs. exact EQ.
      * exfalso. apply NoDup_app in ND as (_ & X & _). apply (X (sc_tgt c)).
        -- rewrite elem_of_list_In, <- in_rev, <- elem_of_list_In. assumption.
        -- rewrite Hs in O. exact O.
      * apply O. assumption.
Qed.

Theorem asap_nodes_spec m mx : asap_nodes ns cs ns (fun _ => 0) 0 = Some (m, mx) ->
  feasible ns cs m /\ (forall x, exists a, path ns cs a x (m x)) /\
  (forall t, feasible ns cs t -> forall x, m x <= t x) /\
  (forall x, outp x -> m x <= mx) /\ (mx = 0 \/ exists x, outp x /\ m x = mx) /\
  (forall n, n ∈ ns -> 0 <= s_lat n).
Proof.
  intro E. destruct (asap_nodes_inv ns [] (fun _ => 0) 0 m mx) as [[I1 I2 I3 I4 I5 I6] L]; try assumption.
  - reflexivity.
  - auto.
  - constructor; try (intros; lia).
    + intros c _ H. inversion H.
    + intro x. exists x. constructor.
    + intros t [T _] x. apply T.
  - split; [split|].
    + assumption.
    + intros c Hc. apply I2; [assumption|]. rewrite app_nil_r, elem_of_list_In, <- in_rev, <- elem_of_list_In.
      apply (od_src _ _ OD). assumption.
    + repeat split; assumption.
Qed.
End Asap.

(** ** Buffers *)
Lemma asap_buffers_spec ns m : forall cs bs, asap_buffers ns m cs = Some bs ->
  (forall c z, (c, z) ∈ bs -> c ∈ cs /\ z = m (sc_tgt c) - (m (sc_src c) + chan_delay ns c) /\
                z <> 0 /\ node_is_const ns (sc_src c) = false) /\
  (forall c, c ∈ cs -> node_is_const ns (sc_src c) = false ->
     buf_of bs c (m (sc_tgt c) - (m (sc_src c) + chan_delay ns c))).
Proof.
  induction cs as [|c cs IH]; intros bs E.
  - cbn in E. injection E as <-. split; intros; inversion H.
  - cbn in E.
    destruct (i32 (m (sc_src c) + _)) as [x|] eqn:E1; [|discriminate].
    destruct (i32 (x + _)) as [y|] eqn:E2; [|discriminate].
    destruct (i32 (_ - y)) as [d|] eqn:E3; [|discriminate].
    apply i32_some in E1 as [-> _], E2 as [-> _], E3 as [-> _].
    destruct (asap_buffers ns m cs) as [l|] eqn:E4; [|discriminate].
    destruct (IH l eq_refl) as [A B].
    set (dl := m (sc_tgt c) - (m (sc_src c) + node_lat ns (sc_src c) + sc_off c)) in *.
    assert (Hd : dl = m (sc_tgt c) - (m (sc_src c) + chan_delay ns c)) by (unfold dl, chan_delay; lia).
    destruct (Z.eqb_spec dl 0) as [Z0|Z0]; cbn in E.
    { injection E as <-. split.
      - intros c' z Hz. destruct (A c' z Hz) as (X1 & X2). split; [right; assumption|assumption].
      - intros c' Hc' Hk. apply elem_of_cons in Hc' as [->|Hc']; [|auto].
        rewrite <- Hd, Z0. destruct (decide (c ∈ cs)) as [Hin|Hout].
        + pose proof (B c Hin Hk) as BB. rewrite <- Hd, Z0 in BB. exact BB.
        + right. split; [reflexivity|]. intros y Hy. apply A in Hy as [Hy _]. auto. }
    destruct (node_is_const ns (sc_src c)) eqn:EC; cbn in E; injection E as <-.
    { split.
      - intros c' z Hz. destruct (A c' z Hz) as (X1 & X2). split; [right; assumption|assumption].
      - intros c' Hc' Hk. apply elem_of_cons in Hc' as [->|Hc']; [congruence|auto]. }
    split.
    + intros c' z Hz. apply elem_of_cons in Hz as [Hz|Hz].
      * injection Hz as -> ->. rewrite <- Hd. split; [left|]. auto.
      * destruct (A c' z Hz) as (X1 & X2). split; [right; assumption|assumption].
    + intros c' Hc' Hk. apply elem_of_cons in Hc' as [->|Hc'].
      * left. rewrite <- Hd. left.
      * destruct (B c' Hc' Hk) as [X|[X Y]]; [left; right; assumption|].
        destruct (Z.eq_dec (m (sc_tgt c') - (m (sc_src c') + chan_delay ns c')) 0) as [E0|E0]; [|congruence].
        right. split; [assumption|]. intros y Hy. apply elem_of_cons in Hy as [Hy|Hy]; [|apply (Y y Hy)].
        injection Hy as -> ->. congruence.
Qed.
