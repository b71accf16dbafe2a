(** Combinational pipelining (proofs): layers, cascades, register counts. *)
From Coq Require Import ZArith Bool QArith Lia.
From stdpp Require Import list.
From Verif Require Import Types Value Graph Dfcir StreamSpec Sched SchedSpec SchedProofs DfcirProofs SchedStream SchedMain SchedFinal
     Pipeline PipelineSpec.
Local Open Scope Z_scope.
Local Arguments nearest : simpl never.

(** ** The graph is the scheduling graph with all latencies 0 *)
Section Graph.
Variable P : program.
Hypothesis W : wfp P.
Hypothesis Z0 : forall r o k t l a, Def r o k t l a ∈ P -> is_scheduled o = true -> l = 0.

Definition no_off (v : nat) : Prop := forall d, op_of P v <> Some (DOffset d).
Lemma comb_nearest v s : comb_source P v = Some s -> no_off s -> s = v /\ nearest P v = Some (v, 0).
Proof.
  unfold comb_source. destruct (con_of P v) eqn:E; [discriminate|]. intros [= <-] H. split; [reflexivity|].
  unfold nearest. cbn [resolve]. rewrite E. destruct (op_of P v) as [[]|] eqn:E2; try reflexivity. exfalso. eapply H. exact E2.
Qed.
Lemma comb_op_chans done tgt : (forall x, x ∈ done -> no_off x) -> forall args i cs,
  comb_chans P done tgt i args = Some cs -> op_chans P done tgt i args = Some cs.
Proof.
  intros HD. induction args as [|a args IH]; intros i cs E; cbn in E |- *; [exact E|].
  destruct (comb_source P a) as [s|] eqn:Es; [|discriminate].
  destruct (bool_decide (s ∈ done)) eqn:Ed; [|discriminate].
  destruct (comb_chans P done tgt (i + 1) args) as [l|] eqn:El; [|discriminate].
  destruct (comb_nearest a s Es) as [-> Hn]; [apply HD; apply bool_decide_eq_true in Ed; exact Ed|].
  rewrite Hn, Ed, (IH _ _ El). exact E.
Qed.
Lemma comb_process_process done s ns cs : s ∈ P -> (forall x, x ∈ done -> no_off x) ->
  comb_process P done s = Some (ns, cs) -> process P done s = Some (ns, cs) /\ forall x, x ∈ map s_id ns -> no_off x.
Proof.
  intros Hs HD E. destruct s as [r o k t l args|d v].
  - pose proof (op_of_def _ _ _ _ _ _ _ (wp_defs P W) Hs) as Eo.
    assert (Nr : (forall d, o <> DOffset d) -> no_off r) by (intros H d X; rewrite Eo in X; injection X as ->; exact (H d eq_refl)).
    destruct (is_oper o) eqn:Io.
    + assert (NO : no_off r) by (apply Nr; intros d ->; discriminate).
      assert (exists c, comb_chans P (r :: done) r 0 args = Some c /\ ns = [mkSNode r o 0] /\ cs = c) as (c & Ec & -> & ->).
      { destruct o; try discriminate Io; cbn in E; (destruct (comb_chans P (r :: done) r 0 args) as [c|]; [injection E as <- <-; eauto|discriminate]). }
      apply comb_op_chans in Ec; [|intros x Hx; apply elem_of_cons in Hx as [->|Hx]; auto].
      split; [|intros x Hx; apply elem_of_list_singleton in Hx as ->; exact NO].
      assert (El : (if is_scheduled o then l else 0) = 0) by (destruct (is_scheduled o) eqn:Es; [eapply Z0; eassumption|reflexivity]).
      cbn. destruct o; try discriminate Io; rewrite Ec, El; reflexivity.
    + destruct o; try discriminate Io; cbn in E |- *; injection E as <- <-; (split; [reflexivity|]); intros x Hx;
        try (apply elem_of_list_singleton in Hx as ->; apply Nr; discriminate); inversion Hx.
  - cbn in E |- *. destruct (op_of P d) as [o|]; [|injection E as <- <-; split; [reflexivity|intros x Hx; inversion Hx]].
    destruct o; try (injection E as <- <-; split; [reflexivity|intros x Hx; inversion Hx]).
    destruct (comb_source P v) as [s|] eqn:Es; [|discriminate].
    destruct (bool_decide (s ∈ done) && bool_decide (d ∈ done)) eqn:Eb; [|discriminate]. injection E as <- <-.
    apply andb_true_iff in Eb as Eb'. destruct Eb' as [E1 _]. apply bool_decide_eq_true in E1.
    destruct (comb_nearest v s Es (HD s E1)) as [-> Hn]. rewrite Hn, Eb. split; [reflexivity|intros x Hx; inversion Hx].
Qed.
Lemma comb_construct_construct : forall rest done ns cs, (forall s, s ∈ rest -> s ∈ P) -> (forall x, x ∈ done -> no_off x) ->
  comb_construct P done rest = Some (ns, cs) -> construct P done rest = Some (ns, cs).
Proof.
  induction rest as [|s rest IH]; intros done ns cs Sub HD E; cbn in E |- *; [exact E|].
  destruct (comb_process P done s) as [[n1 c1]|] eqn:E1; [|discriminate].
  destruct (comb_construct P (map s_id n1 ++ done) rest) as [[n2 c2]|] eqn:E2; [|discriminate].
  apply comb_process_process in E1 as [E1 N1]; [|apply Sub; left|exact HD].
  apply IH in E2; [|intros; apply Sub; right; assumption|intros x Hx; apply elem_of_app in Hx as [Hx|Hx]; auto].
  rewrite E1, E2. exact E.
Qed.
Lemma cgraph_sgraph ns cs : cgraph P = Some (ns, cs) -> sgraph P = Some (ns, cs).
Proof. apply comb_construct_construct; [auto|]. intros x Hx. inversion Hx. Qed.

(** channels read the source directly *)
Lemma nearest_off v s z : no_off v -> con_of P v = None -> nearest P v = Some (s, z) -> z = 0.
Proof.
  intros H E. unfold nearest. cbn [resolve]. rewrite E. destruct (op_of P v) as [[]|] eqn:E2; try (intros [= _ <-]; reflexivity).
  exfalso. eapply H. exact E2.
Qed.
Lemma comb_chans_off done tgt : forall args i cs, comb_chans P done tgt i args = Some cs -> forall c, c ∈ cs -> sc_off c = 0.
Proof.
  induction args as [|a args IH]; intros i cs E c Hc; cbn in E; [injection E as <-; inversion Hc|].
  destruct (comb_source P a); [|discriminate]. destruct (bool_decide _); [|discriminate].
  destruct (comb_chans P done tgt (i + 1) args) as [l|] eqn:El; [|discriminate]. injection E as <-.
  apply elem_of_cons in Hc as [->|Hc]; [reflexivity|]. eapply IH; eassumption.
Qed.
Lemma comb_construct_off : forall rest done ns cs, comb_construct P done rest = Some (ns, cs) ->
  (forall c, c ∈ cs -> sc_off c = 0) /\ (forall n, n ∈ ns -> s_lat n = 0).
Proof.
  induction rest as [|s rest IH]; intros done ns cs E; cbn in E.
  { injection E as <- <-. split; intros x Hx; inversion Hx. }
  destruct (comb_process P done s) as [[n1 c1]|] eqn:E1; [|discriminate].
  destruct (comb_construct P (map s_id n1 ++ done) rest) as [[n2 c2]|] eqn:E2; [|discriminate]. injection E as <- <-.
  destruct (IH _ _ _ E2) as [A B].
  assert (X : (forall c, c ∈ c1 -> sc_off c = 0) /\ (forall n, n ∈ n1 -> s_lat n = 0)).
  { destruct s as [r o k t l args|d v]; cbn in E1.
    - destruct o; try (injection E1 as <- <-; split; intros x Hx; try (apply elem_of_list_singleton in Hx as ->; reflexivity); inversion Hx; fail);
        (destruct (comb_chans P (r :: done) r 0 args) as [c|] eqn:Ec; [|discriminate]); injection E1 as <- <-; (split; [eapply comb_chans_off; eassumption|]);
        intros y Hn; apply elem_of_list_singleton in Hn as ->; reflexivity.
    - destruct (op_of P d) as [[]|]; try (injection E1 as <- <-; split; intros x Hx; inversion Hx; fail).
      destruct (comb_source P v); [|discriminate]. destruct (_ && _); [|discriminate]. injection E1 as <- <-.
      split; intros x Hx; [apply elem_of_list_singleton in Hx as ->; reflexivity|inversion Hx]. }
  destruct X as [X1 X2]. split; intros x Hx; apply elem_of_app in Hx as [Hx|Hx]; auto.
Qed.
End Graph.

(** ** Layers *)
Lemma lay_chans_spec x : forall l m, (forall y, y ∈ map sc_tgt l -> lay_chans x l m y = Z.max (m y) x) /\
  (forall y, y ∉ map sc_tgt l -> lay_chans x l m y = m y).
Proof.
  unfold lay_chans. induction l as [|c l IH]; intro m; cbn; [split; [intros y Hy; inversion Hy|reflexivity]|].
  set (m1 := if m (sc_tgt c) <? x then upd m (sc_tgt c) x else m).
  assert (M1 : m1 (sc_tgt c) = Z.max (m (sc_tgt c)) x) by (unfold m1; destruct (Z.ltb_spec (m (sc_tgt c)) x); [rewrite upd_eq; lia|lia]).
  assert (M2 : forall y, y <> sc_tgt c -> m1 y = m y) by (intros y Hy; unfold m1; destruct (_ <? _); [apply upd_ne; exact Hy|reflexivity]).
  destruct (IH m1) as [A B]. split; intros y Hy.
  - destruct (decide (y ∈ map sc_tgt l)) as [H|H].
    + rewrite A by exact H. destruct (Nat.eq_dec y (sc_tgt c)) as [->|N]; [rewrite M1; lia|rewrite M2 by exact N; reflexivity].
    + rewrite B by exact H. apply elem_of_cons in Hy as [->|Hy]; [exact M1|contradiction].
  - rewrite not_elem_of_cons in Hy. destruct Hy as [H1 H2]. rewrite B by exact H2. apply M2. exact H1.
Qed.

Section Layers.
Variables (ns : list snode) (cs : list schan).
Hypothesis OD : ordered ns cs.
Hypothesis NS : no_self cs.
Record linv (done : list nat) (m : lats) (mx : Z) : Prop := {
  li_pos : forall x, 0 <= m x;
  li_feas : forall c, c ∈ cs -> sc_src c ∈ done -> m (sc_src c) + 1 <= m (sc_tgt c);
  li_chain : forall x, exists a, chain cs a x (m x);
  li_le : forall x, m x <= mx;
  li_at : mx = 0 \/ exists x, m x = mx
}.
Lemma lay_nodes_inv : forall rest done m mx m' mx',
  map s_id ns = rev done ++ map s_id rest -> linv done m mx -> lay_nodes cs rest m mx = (m', mx') ->
  linv (rev (map s_id rest) ++ done) m' mx'.
Proof.
  induction rest as [|n rest IH]; intros done m mx m' mx' EQ Hi E.
  - cbn in E |- *. injection E as <- <-. exact Hi.
  - cbn in E. set (x := m (s_id n) + 1) in *. set (out := outputs_of cs (s_id n)) in *.
    set (m1 := lay_chans x out m) in *. set (mx1 := if negb (bool_decide (out = [])) && (mx <? x) then x else mx) in *.
    destruct (lay_chans_spec x out m) as [A B]. fold m1 in A, B.
    assert (ND := od_nd _ _ OD). rewrite EQ in ND. cbn in ND. apply NoDup_app in ND as (_ & Nd & _).
    assert (Dr : forall y, y ∈ done -> y ∉ s_id n :: map s_id rest).
    { intros y Hy. apply Nd. rewrite elem_of_list_In, <- in_rev, <- elem_of_list_In. exact Hy. }
    assert (Tg : forall y, y ∈ map sc_tgt out <-> exists c, c ∈ cs /\ sc_src c = s_id n /\ sc_tgt c = y).
    { intro y. rewrite elem_of_list_fmap. unfold out. setoid_rewrite outputs_of_spec. split.
      - intros (c & -> & H1 & H2). eauto.
      - intros (c & H1 & H2 & <-). eauto. }
    assert (Sn : s_id n ∉ map sc_tgt out) by (intro X; apply Tg in X as (c & H1 & H2 & H3); apply (NS c H1); congruence).
    assert (Le : forall y, m y <= m1 y) by (intro y; destruct (decide (y ∈ map sc_tgt out)) as [H|H]; [rewrite A by exact H; lia|rewrite B by exact H; lia]).
    assert (Xm : m1 (s_id n) + 1 = x) by (rewrite (B _ Sn); reflexivity).
    (* a target that is already done is the source of nothing *)
    assert (Td : forall y, y ∈ map sc_tgt out -> forall c', c' ∈ cs -> sc_src c' ∈ done -> sc_src c' <> y).
    { intros y Hy c' Hc' Hd' <-. apply Tg in Hy as (c & H1 & H2 & H3).
      destruct (od_ord _ _ OD c (rev done) (map s_id rest) H1) as [O|O]; [rewrite H2; exact EQ| |].
      - rewrite H2, H3 in O. exact (Dr _ Hd' O).
      - apply (O c' Hc'). congruence. }
    destruct Hi as [I1 I2 I3 I4 I5].
    assert (J : linv (s_id n :: done) m1 mx1).
    { constructor.
      - intro y. specialize (I1 y). specialize (Le y). lia.
      - intros c Hc Hs. apply elem_of_cons in Hs as [Hs|Hs].
        + rewrite Hs, Xm. rewrite A; [lia|]. apply Tg. eauto.
        + rewrite (B (sc_src c)); [specialize (I2 c Hc Hs); specialize (Le (sc_tgt c)); lia|].
          intro X. exact (Td _ X c Hc Hs eq_refl).
      - intro y. destruct (decide (y ∈ map sc_tgt out)) as [H|H]; [rewrite A by exact H|rewrite B by exact H; apply I3].
        destruct (Z.max_spec (m y) x) as [[_ ->]|[_ ->]]; [|apply I3].
        apply Tg in H as (c & H1 & H2 & <-). destruct (I3 (s_id n)) as (a & Ha). exists a. unfold x. apply chain_snoc; [rewrite H2; exact Ha|exact H1].
      - intro y. destruct (decide (y ∈ map sc_tgt out)) as [H|H].
        + rewrite A by exact H. unfold mx1. rewrite bool_decide_eq_false_2 by (intros X; rewrite X in H; inversion H).
          cbn. specialize (I4 y). destruct (Z.ltb_spec mx x); lia.
        + rewrite B by exact H. specialize (I4 y). unfold mx1. destruct (negb _ && _) eqn:Eb; [|lia].
          apply andb_true_iff in Eb as [_ Eb]. apply Z.ltb_lt in Eb. lia.
      - unfold mx1. destruct (negb (bool_decide (out = [])) && (mx <? x)) eqn:Eb.
        + apply andb_true_iff in Eb as [Eb1 Eb2]. apply Z.ltb_lt in Eb2. apply negb_true_iff, bool_decide_eq_false in Eb1.
          right. destruct out as [|c o] eqn:Eo; [congruence|]. exists (sc_tgt c). rewrite A by left. specialize (I4 (sc_tgt c)). lia.
        + destruct I5 as [->|(y & <-)]; [left; reflexivity|right].
          exists y. destruct (decide (y ∈ map sc_tgt out)) as [H|H]; [|apply B; exact H].
          rewrite A by exact H. apply andb_false_iff in Eb as [Eb|Eb].
          * apply negb_false_iff, bool_decide_eq_true in Eb. rewrite Eb in H. inversion H.
          * apply Z.ltb_ge in Eb. lia. }
    specialize (IH (s_id n :: done) m1 mx1 m' mx').
    replace (rev (map s_id (n :: rest)) ++ done) with (rev (map s_id rest) ++ s_id n :: done) by (cbn; rewrite <- app_assoc; reflexivity).
    apply IH; [cbn; rewrite <- app_assoc; exact EQ|exact J|exact E].
Qed.

Theorem layers_spec m mx : comb_layers ns cs = (m, mx) ->
  (forall v, depth cs v (m v)) /\ (forall c, c ∈ cs -> m (sc_src c) + 1 <= m (sc_tgt c)) /\
  (forall v, 0 <= m v <= mx) /\ (mx = 0 \/ exists v, m v = mx).
Proof.
  intro E. assert (L : linv (rev (map s_id ns) ++ []) m mx).
  { eapply lay_nodes_inv; [|  |exact E]; [reflexivity|]. constructor; try (intros; lia).
    - intros c _ H. inversion H.
    - intro x. exists x. constructor. }
  destruct L as [I1 I2 I3 I4 I5].
  assert (F : forall c, c ∈ cs -> m (sc_src c) + 1 <= m (sc_tgt c)).
  { intros c Hc. apply I2; [exact Hc|]. rewrite app_nil_r, elem_of_list_In, <- in_rev, <- elem_of_list_In. apply (od_src _ _ OD). exact Hc. }
  assert (U : forall a v y, chain cs a v y -> m a + y <= m v).
  { intros a v y H. induction H as [|z c H IH Hc]; [lia|]. specialize (F c Hc). lia. }
  split; [|split; [exact F|split; [intro v; split; [apply I1|apply I4]|exact I5]]].
  intro v. split.
  - destruct (I3 v) as (a & Ha). exists a. split; [|exact Ha]. intros c Hc X. specialize (U a v _ Ha). specialize (F c Hc).
    specialize (I1 (sc_src c)). rewrite X in F. lia.
  - intros a y H. specialize (U a v y H). specialize (I1 a). lia.
Qed.
End Layers.

(** ** Cascades *)
Section Cascades.
Variables (rnd : Q -> Q) (eps : Q).
(** the cascades assigned by the loop *)
Lemma casc_loop_spec n : forall ls first left cur sum tot avg r, 1 <= left -> cur + left = n -> 0 <= cur ->
  casc_loop rnd eps n first ls left cur sum tot avg = Some r ->
  length r = length ls /\ (forall i z, r !! i = Some z -> cur <= z <= n - 1) /\
  (forall i j z z', (i <= j)%nat -> r !! i = Some z -> r !! j = Some z' -> z <= z') /\
  (first = true -> forall z, r !! 0%nat = Some z -> z = cur).
Proof.
  induction ls as [|l ls IH]; intros first left cur sum tot avg r Hl Hc H0 E.
  - cbn in E. injection E as <-. split; [reflexivity|]. split; [intros i z H; rewrite lookup_nil in H; discriminate|].
    split; [intros i j z z' _ H; rewrite lookup_nil in H; discriminate|]. intros _ z H. discriminate.
  - cbn [casc_loop] in E. destruct (Z.leb_spec left 1) as [L|L].
    + assert (Er : r = replicate (S (length ls)) (n - 1)).
      { injection E as <-. cbn. f_equal. clear. induction ls; cbn; [reflexivity|f_equal; assumption]. }
      clear E. subst r. rewrite replicate_length. split; [reflexivity|].
      assert (R : forall i z, replicate (S (length ls)) (n - 1) !! i = Some z -> z = n - 1) by (intros i z H; apply lookup_replicate in H; tauto).
      split; [intros i z H; apply R in H; lia|]. split; [intros i j z z' _ H H'; apply R in H, H'; lia|].
      intros _ z H. apply R in H. lia.
    + assert (G : forall r' cur' (left' : Z) z0, r = z0 :: r' -> cur <= z0 <= cur' -> 1 <= left' -> cur' + left' = n ->
        (length r' = length ls /\ (forall i z, r' !! i = Some z -> cur' <= z <= n - 1) /\
           (forall i j z z', (i <= j)%nat -> r' !! i = Some z -> r' !! j = Some z' -> z <= z')) ->
        length r = length (l :: ls) /\ (forall i z, r !! i = Some z -> cur <= z <= n - 1) /\
           (forall i j z z', (i <= j)%nat -> r !! i = Some z -> r !! j = Some z' -> z <= z')).
      { intros r' cur' left' z0 -> Hz Hl' Hc' (A1 & A2 & A3). split; [cbn; f_equal; exact A1|]. split.
        - intros [|i] z H; [cbn in H; injection H as <-; lia|]. change (r' !! i = Some z) in H. apply A2 in H. lia.
        - intros [|i] [|j] z z' Hij H H'; try lia.
          + cbn in H, H'. injection H as <-. injection H' as <-. lia.
          + cbn in H. injection H as <-. change (r' !! j = Some z') in H'. apply A2 in H'. lia.
          + change (r' !! i = Some z) in H. change (r' !! j = Some z') in H'. eapply A3; [|exact H|exact H']. lia. }
      destruct (gt_eps eps _) eqn:E1.
      * destruct (casc_loop _ _ _ _ ls left cur _ _ _) as [r'|] eqn:Er; [|discriminate]. injection E as <-.
        apply IH in Er as (A1 & A2 & A3 & _); [|lia|lia|lia].
        destruct (G r' cur left cur eq_refl) as (B1 & B2 & B3); try lia; [auto|]. repeat (split; [assumption|]). intros _ z X. cbn in X. injection X as <-. reflexivity.
      * destruct (gt_eps eps (rnd (_ + sum))) eqn:E2.
        -- destruct first; [discriminate|].
           destruct (casc_loop _ _ _ _ ls (left - 1) (cur + 1) _ _ _) as [r'|] eqn:Er; [|discriminate]. injection E as <-.
           apply IH in Er as (A1 & A2 & A3 & _); [|lia|lia|lia].
           destruct (G r' (cur + 1) (left - 1) (cur + 1) eq_refl) as (B1 & B2 & B3); try lia; [auto|]. repeat (split; [assumption|]). discriminate.
        -- destruct (casc_loop _ _ _ _ ls (left - 1) (cur + 1) _ _ _) as [r'|] eqn:Er; [|discriminate]. injection E as <-.
           apply IH in Er as (A1 & A2 & A3 & _); [|lia|lia|lia].
           destruct (G r' (cur + 1) (left - 1) cur eq_refl) as (B1 & B2 & B3); try lia; [auto|]. repeat (split; [assumption|]). intros _ z X. cbn in X. injection X as <-. reflexivity.
Qed.

Theorem cascades_spec n ls ks : cascades rnd eps n ls = Some ks ->
  length ks = length ls /\ (0 < length ls)%nat /\ (forall i z, ks !! i = Some z -> 0 <= z <= n - 1) /\
  (forall i j z z', (i <= j)%nat -> ks !! i = Some z -> ks !! j = Some z' -> z <= z') /\
  ((2 <= length ls)%nat -> ks !! 0%nat = Some 0) /\
  ks !! (length ls - 1)%nat = Some (n - 1).
Proof.
  unfold cascades. destruct (Z.leb_spec n 0); [discriminate|].
  destruct (casc_loop _ _ _ _ _ _ _ _ _ _) as [r|] eqn:E; [|discriminate].
  apply casc_loop_spec in E as (A1 & A2 & A3 & A4); [|lia|lia|lia].
  assert (Ne : (0 < length r)%nat -> Some (<[(length r - 1)%nat:=n - 1]> r) = Some ks -> 
    length ks = length ls /\ (0 < length ls)%nat /\ (forall i z, ks !! i = Some z -> 0 <= z <= n - 1) /\
    (forall i j z z', (i <= j)%nat -> ks !! i = Some z -> ks !! j = Some z' -> z <= z') /\
    ((2 <= length ls)%nat -> ks !! 0%nat = Some 0) /\ ks !! (length ls - 1)%nat = Some (n - 1)).
  { intros Ne [= <-]. rewrite insert_length. split; [exact A1|]. split; [lia|].
    assert (Lk : forall i z, <[(length r - 1)%nat:=n - 1]> r !! i = Some z ->
       (i = (length r - 1)%nat /\ z = n - 1) \/ (i <> (length r - 1)%nat /\ r !! i = Some z)).
    { intros i z H1. apply list_lookup_insert_Some in H1 as [(-> & -> & _)|[N H1]]; [left; auto|right; auto]. }
    split; [|split; [|split]].
    - intros i z H1. apply Lk in H1 as [[_ ->]|[_ H1]]; [lia|]. apply A2 in H1. lia.
    - intros i j z z' Hij H1 H2. apply Lk in H1 as [[-> ->]|[N1 H1]]; apply Lk in H2 as [[-> ->]|[N2 H2]].
      + lia.
      + apply lookup_lt_Some in H2. lia.
      + apply A2 in H1. lia.
      + eapply A3; eassumption.
    - intro L. rewrite list_lookup_insert_ne by lia. destruct (r !! 0%nat) as [z|] eqn:E0; [|apply lookup_ge_None in E0; lia].
      rewrite (A4 eq_refl z eq_refl). reflexivity.
    - rewrite <- A1. apply list_lookup_insert. lia. }
  intro E. destruct r; [discriminate|]. apply Ne; [cbn; lia|exact E].
Qed.

(** the division completes: the assertion on the first layer holds *)
Hypothesis RD : rounding rnd.
Hypothesis EP : (0 < eps)%Q.
Lemma rnd_0 x : (x == 0)%Q -> (rnd x == 0)%Q.
Proof.
  destruct RD as [R1 R2]. intro E. apply Qle_antisym.
  - rewrite <- R2. apply R1. rewrite E. apply Qle_refl.
  - rewrite <- R2. apply R1. rewrite E. apply Qle_refl.
Qed.
Lemma rnd_pos x : (0 <= x)%Q -> (0 <= rnd x)%Q.
Proof. destruct RD as [R1 R2]. intro H. rewrite <- R2. apply R1. exact H. Qed.
Lemma rnd_neg x : (x <= 0)%Q -> (rnd x <= 0)%Q.
Proof. destruct RD as [R1 R2]. intro H. rewrite <- R2. apply R1. exact H. Qed.
Lemma casc_loop_completes n : forall ls left cur sum tot avg, exists r, casc_loop rnd eps n false ls left cur sum tot avg = Some r.
Proof.
  induction ls as [|l ls IH]; intros; [eexists; reflexivity|]. cbn [casc_loop]. destruct (left <=? 1); [eauto|].
  destruct (gt_eps eps _).
  - edestruct IH as (r & ->). eauto.
  - destruct (gt_eps eps _); edestruct IH as (r & ->); eauto.
Qed.
Lemma lat_sum_pos : forall ls, (forall l, l ∈ ls -> (0 <= l)%Q) -> (0 <= lat_sum rnd ls)%Q.
Proof.
  unfold lat_sum. intro ls. assert (G : forall acc, (0 <= acc)%Q -> (forall l, l ∈ ls -> (0 <= l)%Q) -> (0 <= fold_left (fun acc l => rnd (acc + l)) ls acc)%Q).
  { induction ls as [|l ls IH]; intros acc Ha H; cbn [fold_left]; [exact Ha|]. apply IH; [|intros x Hx; apply H; right; exact Hx].
    apply rnd_pos. pose proof (H l ltac:(left)) as Hl. pose proof (Qplus_le_compat _ _ _ _ Ha Hl) as X. rewrite Qplus_0_l in X. exact X. }
  apply G. apply Qle_refl.
Qed.
Theorem cascades_complete n ls : 0 < n -> ls <> [] -> (forall l, l ∈ ls -> (0 <= l)%Q) -> (forall l, ls !! 0%nat = Some l -> (l == 0)%Q) ->
  exists ks, cascades rnd eps n ls = Some ks.
Proof.
  intros Hn Ne Hp Hf. unfold cascades. destruct (Z.leb_spec n 0); [lia|].
  enough (exists r, casc_loop rnd eps n true ls n 0 0 (lat_sum rnd ls) (rnd (lat_sum rnd ls / rnd (inject_Z n))) = Some r) as (r & E).
  { rewrite E. apply casc_loop_spec in E as (A1 & _); [|lia|lia|lia]. destruct ls; [congruence|]. destruct r; [discriminate|]. eauto. }
  assert (Av : (0 <= rnd (lat_sum rnd ls / rnd (inject_Z n)))%Q).
  { apply rnd_pos. unfold Qdiv. apply Qmult_le_0_compat; [apply lat_sum_pos; exact Hp|]. apply Qinv_le_0_compat. apply rnd_pos.
    change 0%Q with (inject_Z 0). rewrite <- Zle_Qle. lia. }
  set (tot := lat_sum rnd ls) in *. set (avg := rnd (tot / _)) in *. clearbody avg tot.
  destruct ls as [|l ls]; [congruence|]. specialize (Hf l eq_refl). cbn [casc_loop]. destruct (n <=? 1); [eauto|].
  destruct (gt_eps eps (rnd (avg - rnd (0 + l)))); [destruct (casc_loop_completes n ls n 0 (rnd (0 + l)) tot avg) as (r & ->); eauto|].
  assert (S0 : (rnd (0 + l) == 0)%Q) by (apply rnd_0; rewrite Qplus_0_l; exact Hf).
  assert (gt_eps eps (rnd (rnd (rnd (rnd (0 + l) - avg) - avg) + 0)) = false) as ->.
  { unfold gt_eps. apply negb_false_iff. apply Qle_bool_iff. apply Qle_trans with 0%Q; [|apply Qlt_le_weak; exact EP].
    assert (Ng : forall x, (x <= 0)%Q -> (x - avg <= 0)%Q).
    { intros x Hx. unfold Qminus. apply Qle_trans with (0 + - avg)%Q; [apply Qplus_le_l; exact Hx|]. rewrite Qplus_0_l.
      change 0%Q with (- 0)%Q. apply Qopp_le_compat. exact Av. }
    apply rnd_neg. rewrite Qplus_0_r. apply rnd_neg. apply Ng. apply rnd_neg. apply Ng. rewrite S0. apply Qle_refl. }
  edestruct casc_loop_completes as (r & ->). eauto.
Qed.
End Cascades.
