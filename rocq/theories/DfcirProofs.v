(** Basic facts about DFCIR programs, value resolution and the scheduling graph. *)
From Coq Require Import ZArith Bool Lia.
From stdpp Require Import list.
From Verif Require Import Types Value Graph Dfcir Sched SchedSpec SchedProofs.
Local Open Scope Z_scope.

Lemma in_find {A} (f : A -> bool) l x : List.find f l = Some x -> x ∈ l /\ f x = true.
Proof. intro H. apply List.find_some in H. rewrite elem_of_list_In. assumption. Qed.

Lemma defs_elem P v : v ∈ defs P <-> exists o k t l a, Def v o k t l a ∈ P.
Proof.
  unfold defs. rewrite elem_of_list_omap. split.
  - intros ([r o k t l a|d s] & H & E); [|discriminate]. injection E as ->. eauto 10.
  - intros (o & k & t & l & a & H). eexists. split; [exact H|reflexivity].
Qed.
Lemma dests_elem P v : v ∈ dests P <-> exists s, Con v s ∈ P.
Proof.
  unfold dests. rewrite elem_of_list_omap. split.
  - intros ([r o k t l a|d s] & H & E); [discriminate|]. injection E as ->. eauto 10.
  - intros (s & H). eexists. split; [exact H|reflexivity].
Qed.

Lemma def_of_in P v o k t l a : def_of P v = Some (o, k, t, l, a) -> Def v o k t l a ∈ P.
Proof.
  unfold def_of. destruct (List.find _ P) as [[r o' k' t' l' a'|]|] eqn:E; try discriminate.
  apply in_find in E as [H E]. apply Nat.eqb_eq in E as ->. intros [= -> -> -> -> ->]. assumption.
Qed.
Lemma def_unique P v o k t l a o' k' t' l' a' : NoDup (defs P) ->
  Def v o k t l a ∈ P -> Def v o' k' t' l' a' ∈ P -> (o', k', t', l', a') = (o, k, t, l, a).
Proof.
  induction P as [|s P IH]; intros ND H H'; [inversion H|].
  destruct s as [r o0 k0 t0 l0 a0|d v0].
  - cbn in ND. apply NoDup_cons in ND as [N1 N2].
    apply elem_of_cons in H as [H|H], H' as [H'|H'].
    + congruence.
    + exfalso. injection H as -> -> -> -> -> ->. apply N1. apply defs_elem. eauto 10.
    + exfalso. injection H' as -> -> -> -> -> ->. apply N1. apply defs_elem. eauto 10.
    + auto.
  - cbn in ND. apply elem_of_cons in H as [H|H]; [discriminate|].
    apply elem_of_cons in H' as [H'|H']; [discriminate|]. auto.
Qed.
Lemma def_of_def P v o k t l a : NoDup (defs P) -> Def v o k t l a ∈ P ->
  def_of P v = Some (o, k, t, l, a).
Proof.
  intros ND H. destruct (def_of P v) as [[[[[o' k'] t'] l'] a']|] eqn:E.
  - apply def_of_in in E. rewrite (def_unique P v o k t l a o' k' t' l' a' ND H E). reflexivity.
  - exfalso. unfold def_of in E.
    destruct (List.find _ P) as [[r o' k' t' l' a'|]|] eqn:E'; try discriminate E.
    + apply in_find in E' as [_ E']. discriminate E'.
    + rewrite elem_of_list_In in H. apply (List.find_none _ _ E') in H. cbn in H.
      rewrite Nat.eqb_refl in H. discriminate H.
Qed.
Lemma op_of_def P v o k t l a : NoDup (defs P) -> Def v o k t l a ∈ P -> op_of P v = Some o.
Proof. intros ND H. unfold op_of. rewrite (def_of_def _ _ _ _ _ _ _ ND H). reflexivity. Qed.
Lemma op_of_in P v o : op_of P v = Some o -> exists k t l a, Def v o k t l a ∈ P.
Proof.
  unfold op_of. destruct (def_of P v) as [[[[[o' k] t] l] a]|] eqn:E; [|discriminate].
  intros [= ->]. apply def_of_in in E. eauto.
Qed.

Lemma con_of_in P v s : con_of P v = Some s -> Con v s ∈ P.
Proof.
  unfold con_of. destruct (List.find _ (rev P)) as [[|d s']|] eqn:E; try discriminate.
  apply in_find in E as [H E]. apply Nat.eqb_eq in E as ->. intros [= ->].
  rewrite elem_of_list_In, <- in_rev, <- elem_of_list_In in H. assumption.
Qed.
Lemma con_of_none P v s : con_of P v = None -> Con v s ∉ P.
Proof.
  unfold con_of. destruct (List.find _ (rev P)) as [[|d s']|] eqn:E; try discriminate.
  - apply in_find in E as [_ E]. discriminate E.
  - intros _ H. rewrite elem_of_list_In in H. apply in_rev in H. apply (List.find_none _ _ E) in H.
    cbn in H. rewrite Nat.eqb_refl in H. discriminate H.
Qed.
Lemma con_unique P v s s' : NoDup (dests P) -> Con v s ∈ P -> Con v s' ∈ P -> s = s'.
Proof.
  induction P as [|x P IH]; intros ND H H'; [inversion H|].
  destruct x as [r o0 k0 t0 l0 a0|d v0].
  - apply elem_of_cons in H as [H|H]; [discriminate|].
    apply elem_of_cons in H' as [H'|H']; [discriminate|]. auto.
  - cbn in ND. apply NoDup_cons in ND as [N1 N2].
    apply elem_of_cons in H as [H|H], H' as [H'|H'].
    + congruence.
    + exfalso. injection H as -> ->. apply N1. apply dests_elem. eauto.
    + exfalso. injection H' as -> ->. apply N1. apply dests_elem. eauto.
    + auto.
Qed.
Lemma con_of_con P v s : NoDup (dests P) -> Con v s ∈ P -> con_of P v = Some s.
Proof.
  intros ND H. destruct (con_of P v) as [s'|] eqn:E.
  - apply con_of_in in E. f_equal. eapply con_unique; eauto.
  - exfalso. apply (con_of_none _ _ _ E H).
Qed.

Local Arguments nearest : simpl never.

(** ** Value resolution *)
Section Wf.
Variable P : program.
Hypothesis WF : wfp P.
Let ND := wp_defs P WF.

Lemma not_off_con d s : Con d s ∈ P -> forall e k t l a, Def d (DOffset e) k t l a ∉ P.
Proof.
  intros H e k t l a H'. destruct (wp_con P WF d s H) as (sc & name & k' & t' & l' & a' & H1).
  pose proof (def_unique _ _ _ _ _ _ _ _ _ _ _ _ ND H' H1). congruence.
Qed.

(** one step of resolution *)
Inductive hop : nat -> nat -> Z -> Prop :=
| hop_off v d k t l s : Def v (DOffset d) k t l [s] ∈ P -> hop v s (wrap32 d)
| hop_con v s : Con v s ∈ P -> hop v s 0.
Inductive hops : nat -> nat -> Z -> Prop :=
| hops_nil v : hops v v 0
| hops_cons v s d u e : hop v s d -> hops s u e -> hops v u (d + e).

(** a value at which resolution stops *)
Definition final (v : nat) : Prop :=
  con_of P v = None /\ forall d k t l a, Def v (DOffset d) k t l a ∉ P.

Lemma resolve_hops : forall f v acc s off, resolve P f v acc = Some (s, off) ->
  final s /\ exists d, off = acc + d /\ hops v s d.
Proof.
  induction f as [|f IH]; intros v acc s off E; [discriminate|].
  cbn in E. 
  assert (X : match con_of P v with Some s0 => resolve P f s0 acc | None => Some (v, acc) end = Some (s, off) ->
     (forall d k t l a, Def v (DOffset d) k t l a ∉ P) -> final s /\ exists d, off = acc + d /\ hops v s d).
  { intros HE HN. destruct (con_of P v) eqn:Ec.
    - destruct (IH _ _ _ _ HE) as (F & d & -> & H). split; [assumption|]. exists (0 + d). split; [lia|].
      econstructor; [|exact H]. apply hop_con. apply con_of_in. assumption.
    - injection HE as <- <-. split; [split; assumption|]. exists 0. split; [lia|constructor]. }
  destruct (def_of P v) as [[[[[o k] t] l] a]|] eqn:Ed.
  - assert (Hop : op_of P v = Some o) by (unfold op_of; rewrite Ed; reflexivity). rewrite Hop in E.
    pose proof (def_of_in _ _ _ _ _ _ _ Ed) as Hd.
    destruct o as [| | |d0| | | | | | | | |];
      try (apply X; [exact E|]; intros d1 k1 t1 l1 a1 H; 
           pose proof (def_unique _ _ _ _ _ _ _ _ _ _ _ _ ND Hd H); congruence).
    pose proof (wp_off P WF _ _ _ _ _ _ Hd) as La.
    destruct a as [|a0 [|]]; cbn in La; try lia. clear La.
    destruct (i32 (acc + wrap32 d0)) as [acc'|] eqn:E32; [|discriminate]. apply i32_some in E32 as [-> _].
    destruct (con_of P a0) as [s'|] eqn:Ec.
    + destruct (IH _ _ _ _ E) as (F & d & -> & H). split; [assumption|]. exists (wrap32 d0 + (0 + d)). split; [lia|].
      econstructor; [eapply hop_off; eassumption|]. econstructor; [apply hop_con, con_of_in; eassumption|assumption].
    + destruct (IH _ _ _ _ E) as (F & d & -> & H). split; [assumption|]. exists (wrap32 d0 + d). split; [lia|].
      econstructor; [eapply hop_off; eassumption|]. assumption.
  - assert (Hop : op_of P v = None) by (unfold op_of; rewrite Ed; reflexivity). rewrite Hop in E.
    apply X; [exact E|]. intros d1 k1 t1 l1 a1 H. rewrite (def_of_def _ _ _ _ _ _ _ ND H) in Ed. discriminate.
Qed.

Lemma nearest_hops v s off : nearest P v = Some (s, off) -> final s /\ hops v s off.
Proof.
  intro E. destruct (resolve_hops _ _ _ _ _ E) as (F & d & -> & H). split; [assumption|].
  replace (0 + d) with d by lia. assumption.
Qed.

(** ** Facts about the constructed graph *)

(** the channel a statement asks for *)
Inductive chan_of (c : schan) : stmt -> Prop :=
| co_op r o k t l args i a : is_oper o = true -> args !! i = Some a ->
    nearest P a = Some (sc_src c, sc_off c) -> sc_tgt c = r -> sc_ind c = wrap8 (Z.of_nat i) ->
    chan_of c (Def r o k t l args)
| co_con d v sc name : op_of P d = Some (DOut sc name) -> nearest P v = Some (sc_src c, sc_off c) ->
    sc_tgt c = d -> sc_ind c = -1 -> chan_of c (Con d v).

Definition node_ids (Q : program) : list nat :=
  omap (fun s => match s with Def _ (DOffset _) _ _ _ _ => None | Def r _ _ _ _ _ => Some r | Con _ _ => None end) Q.

Lemma op_chans_spec done tgt : forall args i cs, op_chans P done tgt (Z.of_nat i) args = Some cs ->
  (forall c, c ∈ cs -> exists j a, args !! j = Some a /\ nearest P a = Some (sc_src c, sc_off c) /\
      sc_tgt c = tgt /\ sc_ind c = wrap8 (Z.of_nat (i + j)) /\ sc_src c ∈ done) /\
  (forall j a, args !! j = Some a -> exists s off, nearest P a = Some (s, off) /\ 
      mkSChan s tgt (wrap8 (Z.of_nat (i + j))) off ∈ cs).
Proof.
  induction args as [|a args IH]; intros i cs E; cbn in E.
  - injection E as <-. split; [intros c H; inversion H|]. intros j a H. rewrite lookup_nil in H. discriminate.
  - destruct (nearest P a) as [[s off]|] eqn:En; [|discriminate].
    destruct (bool_decide (s ∈ done)) eqn:Eb; [|discriminate]. apply bool_decide_eq_true in Eb.
    destruct (op_chans P done tgt (Z.of_nat i + 1) args) as [l|] eqn:El; [|discriminate].
    injection E as <-. replace (Z.of_nat i + 1) with (Z.of_nat (S i)) in El by lia.
    destruct (IH (S i) l El) as [A B]. split.
    + intros c Hc. apply elem_of_cons in Hc as [->|Hc].
      * exists 0%nat, a. cbn. rewrite Nat.add_0_r. auto.
      * destruct (A c Hc) as (j & a' & X1 & X2 & X3 & X4 & X5). exists (S j), a'. cbn.
        rewrite <- Nat.add_succ_comm. auto.
    + intros j a' Hj. destruct j as [|j]; cbn in Hj.
      * injection Hj as <-. exists s, off. split; [assumption|]. rewrite Nat.add_0_r. left.
      * destruct (B j a' Hj) as (s' & off' & X1 & X2). exists s', off'. split; [assumption|].
        rewrite <- Nat.add_succ_comm. right. assumption.
Qed.

Lemma construct_spec : forall rest done ns cs, (forall s, s ∈ rest -> s ∈ P) -> construct P done rest = Some (ns, cs) ->
  map s_id ns = node_ids rest /\
  (forall n, n ∈ ns -> exists k t l a, Def (s_id n) (s_op n) k t l a ∈ rest /\ 
      s_lat n = (if is_scheduled (s_op n) then l else 0)) /\
  (forall c, c ∈ cs -> exists s, s ∈ rest /\ chan_of c s) /\
  (forall r o k t l args i a, Def r o k t l args ∈ rest -> is_oper o = true -> args !! i = Some a ->
     exists s off, nearest P a = Some (s, off) /\ mkSChan s r (wrap8 (Z.of_nat i)) off ∈ cs) /\
  (forall d v, Con d v ∈ rest -> is_Some (con_of P d) -> 
     exists s off, nearest P v = Some (s, off) /\ mkSChan s d (-1) off ∈ cs) /\
  (forall c, c ∈ cs -> (sc_src c ∈ map s_id ns ++ done) /\ (sc_tgt c ∈ map s_id ns ++ done) /\
     (is_Some (con_of P (sc_tgt c)) \/ sc_src c = sc_tgt c \/
      (sc_src c ∈ done /\ sc_tgt c ∈ map s_id ns) \/
      exists l1 l2, map s_id ns = l1 ++ sc_src c :: l2 /\ sc_tgt c ∈ l2)).
Proof.
  induction rest as [|s rest IH]; intros done ns cs Sub E.
  - cbn in E. injection E as <- <-. split; [reflexivity|].
    repeat (split; [intros; match goal with H : _ ∈ [] |- _ => inversion H end|]).
    intros; match goal with H : _ ∈ [] |- _ => inversion H end.
  - cbn in E. destruct (process P done s) as [[n1 c1]|] eqn:Ep; [|discriminate].
    destruct (construct P (map s_id n1 ++ done) rest) as [[n2 c2]|] eqn:Ec; [|discriminate].
    injection E as <- <-. destruct (IH _ _ _ (fun s' H => Sub s' (elem_of_list_further _ _ _ H)) Ec) as (A0 & A1 & A2 & A3 & A4 & A5).
    assert (K : map s_id n1 = node_ids [s] /\
      (forall n, n ∈ n1 -> exists k t l a, Def (s_id n) (s_op n) k t l a = s /\ 
          s_lat n = (if is_scheduled (s_op n) then l else 0)) /\
      (forall c, c ∈ c1 -> chan_of c s /\ (sc_src c ∈ map s_id n1 ++ done) /\ sc_tgt c ∈ map s_id n1 ++ done /\
         (is_Some (con_of P (sc_tgt c)) \/ sc_src c = sc_tgt c \/ (sc_src c ∈ done /\ sc_tgt c ∈ map s_id n1))) /\
      (forall r o k t l args i a, Def r o k t l args = s -> is_oper o = true -> args !! i = Some a ->
        exists s off, nearest P a = Some (s, off) /\ mkSChan s r (wrap8 (Z.of_nat i)) off ∈ c1) /\
      (forall d v, Con d v = s -> is_Some (con_of P d) -> 
        exists s off, nearest P v = Some (s, off) /\ mkSChan s d (-1) off ∈ c1)).
    { destruct s as [r o k t l args|d v].
      - assert (Hoper : is_oper o = true -> exists cs', op_chans P (r :: done) r 0 args = Some cs' /\
            n1 = [mkSNode r o (if is_scheduled o then l else 0)] /\ c1 = cs').
        { intro H. destruct o; cbn in H; try discriminate H; cbn in Ep;
            (destruct (op_chans P (r :: done) r 0 args) as [cs'|] eqn:Eo; [|discriminate Ep]);
            injection Ep as <- <-; eauto. }
        destruct (is_oper o) eqn:Eo.
        + destruct (Hoper eq_refl) as (cs' & H1 & -> & ->).
          destruct (op_chans_spec (r :: done) r args 0 cs' H1) as [B1 B2]. cbn.
          split; [destruct o; try discriminate Eo; reflexivity|]. split.
          { intros n Hn. apply elem_of_list_singleton in Hn as ->. cbn. eauto 10. }
          split.
          { intros c Hc. destruct (B1 c Hc) as (j & a & X1 & X2 & X3 & X4 & X5). split.
            - econstructor; eauto.
            - split; [assumption|]. rewrite X3. split; [left|]. right.
              apply elem_of_cons in X5 as [X5|X5]; [left; assumption|right]. split; [assumption|left]. }
          split.
          { intros r' o' k' t' l' args' i a [= -> -> -> -> -> ->] _ Ha. apply (B2 i a Ha). }
          intros d v H. discriminate.
        + assert (c1 = [] /\ map s_id n1 = node_ids [Def r o k t l args] /\ 
                  (forall n, n ∈ n1 -> n = mkSNode r o 0) /\ is_scheduled o = false) as (-> & H2 & H3 & H4).
          { destruct o; try discriminate Eo; cbn in Ep; injection Ep as <- <-;
              (split; [reflexivity|split; [reflexivity|split; [|reflexivity]]]);
              intros n Hn; try (apply elem_of_list_singleton in Hn; exact Hn); inversion Hn. }
          split; [assumption|]. split.
          { intros n Hn. rewrite (H3 n Hn). cbn. rewrite H4. eauto 10. }
          split; [intros c Hc; inversion Hc|]. split.
          { intros r' o' k' t' l' args' i a [= -> -> -> -> -> ->] Ho. congruence. }
          intros d v H. discriminate.
      - cbn in Ep. 
        assert (Hn : n1 = [] /\ forall c, c ∈ c1 -> exists sc name, op_of P d = Some (DOut sc name) /\
            nearest P v = Some (sc_src c, sc_off c) /\ sc_tgt c = d /\ sc_ind c = -1 /\ sc_src c ∈ done /\ d ∈ done).
        { destruct (op_of P d) as [[| | | | | | | | | | | |]|] eqn:Eod; try (injection Ep as <- <-; split; [reflexivity|intros c Hc; inversion Hc]).
          destruct (nearest P v) as [[s off]|] eqn:En; [|discriminate].
          destruct (bool_decide (s ∈ done)) eqn:Eb1; [|discriminate].
          destruct (bool_decide (d ∈ done)) eqn:Eb2; [|discriminate].
          apply bool_decide_eq_true in Eb1, Eb2. cbn in Ep. injection Ep as <- <-. split; [reflexivity|].
          intros c Hc. apply elem_of_list_singleton in Hc as ->. cbn. eauto 10. }
        destruct Hn as [-> Hn]. cbn. split; [reflexivity|]. split; [intros n Hn'; inversion Hn'|]. split.
        { intros c Hc. destruct (Hn c Hc) as (sc & name & X1 & X2 & X3 & X4 & X5 & X6). split; [econstructor; eauto|].
          split; [assumption|]. rewrite X3. split; [assumption|]. left.
          rewrite (con_of_con P d v (wp_dests P WF)); [eauto|]. apply Sub. left. }
        split; [intros; discriminate|].
        intros d' v' [= -> ->] [s' Hs]. apply con_of_in in Hs.
        destruct (wp_con P WF _ _ Hs) as (sc & name & k' & t' & l' & a' & H1).
        rewrite (op_of_def _ _ _ _ _ _ _ ND H1) in Ep.
        destruct (nearest P v) as [[s off]|] eqn:En; [|discriminate].
        destruct (bool_decide (s ∈ done) && _) eqn:Eb1; [|discriminate].
        injection Ep as <-. exists s, off. split; [reflexivity|left]. }
    destruct K as (K0 & K1 & K2 & K3 & K4).
    assert (MA : map s_id (n1 ++ n2) = map s_id n1 ++ map s_id n2) by apply map_app.
    split. { rewrite MA, K0, A0. unfold node_ids. rewrite <- omap_app. reflexivity. }
    split. { intros n Hn. apply elem_of_app in Hn as [Hn|Hn].
      - destruct (K1 n Hn) as (k & t & l & a & <- & E'). exists k, t, l, a. split; [left|assumption].
      - destruct (A1 n Hn) as (k & t & l & a & H & E'). exists k, t, l, a. split; [right; assumption|assumption]. }
    split. { intros c Hc. apply elem_of_app in Hc as [Hc|Hc].
      - exists s. split; [left|]. apply (K2 c Hc).
      - destruct (A2 c Hc) as (s' & H1 & H2). exists s'. split; [right; assumption|assumption]. }
    split. { intros r o k t l args i a H Ho Ha. apply elem_of_cons in H as [H|H].
      - destruct (K3 _ _ _ _ _ _ _ _ H Ho Ha) as (s' & off & X1 & X2). exists s', off. split; [assumption|].
        apply elem_of_app. left. assumption.
      - destruct (A3 _ _ _ _ _ _ _ _ H Ho Ha) as (s' & off & X1 & X2). exists s', off. split; [assumption|].
        apply elem_of_app. right. assumption. }
    split. { intros d v H Ho. apply elem_of_cons in H as [H|H].
      - destruct (K4 _ _ H Ho) as (s' & off & X1 & X2). exists s', off. split; [assumption|].
        apply elem_of_app. left. assumption.
      - destruct (A4 _ _ H Ho) as (s' & off & X1 & X2). exists s', off. split; [assumption|].
        apply elem_of_app. right. assumption. }
    intros c Hc. rewrite MA. apply elem_of_app in Hc as [Hc|Hc].
    + destruct (K2 c Hc) as (_ & X1 & X2 & X3). rewrite !elem_of_app in *. split; [tauto|]. split; [tauto|].
      destruct X3 as [X3|[X3|[X3 X4]]]; [tauto|tauto|]. right. right. left. split; [assumption|]. left. assumption.
    + destruct (A5 c Hc) as (X1 & X2 & X3). rewrite !elem_of_app in *. split; [tauto|]. split; [tauto|].
      destruct X3 as [X3|[X3|[[X3 X4]|(l1 & l2 & X3 & X4)]]]; [tauto|tauto| |].
      * destruct X3 as [X3|X3]; [|right; right; left; split; [assumption|right; assumption]].
        right. right. right. apply elem_of_list_split in X3 as (m1 & m2 & ->).
        exists m1, (m2 ++ map s_id n2). rewrite <- app_assoc. split; [reflexivity|].
        apply elem_of_app. right. assumption.
      * right. right. right. exists (map s_id n1 ++ l1), l2. rewrite X3, <- app_assoc. auto.
Qed.

Lemma node_ids_defs Q : forall x, x ∈ node_ids Q -> x ∈ defs Q.
Proof.
  intros x H. unfold node_ids in H. apply elem_of_list_omap in H as (s & Hs & E).
  destruct s as [r o k t l a|]; [|discriminate]. apply defs_elem. exists o, k, t, l, a.
  destruct o; try discriminate E; injection E as <-; assumption.
Qed.
Lemma node_ids_nodup Q : NoDup (defs Q) -> NoDup (node_ids Q).
Proof.
  induction Q as [|s Q IH]; intro N; [constructor|].
  destruct s as [r o k t l a|d v]; [|exact (IH N)].
  cbn in N. apply NoDup_cons in N as [N1 N2].
  assert (X : NoDup (r :: node_ids Q)).
  { apply NoDup_cons. split; [|auto]. intro H. apply N1. apply node_ids_defs. assumption. }
  destruct o; try exact X. exact (IH N2).
Qed.

Lemma app_split_unique {A} (l1 l2 m1 m2 : list A) x : NoDup (l1 ++ x :: l2) ->
  l1 ++ x :: l2 = m1 ++ x :: m2 -> l1 = m1 /\ l2 = m2.
Proof.
  revert m1. induction l1 as [|a l1 IH]; intros m1 N E.
  - destruct m1 as [|b m1]; [injection E as ->; auto|]. cbn in N, E. injection E as <- ->.
    apply NoDup_cons in N as [N _]. exfalso. apply N. apply elem_of_app. right. left.
  - destruct m1 as [|b m1]; cbn in N, E.
    + injection E as -> <-. apply NoDup_cons in N as [N _]. exfalso. apply N. apply elem_of_app. right. left.
    + injection E as <- E. apply NoDup_cons in N as [_ N]. destruct (IH m1 N E) as [-> ->]. auto.
Qed.

Lemma chan_src_final c : forall s, chan_of c s -> final (sc_src c).
Proof. intros s H. destruct H; eapply nearest_hops; eassumption. Qed.

(** every constructed graph has the shape the ASAP theorems need *)
Theorem sgraph_ordered ns cs : sgraph P = Some (ns, cs) -> ordered ns cs.
Proof.
  intro E. unfold sgraph in E.
  destruct (construct_spec P [] ns cs (fun s H => H) E) as (A0 & A1 & A2 & A3 & A4 & A5).
  assert (NI : NoDup (map s_id ns)) by (rewrite A0; apply node_ids_nodup; exact ND).
  constructor; [assumption| | |].
  - intros c Hc. destruct (A5 c Hc) as (X & _). rewrite app_nil_r in X. assumption.
  - intros c Hc. destruct (A5 c Hc) as (_ & X & _). rewrite app_nil_r in X. assumption.
  - intros c l1 l2 Hc EQ. destruct (A5 c Hc) as (_ & _ & X). destruct X as [[s X]|[X|[[X _]|(m1 & m2 & X1 & X2)]]].
    + right. intros c' Hc' E'. destruct (A2 c' Hc') as (st & _ & H'). apply chan_src_final in H' as [H' _].
      rewrite E' in H'. congruence.
    + left. rewrite X. left.
    + inversion X.
    + left. right. rewrite EQ in NI. rewrite EQ in X1. destruct (app_split_unique _ _ _ _ _ NI X1) as [_ ->]. assumption.
Qed.
End Wf.
