(** Proofs about [TopSort.top_sort]. *)
From Coq Require Import List Arith Lia Relations Permutation.
From Verif Require Import TopSort.
Import ListNotations.

Section TS.
Variable outs : nat -> list nat.

Definition edge (a b : nat) : Prop := In b (outs a).
Definition path := clos_trans nat edge.

(** [scan] characterisation. *)
Lemma cset_same m k v : cset m k v k = Some v.
Proof. unfold cset. now rewrite Nat.eqb_refl. Qed.
Lemma cset_other m k v x : x <> k -> cset m k v x = m x.
Proof. intros H. unfold cset. apply Nat.eqb_neq in H. now rewrite H. Qed.

Definition dom (m : cmap) (x : nat) : Prop := m x <> None.

Lemma dom_cset m k v x : dom (cset m k v) x <-> x = k \/ dom m x.
Proof.
  unfold dom, cset. destruct (Nat.eqb_spec x k) as [->|Hn].
  - split; [auto|discriminate].
  - split; [auto|]. intros [->|H]; [congruence|exact H].
Qed.

Lemma scan_spec node : forall rest m m' o,
  dom m node ->
  scan node rest m = (m', o) ->
  match o with
  | None => (forall x, dom m' x <-> dom m x) /\ (forall t, In t rest -> dom m t)
            /\ cget m' node = cget m node + length rest
  | Some t => ~ dom m t /\ (forall x, dom m' x <-> x = t \/ dom m x)
              /\ exists k, k < length rest /\ nth_error rest k = Some t
                 /\ (forall u, In u (firstn k rest) -> dom m u)
                 /\ cget m' node = cget m node + S k
                 /\ m' t = Some 0
  end
  /\ (forall x, x <> node -> dom m x -> m' x = m x).
Proof.
  induction rest as [|t rest IH]; intros m m' o Hd H; cbn [scan] in H.
  - injection H as <- <-. split; [|auto]. split; [tauto|]. split; [intros t []|cbn; lia].
  - destruct (m t) as [v|] eqn:E.
    + assert (Hd' : dom (cset m node (S (cget m node))) node) by (apply dom_cset; auto).
      specialize (IH _ _ _ Hd' H). destruct IH as [IH Hoth].
      assert (Hdd : forall x, dom (cset m node (S (cget m node))) x <-> dom m x).
      { intros x. rewrite dom_cset. split; [intros [->|]; auto|auto]. }
      assert (Hc : cget (cset m node (S (cget m node))) node = S (cget m node)).
      { unfold cget at 1. now rewrite cset_same. }
      split.
      * destruct o as [u|].
        -- destruct IH as (Hnu & Hdom & k & Hk & Hnth & Hbef & Hcg & Hz).
           split; [rewrite <- Hdd; exact Hnu|]. split.
           ++ intros x. rewrite Hdom, Hdd. tauto.
           ++ exists (S k). cbn [length nth_error firstn]. split; [lia|]. split; [exact Hnth|].
              split; [|split; [lia|exact Hz]].
              intros w [<-|Hw]; [unfold dom; congruence|]. apply Hdd. auto.
        -- destruct IH as (Hdom & Hall & Hcg). split; [intros x; rewrite Hdom, Hdd; tauto|].
           split; [|cbn [length]; lia].
           intros w [<-|Hw]; [unfold dom; congruence|]. apply Hdd. auto.
      * intros x Hx Hdx. rewrite Hoth; [apply cset_other; auto|auto|]. apply Hdd; auto.
    + assert (Hne : t <> node) by (intros ->; apply Hd; auto).
      injection H as <- <-. split.
      * split; [unfold dom; congruence|]. split.
        -- intros x. rewrite !dom_cset. intuition subst; auto.
        -- exists 0. cbn [length nth_error firstn]. split; [lia|]. split; [auto|].
           split; [intros u []|]. split.
           ++ unfold cget. rewrite cset_same, cset_other by auto.
              unfold dom in Hd. destruct (m node); [lia|congruence].
           ++ rewrite cset_other by auto. apply cset_same.
      * intros x Hx Hdx. rewrite cset_other by auto. apply cset_other. congruence.
Qed.

(** Loop invariant. *)
Variable nodes : list nat.
Variable starts : list nat.
Hypothesis Hclosed : forall a b, In a nodes -> edge a b -> In b nodes.
Hypothesis Hstarts_in : forall s, In s starts -> In s nodes.
Hypothesis Hstarts_nd : NoDup starts.
Hypothesis Hnodes_nd : NoDup nodes.

Record Inv (stack : list nat) (m : cmap) (i : nat) (res : list nat) : Prop := {
  inv_dom : forall x, dom m x <-> In x stack \/ In x res;
  inv_nd : NoDup (stack ++ res);
  inv_in : forall x, In x stack \/ In x res -> In x nodes;
  inv_len : i + length res = length nodes;
  inv_scanned : forall x, In x stack -> cget m x <= length (outs x) /\
                   forall t, In t (firstn (cget m x) (outs x)) -> dom m t;
  inv_fin : forall x t, In x res -> edge x t -> dom m t;
  inv_reach : forall x, In x stack \/ In x res ->
                In x starts \/ exists s, In s starts /\ path s x;
  inv_starts : forall s, In s starts -> dom m s;
  (* anything on the stack which is not a start reaches everything above it *)
  inv_path : forall a t b, stack = a ++ t :: b -> ~ In t starts ->
               forall x, In x a -> path t x;
  (* the finished part is ordered, unless the graph has a cycle or a start has
     an incoming edge *)
  inv_topo : (forall n, ~ path n n) -> (forall a s, In s starts -> ~ edge a s) ->
             forall a x b t, res = a ++ x :: b -> edge x t -> In t b
}.

Lemma firstn_add_one {A} (l : list A) n k x :
  nth_error (skipn n l) k = Some x ->
  firstn (n + S k) l = firstn n l ++ firstn k (skipn n l) ++ [x].
Proof.
  revert l. induction n as [|n IH]; intros l H.
  - cbn [skipn firstn app Nat.add] in *. revert l H. induction k as [|k IHk]; intros [|y l] H; cbn in H |- *; try discriminate.
    + injection H as ->. reflexivity.
    + f_equal. now apply IHk.
  - destruct l as [|y l]; cbn [skipn] in H; [destruct k; discriminate|].
    cbn [firstn app skipn Nat.add]. f_equal. now apply IH.
Qed.

Lemma Inv_step_push stack' m i res node m' t :
  Inv (node :: stack') m i res ->
  scan node (skipn (cget m node) (outs node)) m = (m', Some t) ->
  Inv (t :: node :: stack') m' i res.
Proof.
  intros I Hs.
  assert (Hdn : dom m node) by (apply (inv_dom _ _ _ _ I); left; now left).
  apply scan_spec in Hs; [|exact Hdn]. destruct Hs as ((Hnt & Hdom & k & Hk & Hnth & Hbef & Hcg & Hz) & Hoth).
  assert (Het : edge node t).
  { unfold edge. rewrite <- (firstn_skipn (cget m node) (outs node)). apply in_or_app. right.
    eapply nth_error_In; eauto. }
  assert (Hnode_in : In node nodes) by (apply (inv_in _ _ _ _ I); left; now left).
  constructor.
  - intros x. rewrite Hdom, (inv_dom _ _ _ _ I). cbn [In]. intuition auto.
  - cbn [app]. constructor; [|apply (inv_nd _ _ _ _ I)].
    intros H. apply Hnt. apply (inv_dom _ _ _ _ I). apply (in_app_or (node :: stack') res). exact H.
  - intros x [[<-|H]|H]; [eapply Hclosed; eauto| |]; apply (inv_in _ _ _ _ I); auto.
  - apply (inv_len _ _ _ _ I).
  - intros x [<-|H].
    + unfold cget. rewrite Hz. cbn. split; [lia|intros ? []].
    + destruct (Nat.eq_dec x node) as [->|Hxn].
      * destruct (inv_scanned _ _ _ _ I node (or_introl eq_refl)) as [Hle Hprev].
        rewrite Hcg. split.
        -- rewrite skipn_length in Hk. lia.
        -- intros u Hu. rewrite (firstn_add_one _ _ _ _ Hnth) in Hu.
           apply in_app_or in Hu as [Hu|Hu]; [apply Hdom; right; auto|].
           apply in_app_or in Hu as [Hu|[<-|[]]]; apply Hdom; [right|left]; auto.
      * assert (Hdx : dom m x) by (apply (inv_dom _ _ _ _ I); auto).
        unfold cget. rewrite (Hoth x Hxn Hdx). fold (cget m x).
        destruct (inv_scanned _ _ _ _ I x H) as [Hle Hprev]. split; [exact Hle|].
        intros u Hu. apply Hdom. right. auto.
  - intros x u Hx Hu. apply Hdom. right. eapply inv_fin; eauto.
  - intros x Hx.
    assert (Hold : In x (node :: stack') \/ In x res ->
                   In x starts \/ exists s, In s starts /\ path s x) by apply (inv_reach _ _ _ _ I).
    destruct Hx as [[<-|H]|H]; auto. right.
    destruct (inv_reach _ _ _ _ I node (or_introl (or_introl eq_refl))) as [Hs|(s & Hs & Hp)].
    + exists node. split; [exact Hs|now constructor].
    + exists s. split; [exact Hs|]. eapply t_trans; [exact Hp|now constructor].
  - intros s Hs. apply Hdom. right. eapply inv_starts; eauto.
  - intros a u b Heq Hns x Hx. destruct a as [|a0 a]; [destruct Hx|].
    cbn [app] in Heq. injection Heq as <- Heq.
    assert (Hpre : forall y, In y a -> path u y) by (intros y; eapply inv_path; eauto).
    destruct Hx as [<-|Hx]; [|auto].
    destruct a as [|a0 a]; cbn [app] in Heq; injection Heq as <- Heq.
    + now constructor.
    + eapply t_trans; [apply Hpre; now left|now constructor].
  - apply (inv_topo _ _ _ _ I).
Qed.

Lemma Inv_step_pop stack' m i res node m' :
  Inv (node :: stack') m (S i) res ->
  scan node (skipn (cget m node) (outs node)) m = (m', None) ->
  Inv stack' m' i (node :: res).
Proof.
  intros I Hs.
  assert (Hdn : dom m node) by (apply (inv_dom _ _ _ _ I); left; now left).
  apply scan_spec in Hs; [|exact Hdn]. destruct Hs as ((Hdom & Hall & Hcg) & Hoth).
  assert (Hout : forall t, edge node t -> dom m t).
  { intros t Ht. unfold edge in Ht. rewrite <- (firstn_skipn (cget m node) (outs node)) in Ht.
    apply in_app_or in Ht as [Ht|Ht]; [|auto].
    eapply (inv_scanned _ _ _ _ I node); [now left|exact Ht]. }
  pose proof (inv_nd _ _ _ _ I) as Hnd. cbn [app] in Hnd. apply NoDup_cons_iff in Hnd as [Hnin Hnd].
  constructor.
  - intros x. rewrite Hdom, (inv_dom _ _ _ _ I). cbn [In]. intuition auto.
  - apply (Permutation_NoDup (Permutation_middle _ _ _)). constructor; auto.
  - intros x Hx. apply (inv_in _ _ _ _ I). cbn [In] in *. intuition auto.
  - pose proof (inv_len _ _ _ _ I). cbn [length]. lia.
  - intros x H. assert (Hxn : x <> node) by (intros ->; apply Hnin; apply in_or_app; auto).
    assert (Hdx : dom m x) by (apply (inv_dom _ _ _ _ I); left; now right).
    unfold cget. rewrite (Hoth x Hxn Hdx). fold (cget m x).
    destruct (inv_scanned _ _ _ _ I x (or_intror H)) as [Hle Hprev]. split; [exact Hle|].
    intros u Hu. apply Hdom. auto.
  - intros x u [<-|Hx] Hu; apply Hdom; [auto|]. eapply inv_fin; eauto.
  - intros x Hx. apply (inv_reach _ _ _ _ I). cbn [In] in *. intuition auto.
  - intros s Hs. apply Hdom. eapply inv_starts; eauto.
  - intros a u b Heq Hns x Hx. eapply (inv_path _ _ _ _ I (node :: a)); [cbn [app]; rewrite Heq; reflexivity|auto|now right].
  - intros Hacy Hsrc a x b t Heq Ht.
    destruct a as [|a0 a]; cbn [app] in Heq; injection Heq as <- Heq.
    + subst b. specialize (Hout t Ht). apply (inv_dom _ _ _ _ I) in Hout as [Hst|Hr]; [|exact Hr].
      exfalso.
      assert (Hts : ~ In t starts) by (intros Hs; eapply Hsrc; eauto).
      destruct (in_split _ _ Hst) as (a & b & Hab). destruct a as [|a0 a]; cbn [app] in Hab; injection Hab as Hn Hab.
      * subst. eapply Hacy. constructor. exact Ht.
      * subst a0. apply (Hacy t). eapply t_trans; [|constructor; exact Ht].
        eapply (inv_path _ _ _ _ I (node :: a) t b); [cbn [app]; now rewrite Hab|auto|now left].
    + eapply (inv_topo _ _ _ _ I); eauto.
Qed.

Lemma ts_init_spec : forall l st m,
  fold_left (fun (sm : list nat * cmap) s => (s :: fst sm, cset (snd sm) s 0)) l (st, m)
  = (rev l ++ st, fold_left (fun m s => cset m s 0) l m).
Proof.
  induction l as [|s l IH]; intros st m; cbn [fold_left rev app fst snd]; [reflexivity|].
  rewrite IH, <- app_assoc. reflexivity.
Qed.

Lemma fold_cset_dom : forall l m x,
  dom (fold_left (fun m s => cset m s 0) l m) x <-> In x l \/ dom m x.
Proof.
  induction l as [|s l IH]; intros m x; cbn [fold_left In]; [tauto|].
  rewrite IH, dom_cset. intuition auto.
Qed.

Lemma fold_cset_zero : forall l m x, (forall y, m y = None \/ m y = Some 0) ->
  fold_left (fun m s => cset m s 0) l m x = None \/
  fold_left (fun m s => cset m s 0) l m x = Some 0.
Proof.
  induction l as [|s l IH]; intros m x Hm; cbn [fold_left]; [apply Hm|].
  apply IH. intros y. unfold cset. destruct (Nat.eqb y s); auto.
Qed.

Lemma Inv_init : let (st, m) := ts_init starts in Inv st m (length nodes) [].
Proof.
  unfold ts_init. rewrite ts_init_spec, app_nil_r.
  set (m := fold_left (fun m s => cset m s 0) starts cempty).
  assert (Hd : forall x, dom m x <-> In x starts).
  { intros x. unfold m. rewrite fold_cset_dom. unfold dom, cempty. intuition congruence. }
  assert (Hz : forall x, cget m x = 0).
  { intros x. unfold cget. destruct (fold_cset_zero starts cempty x) as [E|E];
      [left; reflexivity| |]; fold m in E; now rewrite E. }
  constructor.
  - intros x. rewrite Hd, <- in_rev. cbn. tauto.
  - rewrite app_nil_r. apply NoDup_rev. exact Hstarts_nd.
  - intros x [H|[]]. apply Hstarts_in. now apply in_rev.
  - cbn; lia.
  - intros x _. rewrite Hz. cbn. split; [lia|intros ? []].
  - intros x t [].
  - intros x [H|[]]. left. now apply in_rev.
  - intros s Hs. now apply Hd.
  - intros a t b Heq Hns. exfalso. apply Hns. apply in_rev. rewrite Heq. apply in_or_app. right. now left.
  - intros _ _ a x b t Heq. destruct a; discriminate.
Qed.

Lemma ts_loop_spec : forall fuel stack m i res,
  Inv stack m i res ->
  2 * length nodes + 1 <= fuel + (2 * length res + length stack) ->
  match ts_loop outs fuel stack m i res with
  | TSOk r => exists m', Inv [] m' 0 r
  | TSAssert => exists m' i' r, Inv [] m' (S i') r
  | TSFuel => False
  end.
Proof.
  induction fuel as [|fuel IH]; intros stack m i res I Hf.
  - destruct stack as [|node stack']; cbn [ts_loop].
    + destruct i; [exists m; exact I|exists m, i, res; exact I].
    + assert (Hle : length ((node :: stack') ++ res) <= length nodes).
      { apply NoDup_incl_length; [apply (inv_nd _ _ _ _ I)|].
        intros x Hx. apply in_app_or in Hx. apply (inv_in _ _ _ _ I). exact Hx. }
      rewrite app_length in Hle. cbn [length] in *. lia.
  - assert (Hle : length (stack ++ res) <= length nodes).
    { apply NoDup_incl_length; [apply (inv_nd _ _ _ _ I)|].
      intros x Hx. apply in_app_or in Hx. apply (inv_in _ _ _ _ I). exact Hx. }
    rewrite app_length in Hle. pose proof (inv_len _ _ _ _ I) as Hlen.
    destruct stack as [|node stack']; cbn [ts_loop].
    + destruct i; [exists m; exact I|exists m, i, res; exact I].
    + destruct i as [|i]; [cbn [length] in *; lia|].
      destruct (scan node (skipn (cget m node) (outs node)) m) as [m' [t|]] eqn:Es.
      * eapply IH; [eapply Inv_step_push; eauto|cbn [length] in *; lia].
      * eapply IH; [eapply Inv_step_pop; eauto|cbn [length] in *; lia].
Qed.

(** Totality: the sort never runs out of fuel, whatever the graph. *)
Theorem top_sort_total : top_sort outs starts (length nodes) <> TSFuel.
Proof.
  unfold top_sort. pose proof Inv_init as I. destruct (ts_init starts) as [st m].
  pose proof (ts_loop_spec (2 * length nodes + 1) st m (length nodes) [] I) as H.
  destruct (ts_loop _ _ _ _ _ _); try congruence. exfalso. apply H. cbn [length]. lia.
Qed.

Definition reachable (x : nat) : Prop :=
  In x starts \/ exists s, In s starts /\ path s x.

Lemma closed_reach r m i : Inv [] m i r -> forall x, reachable x -> In x r.
Proof.
  intros I.
  assert (Hd : forall x, dom m x <-> In x r) by (intros x; rewrite (inv_dom _ _ _ _ I); cbn; tauto).
  assert (Hs : forall s, In s starts -> In s r) by (intros s Hs; apply Hd; eapply inv_starts; eauto).
  assert (Hc : forall a b, path a b -> In a r -> In b r).
  { intros a b Hp. induction Hp as [a b He|a b c _ IH1 _ IH2]; auto.
    intros Ha. apply Hd. eapply inv_fin; eauto. }
  intros x [H|(s & H & Hp)]; eauto.
Qed.

Theorem top_sort_ok_perm r : top_sort outs starts (length nodes) = TSOk r ->
  Permutation r nodes /\
  ((forall n, ~ path n n) -> (forall a s, In s starts -> ~ edge a s) ->
   forall a x b t, r = a ++ x :: b -> edge x t -> In t b) /\
  (forall x, In x nodes -> reachable x).
Proof.
  unfold top_sort. pose proof Inv_init as I. destruct (ts_init starts) as [st m].
  pose proof (ts_loop_spec (2 * length nodes + 1) st m (length nodes) [] I) as H.
  intros E. rewrite E in H. destruct H as [m' I']; [cbn [length]; lia|].
  assert (P : Permutation r nodes).
  { apply NoDup_Permutation_bis.
    - pose proof (inv_nd _ _ _ _ I') as H. exact H.
    - pose proof (inv_len _ _ _ _ I'). lia.
    - intros x Hx. apply (inv_in _ _ _ _ I'). auto. }
  split; [exact P|]. split; [apply (inv_topo _ _ _ _ I')|].
  intros x Hx. apply (inv_reach _ _ _ _ I'). right. eapply Permutation_in; [symmetry; exact P|exact Hx].
Qed.

(** The sort succeeds exactly when everything is reachable from the starts. *)
Theorem top_sort_ok_iff :
  (exists r, top_sort outs starts (length nodes) = TSOk r) <->
  (forall x, In x nodes -> reachable x).
Proof.
  split.
  - intros [r Hr]. apply (top_sort_ok_perm r Hr).
  - intros Hre. unfold top_sort. pose proof Inv_init as I. destruct (ts_init starts) as [st m].
    pose proof (ts_loop_spec (2 * length nodes + 1) st m (length nodes) [] I) as H.
    destruct (ts_loop _ _ _ _ _ _) as [r| |] eqn:E.
    + eauto.
    + exfalso. destruct H as (m' & i' & r & I'); [cbn [length]; lia|].
      assert (Hin : forall x, In x nodes -> In x r) by (intros x Hx; eapply closed_reach; eauto).
      pose proof (NoDup_incl_length Hnodes_nd Hin). pose proof (inv_len _ _ _ _ I'). lia.
    + exfalso. apply H. cbn [length]. lia.
Qed.

End TS.
