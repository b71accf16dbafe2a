(** Proofs about the drawing of a kernel. *)
From Coq Require Import ZArith Bool String Lia Permutation.
From stdpp Require Import gmap list strings.
From Verif Require Import Types Value Graph GraphSpec BuilderProofs SimInput SimInputProofs SimRunSpec SimRunProofs Dot DotSpec.
Local Open Scope Z_scope.
Local Arguments String.append : simpl never.
Local Arguments dec : simpl never.

Section D.
Variable w : world.
(** the names given with the table [m] *)
Definition nm_of (m : gmap nat string) (n : nat) : string :=
  if String.eqb (node_name w n) "" then default ""%string (m !! n) else node_name w n.
Definition table_ok (st : names_st) : Prop :=
  (forall n s, fst st !! n = Some s -> exists k, (k < snd st)%nat /\ s = ("node" ++ dec k)%string) /\
  (forall n m s, fst st !! n = Some s -> fst st !! m = Some s -> n = m).

Lemma get_name_spec n st s st' : get_name w n st = (s, st') -> table_ok st ->
  table_ok st' /\ fst st ⊆ fst st' /\ (node_name w n = ""%string -> is_Some (fst st' !! n)) /\ forall M, fst st' ⊆ M -> nm_of M n = s.
Proof.
  unfold get_name, nm_of. intros E [T1 T2]. destruct (String.eqb_spec (node_name w n) "") as [En|En]; cbn [negb] in E.
  - destruct (fst st !! n) as [s0|] eqn:Em.
    + injection E as <- <-. split; [split; assumption|]. split; [reflexivity|]. split; [eauto|]. intros M SM. now rewrite (lookup_weaken _ _ _ _ Em SM).
    + injection E as <- <-. cbn [fst snd]. split; [split|].
      * intros m s H. cbn [fst snd] in *. destruct (decide (m = n)) as [->|Nm]; [rewrite lookup_insert in H; injection H as <-; exists (snd st); split; [lia|reflexivity]|].
        rewrite lookup_insert_ne in H by congruence. destruct (T1 _ _ H) as (k & K & ->). exists k. split; [lia|reflexivity].
      * intros a b s Ha Hb. cbn [fst snd] in *.
        assert (X : forall c, fst st !! c = Some ("node" ++ dec (snd st))%string -> False).
        { intros c H. destruct (T1 _ _ H) as (k & K & E). apply str_app_inj_l, dec_inj in E. lia. }
        destruct (decide (a = n)) as [->|Na], (decide (b = n)) as [->|Nb]; auto.
        -- rewrite lookup_insert in Ha. rewrite lookup_insert_ne in Hb by congruence. injection Ha as <-. destruct (X _ Hb).
        -- rewrite lookup_insert in Hb. rewrite lookup_insert_ne in Ha by congruence. injection Hb as <-. destruct (X _ Ha).
        -- rewrite lookup_insert_ne in Ha by congruence. rewrite lookup_insert_ne in Hb by congruence. eauto.
      * split; [now apply insert_subseteq|]. split; [intros _; rewrite lookup_insert; eauto|].
        intros M SM. now rewrite (lookup_weaken _ _ n _ (lookup_insert _ _ _) SM).
  - injection E as <- <-. split; [split; assumption|]. split; [reflexivity|]. split; [congruence|]. reflexivity.
Qed.

Definition edges_of (M : gmap nat string) (name : string) (i : nat) (l : list nat) : list dot_edge :=
  imap (fun j a => mkEdge (nm_of M a) name (dec (i + j))) l.
Definition elem_of_node (M : gmap nat string) (n : nat) (nd : node) : dot_elem :=
  mkElem (nm_of M n) (shape (n_op nd)) (label (n_op nd) (nm_of M n)) (edges_of M (nm_of M n) 0 (operands w n)).

Lemma dot_edges_spec name : forall cs chs i st, mapM (fun c => w_chans w !! c) cs = Some chs -> table_ok st ->
  exists es st', dot_edges w name i cs st = Ok (es, st') /\ table_ok st' /\ fst st ⊆ fst st' /\
    forall M, fst st' ⊆ M -> es = edges_of M name i (map c_src chs).
Proof.
  induction cs as [|c cs IH]; intros chs i st E T.
  - injection E as <-. exists [], st. repeat split; auto; apply T.
  - cbn in E. destruct (w_chans w !! c) as [ch|] eqn:Ec; [|discriminate]. cbn in E. destruct (mapM _ cs) as [chs'|] eqn:E'; [|discriminate]. cbn in E. injection E as <-.
    cbn [dot_edges]. rewrite Ec. cbn [of_opt rbind]. destruct (get_name w (c_src ch) st) as [s st1] eqn:G.
    destruct (get_name_spec _ _ _ _ G T) as (T1 & S1 & _ & N1). destruct (IH chs' (S i) st1 eq_refl T1) as (es & st2 & E2 & T2 & S2 & N2).
    rewrite E2. cbn [rbind]. exists (mkEdge s name (dec i) :: es), st2. split; [reflexivity|]. split; [exact T2|]. split; [etransitivity; eassumption|].
    intros M SM. unfold edges_of. cbn [map imap]. rewrite Nat.add_0_r, (N1 M) by (etransitivity; eassumption). f_equal. rewrite (N2 M SM). unfold edges_of. apply imap_ext. intros j x _. cbn. f_equal. f_equal. lia.
Qed.
Lemma mapM_ins n nd : consistent w -> w_nodes w !! n = Some nd -> mapM (fun c => w_chans w !! c) (n_ins nd) = Some (in_chans w n).
Proof.
  intros C Hn. unfold in_chans. rewrite Hn. pose proof (cs_ins w C n nd) as X. specialize (fun c => X c Hn). induction (n_ins nd) as [|c cs IH]; [reflexivity|].
  destruct (X c ltac:(left)) as (ch & Ec & _). cbn. rewrite Ec. cbn. rewrite IH; [reflexivity|]. intros c' Hc. apply X. now right.
Qed.
Lemma dot_elems_spec : consistent w -> forall ns st, Forall (fun n => is_Some (w_nodes w !! n)) ns -> table_ok st ->
  exists es st', dot_elems w ns st = Ok (es, st') /\ table_ok st' /\ fst st ⊆ fst st' /\
    (forall n, n ∈ ns -> node_name w n = ""%string -> is_Some (fst st' !! n)) /\
    forall M, fst st' ⊆ M -> Forall2 (fun n e => exists nd, w_nodes w !! n = Some nd /\ e = elem_of_node M n nd) ns es.
Proof.
  intros C. induction ns as [|n ns IH]; intros st L T.
  - exists [], st. split; [reflexivity|]. split; [exact T|]. split; [reflexivity|]. split; [intros n H; inversion H|]. constructor.
  - apply Forall_cons in L as [[nd Hn] L]. cbn [dot_elems]. unfold get_node. rewrite Hn. cbn [of_opt rbind]. destruct (get_name w n st) as [name st1] eqn:G.
    destruct (get_name_spec _ _ _ _ G T) as (T1 & S1 & D1 & N1). destruct (dot_edges_spec name (n_ins nd) (in_chans w n) 0 st1 (mapM_ins n nd C Hn) T1) as (es & st2 & E2 & T2 & S2 & N2).
    rewrite E2. cbn [rbind]. destruct (IH st2 L T2) as (rest & st3 & E3 & T3 & S3 & D3 & N3). rewrite E3. cbn [rbind].
    assert (S13 : fst st1 ⊆ fst st3) by (etransitivity; eassumption).
    eexists _, st3. split; [reflexivity|]. split; [exact T3|]. split; [etransitivity; eassumption|]. split.
    + intros m H En. apply elem_of_cons in H as [->|H]; [|auto]. destruct (D1 En) as [s Hs]. rewrite (lookup_weaken _ _ _ _ Hs S13). eauto.
    + intros M SM. constructor; [|auto]. exists nd. split; [exact Hn|]. unfold elem_of_node. rewrite (N1 M) by (etransitivity; eassumption).
      f_equal. rewrite (N2 M) by (etransitivity; eassumption). reflexivity.
Qed.

Lemma shape_mark o name : mark o name (shape o) (label o name).
Proof. destruct o; cbn; try (match goal with b : bop |- _ => destruct b | u : uop |- _ => destruct u end; cbn);
  first [apply mk_in | apply mk_out | apply mk_mux | apply mk_offset | apply mk_shl | apply mk_shr | apply mk_not | apply mk_neg
        | apply mk_plain; exact Logic.I | apply mk_bin; repeat first [apply elem_of_list_here | apply elem_of_list_further]]. Qed.
End D.

Lemma draws_kernel w k g hash : consistent w -> w_kern w !! k = Some g -> only_kernel w k -> (forall l, Permutation (hash l) l) ->
  user_names_ok w (g_nodes g) -> exists D nm, compile_dot w hash k = Ok D /\ draws w k nm D.
Proof.
  intros C Hk OK PH UN.
  assert (IN : forall n nd, w_nodes w !! n = Some nd -> n ∈ g_nodes g).
  { intros n nd Hn. destruct (cs_owned w C n nd Hn) as (g' & Hg & I). rewrite (OK n nd Hn) in Hg. congruence. }
  assert (EX : forall n, n ∈ g_nodes g -> exists nd, w_nodes w !! n = Some nd /\ n_meta nd = k) by (intros; eapply cs_member; eauto).
  set (ns := hash (g_nodes g)). assert (Pn : Permutation ns (g_nodes g)) by apply PH.
  assert (NS : forall n, n ∈ ns <-> n ∈ g_nodes g) by (intro n; now rewrite Pn).
  destruct (dot_elems_spec w C ns (∅, 0%nat)) as (es & [M c] & E & [T1 T2] & _ & DM & F2).
  { apply Forall_forall. intros n Hn. apply elem_of_list_In in Hn. apply elem_of_list_In, NS, EX in Hn as (nd & Hn & _). eauto. }
  { split; cbn; intros *; rewrite lookup_empty; discriminate. }
  cbn [fst snd] in *. specialize (F2 M ltac:(reflexivity)).
  exists es, (nm_of w M). split; [unfold compile_dot; rewrite Hk; cbn [of_opt rbind]; fold ns; rewrite E; reflexivity|].
  assert (NN : forall n nd, w_nodes w !! n = Some nd -> node_name w n = n_name nd) by (intros n nd Hn; unfold node_name; now rewrite Hn).
  assert (INJ : forall n m, is_Some (w_nodes w !! n) -> is_Some (w_nodes w !! m) -> nm_of w M n = nm_of w M m -> n = m).
  { intros n m [nd Hn] [md Hm] Eq. unfold nm_of in Eq. rewrite (NN _ _ Hn), (NN _ _ Hm) in Eq.
    assert (Z : forall a na b nb, w_nodes w !! a = Some na -> w_nodes w !! b = Some nb -> n_name na = ""%string -> n_name nb <> ""%string -> default ""%string (M !! a) = n_name nb -> False).
    { intros a na b nb Ha Hb Ea Eb X. destruct (DM a) as [s Hs]; [apply NS; eauto|rewrite (NN _ _ Ha); exact Ea|]. rewrite Hs in X. cbn in X. destruct (T1 _ _ Hs) as (j & _ & ->).
      destruct (UN b b nb nb) as [G _]; eauto. apply G. exists j. now rewrite X. }
    destruct (String.eqb_spec (n_name nd) "") as [E1|E1], (String.eqb_spec (n_name md) "") as [E2|E2].
    - destruct (DM n) as [s Hs]; [apply NS; eauto|rewrite (NN _ _ Hn); exact E1|]. destruct (DM m) as [s' Hs']; [apply NS; eauto|rewrite (NN _ _ Hm); exact E2|].
      rewrite Hs, Hs' in Eq. cbn in Eq. subst s'. eauto.
    - destruct (Z n nd m md Hn Hm E1 E2 Eq).
    - destruct (Z m md n nd Hm Hn E2 E1 (eq_sym Eq)).
    - apply (UN n m nd md); eauto. }
  assert (DN : map d_name es = map (nm_of w M) ns).
  { clear -F2. induction F2 as [|n e ns es (nd & _ & ->) _ IH]; [reflexivity|]. cbn. f_equal. exact IH. }
  assert (HD : forall e, e ∈ es <-> exists n nd, w_nodes w !! n = Some nd /\ n_meta nd = k /\ e = elem_of_node w M n nd).
  { intro e. split.
    - intro H. apply elem_of_list_lookup in H as (i & Hi). destruct (Forall2_lookup_r _ _ _ _ _ F2 Hi) as (n & Hn & nd & Hnd & ->). exists n, nd. repeat split; auto. eauto.
    - intros (n & nd & Hn & _ & ->). pose proof (proj2 (NS n) (IN _ _ Hn)) as X. apply elem_of_list_lookup in X as (i & Hi). destruct (Forall2_lookup_l _ _ _ _ _ F2 Hi) as (e & He & nd' & Hnd & ->).
      apply elem_of_list_lookup. exists i. congruence. }
  constructor.
  - intros n nd Hn Ne. unfold nm_of. rewrite (NN _ _ Hn). destruct (String.eqb_spec (n_name nd) ""); congruence.
  - exact INJ.
  - rewrite DN. apply NoDup_fmap_2_strong; [|rewrite Pn; eapply cs_nd_nodes; eauto]. intros a b Ha Hb. apply NS, EX in Ha as (na & Ha & _). apply NS, EX in Hb as (nb & Hb & _). apply INJ; eauto.
  - intro s. rewrite DN. split.
    + intro H. apply elem_of_list_fmap in H as (n & -> & Hn). apply NS, EX in Hn as (nd & Hn & K). eauto.
    + intros (n & nd & Hn & K & <-). apply elem_of_list_fmap_1. apply NS. eauto.
  - intros n nd e Hn He En. apply HD in He as (m & md & Hm & _ & ->). cbn in En. assert (m = n) as -> by (apply INJ; eauto). assert (md = nd) as -> by congruence. cbn. apply shape_mark.
  - intro x. split.
    + intros (e & He & Hx). apply HD in He as (n & nd & Hn & K & ->). cbn in Hx. unfold edges_of in Hx. apply elem_of_lookup_imap in Hx as (i & a & -> & Ha). exists n, nd, a, i. repeat split; auto.
    + intros (n & nd & a & i & Hn & K & Ha & ->). exists (elem_of_node w M n nd). split; [apply HD; eauto|]. cbn. unfold edges_of. apply elem_of_lookup_imap. exists i, a. auto.
Qed.

(** two kernels with the same drawing have the same graph *)
Lemma draws_same w k nm w' k' nm' D : draws w k nm D -> draws w' k' nm' D -> only_kernel w k -> only_kernel w' k' ->
  exists f : nat -> nat,
    (forall n nd, w_nodes w !! n = Some nd -> exists nd', w_nodes w' !! f n = Some nd' /\ exists s x l, mark (n_op nd) s x l /\ mark (n_op nd') s x l) /\
    (forall n', is_Some (w_nodes w' !! n') -> exists n, is_Some (w_nodes w !! n) /\ f n = n') /\
    (forall n m, is_Some (w_nodes w !! n) -> is_Some (w_nodes w !! m) -> f n = f m -> n = m) /\
    (forall n nd, w_nodes w !! n = Some nd -> (forall a, a ∈ operands w n -> is_Some (w_nodes w !! a)) -> (forall a, a ∈ operands w' (f n) -> is_Some (w_nodes w' !! a)) ->
       operands w' (f n) = map f (operands w n)).
Proof.
  intros A B OA OB.
  assert (Ex : forall n, exists n', is_Some (w_nodes w !! n) -> is_Some (w_nodes w' !! n') /\ nm' n' = nm n).
  { intro n. destruct (w_nodes w !! n) as [nd|] eqn:Hn; [|exists 0%nat; intros []; discriminate].
    assert (X : nm n ∈ map d_name D) by (apply (dr_nodes _ _ _ _ A); exists n, nd; repeat split; auto; eapply OA; eauto).
    apply (dr_nodes _ _ _ _ B) in X as (n' & nd' & H1 & H2 & H3). exists n'. intros _. split; eauto. }
  set (cand n := List.find (fun n' => String.eqb (nm' n') (nm n)) (map fst (map_to_list (w_nodes w')))).
  set (f n := match cand n with Some x => x | None => 0%nat end).
  assert (F : forall n, is_Some (w_nodes w !! n) -> is_Some (w_nodes w' !! f n) /\ nm' (f n) = nm n).
  { intros n Hn. destruct (Ex n) as (n' & Hn'). destruct (Hn' Hn) as [[y Hy] En]. unfold f. destruct (cand n) as [x|] eqn:Ec.
    - unfold cand in Ec. apply find_some in Ec as [H1 H2]. apply String.eqb_eq in H2. split; [|exact H2]. apply in_map_iff in H1 as ([x' nd'] & <- & H1). apply elem_of_list_In, elem_of_map_to_list in H1. eauto.
    - exfalso. unfold cand in Ec. pose proof (find_none _ _ Ec n') as X. cbn beta in X. rewrite En, String.eqb_refl in X. enough (true = false) by discriminate. apply X.
      apply in_map_iff. exists (n', y). split; [reflexivity|]. apply elem_of_list_In, elem_of_map_to_list. exact Hy. }
  exists f. split; [|split; [|split]].
  - intros n nd Hn. destruct (F n) as [[x X] En]; [eauto|]. exists x. split; [exact X|].
    assert (Y : nm n ∈ map d_name D) by (apply (dr_nodes _ _ _ _ A); exists n, nd; repeat split; auto; eapply OA; eauto).
    apply elem_of_list_fmap in Y as (e & E1 & E2). exists (nm n), (d_shape e), (d_label e). split; [eapply (dr_marks _ _ _ _ A); eauto|]. rewrite <- En. eapply (dr_marks _ _ _ _ B); eauto. congruence.
  - intros n' [nd' Hn']. assert (X : nm' n' ∈ map d_name D) by (apply (dr_nodes _ _ _ _ B); exists n', nd'; repeat split; auto; eapply OB; eauto).
    apply (dr_nodes _ _ _ _ A) in X as (n & nd & H1 & _ & H3). exists n. split; [eauto|]. destruct (F n) as [X1 X2]; [eauto|]. apply (dr_inj _ _ _ _ B); [exact X1|eauto|congruence].
  - intros n m Hn Hm E. apply (dr_inj _ _ _ _ A); auto. destruct (F n Hn) as [_ <-]. destruct (F m Hm) as [_ <-]. now rewrite E.
  - intros n nd Hn La Lb. destruct (F n) as [[nd' Hn'] En]; [eauto|]. apply list_eq. intro i. rewrite list_lookup_fmap. 
    assert (Y : forall a, operands w n !! i = Some a -> operands w' (f n) !! i = Some (f a)).
    { intros a Ha. assert (X : exists e, e ∈ D /\ mkEdge (nm a) (nm n) (dec i) ∈ d_edges e) by (apply (dr_edges _ _ _ _ A); exists n, nd, a, i; repeat split; auto; eapply OA; eauto).
      apply (dr_edges _ _ _ _ B) in X as (n2 & nd2 & b & j & H1 & _ & H2 & H3). injection H3 as H3 H4 H5. apply dec_inj in H5. subst j.
      assert (n2 = f n) as -> by (apply (dr_inj _ _ _ _ B); eauto; congruence). destruct (F a) as [X1 X2]; [apply La; eapply elem_of_list_lookup_2; eauto|].
      rewrite H2. f_equal. apply (dr_inj _ _ _ _ B); [apply Lb; eapply elem_of_list_lookup_2; eauto|exact X1|congruence]. }
    destruct (operands w n !! i) as [a|] eqn:Ea; [cbn; auto|]. cbn. destruct (operands w' (f n) !! i) as [b|] eqn:Eb; [|reflexivity]. exfalso.
    assert (X : exists e, e ∈ D /\ mkEdge (nm' b) (nm' (f n)) (dec i) ∈ d_edges e) by (apply (dr_edges _ _ _ _ B); exists (f n), nd', b, i; repeat split; auto; eapply OB; eauto).
    apply (dr_edges _ _ _ _ A) in X as (n2 & nd2 & a & j & H1 & _ & H2 & H3). injection H3 as H3 H4 H5. apply dec_inj in H5. subst j.
    assert (n2 = n) as -> by (apply (dr_inj _ _ _ _ A); eauto; congruence). congruence.
Qed.
