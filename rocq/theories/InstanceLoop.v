(** * Sub-kernel instances: all the bindings of one call (proofs). *)
From Coq Require Import ZArith Bool String Lia.
From stdpp Require Import gmap list.
From Verif Require Import Types Word Value Graph GraphSpec BuilderProofs BuilderProofs2 BuilderTopo StreamSpec DfcirBuild Instance InstanceSpec InstanceProofs InstanceBind.

Lemma has_op_det w n o o' : has_op w n o -> has_op w n o' -> o = o'.
Proof. intros (a & A & <-) (b & B & <-). congruence. Qed.
Lemma unread w n : consistent w -> (readers w n = [] <-> forall m, n ∉ operands w m).
Proof.
  intro C. split.
  - intros E m H. apply (readers_operands w n m C) in H. rewrite E in H. inversion H.
  - intro H. destruct (readers w n) as [|m l] eqn:E; [reflexivity|]. exfalso. apply (H m). apply (readers_operands w n m C). rewrite E. constructor.
Qed.
Lemma lookup_in (l : list (string * nat)) s n : name_lookup l s = Some n -> (s, n) ∈ l.
Proof.
  unfold name_lookup. destruct (List.find _ l) as [[s' m]|] eqn:E; [|discriminate]. intros [= <-]. apply List.find_some in E as [A B].
  cbn in B. apply String.eqb_eq in B as ->. apply elem_of_list_In. exact A.
Qed.
Lemma lookup_rn (l : list (string * nat)) s s' : s' <> s -> name_lookup (rn_names s l) s' = name_lookup l s'.
Proof.
  intro N. unfold name_lookup, rn_names. induction l as [|[a b] l IH]; [reflexivity|]. cbn [List.filter fst]. destruct (String.eqb_spec a s) as [->|Na]; cbn [negb].
  - cbn [List.find fst]. destruct (String.eqb_spec s s'); [congruence|]. exact IH.
  - cbn [List.find fst]. destruct (String.eqb_spec a s'); [reflexivity|]. exact IH.
Qed.
Lemma in_rn (l : list (string * nat)) s s' m : (s', m) ∈ rn_names s l <-> (s', m) ∈ l /\ s' <> s.
Proof.
  unfold rn_names. rewrite !elem_of_list_In, List.filter_In. cbn. destruct (String.eqb_spec s' s); cbn; split; intros [A B]; split; auto; congruence.
Qed.

Definition gone1 (w : world) (v n : nat) (m : nat) : Prop := m = n \/ m = v /\ has_op w n OUT /\ has_op w v NONE.

Section Step.
Variables (w : world) (p k v : nat) (s : string) (n : nat).
Hypothesis (W : WF w) (Npk : p <> k) (N : named w) (B : binding_ok w p k v s n) (Ddv : has_op w n OUT -> forall d, operands w n = [d] -> d <> v).

Lemma bind_step : exists w' r (σ : nat -> nat), bind_one w p k v s = Ok (w', r) /\ WF w' /\ keeps w w' (gone1 w v n) /\
  (forall k', names w' k' = if decide (k' = k) then rn_names s (names w k) else names w k') /\
  (forall k', is_Some (w_kern w' !! k') <-> is_Some (w_kern w !! k')) /\
  (forall m, ~ gone1 w v n m -> σ m = m) /\
  (has_op w n IN -> r = v /\ σ n = v) /\
  (has_op w n OUT -> exists d, operands w n = [d] /\ σ n = d /\ (has_op w v NONE -> r = d /\ σ v = d) /\ (has_op w v OUT -> r = v /\ operands w' v = [d])) /\
  (forall m, ~ gone1 w v n m -> (m = v -> ~ has_op w n OUT) -> operands w' m = map σ (operands w m)) /\
  (forall m, ~ gone1 w v n m -> shp w' m = shp w m \/ has_op w m OUT /\ shp w' m = [(0, true)]).
Proof.
  pose proof W as [C _].
  destruct B as [(P & (nd & Hn & Eo) & On & (nv & Hv) & Ov)|(P & (nd & Hn & Eo) & (d & On) & Rn & Ov & Vo & Opv)].
  - assert (Em : n_meta nd = k) by (destruct (N k s n (lookup_in _ _ _ P)) as (x & Hx & _ & E & _); congruence).
    assert (Evm : n_meta nv = p) by (unfold owner in Ov; rewrite Hv in Ov; exact Ov).
    assert (NG : forall m, gone1 w v n m <-> m = n). { intro m. split; [intros [E|(_ & H & _)]; [exact E|]|left; exact H]. exfalso. pose proof (has_op_det w n _ _ H (ex_intro _ nd (conj Hn Eo))) as X. discriminate X. }
    destruct (bind_input w p k s v n nd nv W Npk P Hn Em Hv Evm Eo On) as (w' & E & W' & (K1 & K2 & K3) & Op & Nm & Kn & Shp).
    exists w', v, (ren n v). split; [exact E|]. split; [exact W'|]. split.
    { split; [|split; [|exact K3]].
      - intros m x H. destruct (K1 m x H) as (y & A & D & G). exists y. rewrite NG. auto.
      - intros m y H G. apply K2; [exact H|]. rewrite NG in G. exact G. }
    split; [exact Nm|]. split; [exact Kn|]. split; [intros m G; rewrite NG in G; unfold ren; rewrite decide_False by exact G; reflexivity|].
    split; [intros _; split; [reflexivity|]; unfold ren; rewrite decide_True by reflexivity; reflexivity|]. split.
    { intro H. pose proof (has_op_det w n _ _ H (ex_intro _ nd (conj Hn Eo))). discriminate. }
    split; [intros m G _; apply Op; rewrite NG in G; exact G|]. intros m G. left. apply Shp. rewrite NG in G. exact G.
  - assert (Em : n_meta nd = k) by (destruct (N k s n (lookup_in _ _ _ P)) as (x & Hx & _ & E & _); congruence).
    assert (HO : has_op w n OUT) by (exists nd; auto).
    assert (NR : forall m, n ∉ operands w m) by (apply unread; assumption).
    assert (exists nv, w_nodes w !! v = Some nv /\ (n_op nv = NONE \/ n_op nv = OUT)) as (nv & Hv & Vo') by (destruct Vo as [(x & Hx & E)|(x & Hx & E)]; eauto).
    assert (Evm : n_meta nv = p) by (unfold owner in Ov; rewrite Hv in Ov; exact Ov).
    destruct (bind_output w p k s v n nd nv W Npk P Hn Em Hv Evm Eo NR Opv Vo' d On (Ddv HO d On)) as (w' & r & E & W' & (K1 & K2 & K3) & RN & RO & Nm & Kn & Shp).
    assert (NG : forall m, gone1 w v n m <-> m = n \/ m = v /\ n_op nv = NONE).
    { intro m. unfold gone1. split; (intros [G|G]; [left; exact G|right]).
      - destruct G as (-> & _ & (x & Hx & Ex)). split; [reflexivity|congruence].
      - destruct G as (-> & Ex). split; [reflexivity|]. split; [exact HO|]. exists nv. auto. }
    exists w', r, (fun m => if decide (m = n) then d else if decide (m = v) then match n_op nv with NONE => d | _ => m end else m).
    set (f := fun m => if decide (m = n) then d else if decide (m = v) then match n_op nv with NONE => d | _ => m end else m).
    assert (F1 : forall m, ~ (m = n \/ m = v /\ n_op nv = NONE) -> f m = m).
    { intros m G. unfold f. destruct (decide (m = n)); [exfalso; auto|]. destruct (decide (m = v)) as [->|]; [|reflexivity]. destruct Vo' as [X|X]; [exfalso; auto|rewrite X; reflexivity]. }
    assert (F2 : forall m, m = n \/ m = v /\ n_op nv = NONE -> f m = d).
    { intros m [->|[-> X]]; unfold f; [rewrite decide_True by auto; reflexivity|]. destruct (decide _); [reflexivity|]. rewrite decide_True, X by auto. reflexivity. }
    split; [exact E|]. split; [exact W'|]. split.
    { split; [|split; [|exact K3]].
      - intros m x H. destruct (K1 m x H) as (y & A & D & G). exists y. rewrite NG. auto.
      - intros m y H G. apply K2; [exact H|]. rewrite NG in G. exact G. }
    split; [exact Nm|]. split; [exact Kn|]. split; [intros m G; rewrite NG in G; exact (F1 m G)|].
    split.
    { intro H. pose proof (has_op_det w n _ _ H HO). discriminate. } split.
    { intros _. exists d. split; [exact On|]. split; [apply F2; left; reflexivity|]. split.
      - intros (x & Hx & Ex). rewrite Hv in Hx. injection Hx as <-. split; [apply RN; exact Ex|apply F2; right; auto].
      - intros (x & Hx & Ex). destruct RO as (A & D & _); [congruence|]. auto. }
    split; [|intros m G; rewrite NG in G; destruct (Shp m G) as [X|(-> & X & Y)]; [left; exact X|right; split; [exists nv; auto|exact Y]]].
    intros m G Hmv. rewrite NG in G. destruct Vo' as [Vn|Vn].
    + destruct (RN Vn) as (-> & Op). rewrite Op by (intro; apply G; auto). apply map_ext_in. intros a Ha. apply elem_of_list_In in Ha. unfold ren.
      destruct (decide (a = v)) as [->|Na]; [symmetry; apply F2; auto|]. symmetry. apply F1.
      intros [->|[-> _]]; [exact (NR m Ha)|congruence].
    + destruct (RO Vn) as (-> & _ & Op). rewrite Op; [|intro; apply G; auto|intro; exact (Hmv H HO)].
      rewrite <- (map_id (operands w m)) at 1. apply map_ext_in. intros a Ha. apply elem_of_list_In in Ha.
      symmetry. apply F1. intros [->|[_ X]]; [exact (NR m Ha)|congruence].
Qed.
End Step.

Lemma lval_kval {V} (I : interp V) L w n i x : (forall a b, ~ L a b) -> lval I L w n i x -> kval I w n i x.
Proof.
  intros NL H. apply H. constructor.
  - intros a b j y X. destruct (NL _ _ X).
  - intros. apply kv_stream; assumption.
  - intros. apply kv_scalar; assumption.
  - intros. eapply kv_const; eassumption.
  - intros. eapply kv_offset; eassumption.
  - intros. eapply kv_out; eassumption.
  - intros. eapply kv_mux; eassumption.
  - intros. eapply kv_op; eassumption.
Qed.

Definition drivers_free (w : world) (k : nat) (bs : list (nat * string)) : Prop :=
  forall v s n v' s' n' d, (v, s) ∈ bs -> (v', s') ∈ bs -> port w k s n -> has_op w n OUT -> operands w n = [d] -> port w k s' n' -> has_op w n' OUT -> d <> v'.

Inductive leads (w : world) (L : nat -> nat -> Prop) : nat -> nat -> Prop :=
| le_refl a : leads w L a a
| le_link a b c : L a b -> leads w L b c -> leads w L a c
| le_out a b c : has_op w a OUT -> operands w a = [b] -> leads w L b c -> leads w L a c.
Lemma leads_trans w L a b c : leads w L a b -> leads w L b c -> leads w L a c.
Proof. induction 1 as [|x y z H _ IH|x y z H O _ IH]; intro X; [exact X| |]; [eapply le_link|eapply le_out]; eauto. Qed.

(** bindings at different positions concern different ports and, for outputs, different variables *)
Lemma named_port w k s n : named w -> port w k s n -> exists nd, w_nodes w !! n = Some nd /\ n_name nd = s /\ n_meta nd = k /\ (n_op nd = IN \/ n_op nd = OUT).
Proof. intros N P. apply N, lookup_in, P. Qed.
Lemma port_inj w k s s' n : named w -> port w k s n -> port w k s' n -> s = s'.
Proof. intros N A B. destruct (named_port _ _ _ _ N A) as (x & Hx & <- & _). destruct (named_port _ _ _ _ N B) as (y & Hy & <- & _). congruence. Qed.

Section Next.
Variables (w w' : world) (p k v : nat) (s : string) (n r : nat) (σ : nat -> nat) (bs : list (nat * string)).
Hypothesis (W : WF w) (N : named w) (BO : bindings_ok w p k ((v, s) :: bs)) (B : binding_ok w p k v s n) (DF : drivers_free w k ((v, s) :: bs)).
Hypothesis (W' : WF w') (K : keeps w w' (gone1 w v n))
  (Nm : forall k', names w' k' = if decide (k' = k) then rn_names s (names w k) else names w k')
  (Sid : forall m, ~ gone1 w v n m -> σ m = m) 
  (Rin : has_op w n IN -> r = v /\ σ n = v)
  (Rout : has_op w n OUT -> exists d, operands w n = [d] /\ σ n = d /\ (has_op w v NONE -> r = d /\ σ v = d) /\ (has_op w v OUT -> r = v /\ operands w' v = [d]))
  (Op : forall m, ~ gone1 w v n m -> (m = v -> ~ has_op w n OUT) -> operands w' m = map σ (operands w m)).

Let Pn : port w k s n.
Proof. destruct B as [H|H]; apply H. Qed.
Let Npk : p <> k := bo_diff _ _ _ _ BO.
Let Own : owner w n = k.
Proof. destruct (named_port _ _ _ _ N Pn) as (nd & Hn & _ & E & _). unfold owner. rewrite Hn. exact E. Qed.
Let Ovn : owner w v = p.
Proof. destruct B as [(_ & _ & _ & _ & H)|(_ & _ & _ & _ & H & _)]; exact H. Qed.
Let opn : has_op w n IN \/ has_op w n OUT.
Proof. destruct B as [(_ & H & _)|(_ & H & _)]; auto. Qed.

Lemma nx_op m o : ~ gone1 w v n m -> (has_op w' m o <-> has_op w m o).
Proof.
  intro G. destruct K as (K1 & K2 & _). split.
  - intros (x & Hx & <-). destruct (K1 m x Hx) as (y & Hy & (E & _) & _). exists y. auto.
  - intros (y & Hy & <-). destruct (K2 m y Hy G) as (x & Hx & (E & _)). exists x. auto.
Qed.
Lemma nx_live m : is_Some (w_nodes w' !! m) <-> is_Some (w_nodes w !! m) /\ ~ gone1 w v n m.
Proof.
  destruct K as (K1 & K2 & _). split.
  - intros (x & Hx). destruct (K1 m x Hx) as (y & Hy & _ & G). eauto.
  - intros ((y & Hy) & G). destruct (K2 m y Hy G) as (x & Hx & _). eauto.
Qed.
Lemma nx_owner m : ~ gone1 w v n m -> is_Some (w_nodes w !! m) -> owner w' m = owner w m.
Proof. intros G (y & Hy). destruct K as (K1 & K2 & _). destruct (K2 m y Hy G) as (x & Hx & (_ & _ & _ & _ & E)). unfold owner. rewrite Hx, Hy. auto. Qed.
Lemma nx_port s' m : port w' k s' m <-> port w k s' m /\ s' <> s.
Proof.
  unfold port. rewrite Nm, decide_True by reflexivity. split.
  - intro H. pose proof (lookup_in _ _ _ H) as X. apply in_rn in X as [_ X]. rewrite lookup_rn in H by exact X. auto.
  - intros [H X]. rewrite lookup_rn by exact X. exact H.
Qed.
Lemma nx_diff v' s' : (v', s') ∈ bs -> s' <> s.
Proof. intros H ->. pose proof (bo_names _ _ _ _ BO) as ND. cbn in ND. apply NoDup_cons in ND as [ND _]. apply ND. apply elem_of_list_fmap. exists (v', s). auto. Qed.
Lemma nx_named : named w'.
Proof.
  intros k' s' m H. rewrite Nm in H. destruct K as (K1 & K2 & _). destruct (decide (k' = k)) as [->|Nk].
  - apply in_rn in H as [H Ns]. destruct (N k s' m H) as (y & Hy & Ey & Em & Eo). destruct (K2 m y Hy) as (x & Hx & (E1 & _ & _ & E4 & E5)).
    + intros [->|(-> & _)]; [|unfold owner in Ovn; rewrite Hy in Ovn; congruence].
      destruct (named_port _ _ _ _ N Pn) as (z & Hz & Ez & _). congruence.
    + exists x. rewrite <- E1. split; [exact Hx|]. split; [congruence|]. split; [congruence|exact Eo].
  - destruct (N k' s' m H) as (y & Hy & Ey & Em & Eo). destruct (K2 m y Hy) as (x & Hx & (E1 & _ & _ & E4 & E5)).
    + intros [->|(-> & _ & (z & Hz & Ez))]; [unfold owner in Own; rewrite Hy in Own; congruence|].
      rewrite Hy in Hz. injection Hz as <-. destruct Eo; congruence.
    + exists x. rewrite <- E1. split; [exact Hx|]. split; [congruence|]. split; [congruence|exact Eo].
Qed.

(** the other bindings of the call *)
Lemma nx_rest v' s' n' : (v', s') ∈ bs -> port w k s' n' -> n' <> n /\ ~ gone1 w v n n' /\ ~ gone1 w v n v' /\ (has_op w n' OUT -> v' <> v) /\ (has_op w n OUT -> v' <> v).
Proof.
  intros H P. pose proof (nx_diff _ _ H) as Ns.
  assert (Nn : n' <> n) by (intros ->; apply Ns; eapply port_inj; eauto).
  assert (On' : owner w n' = k) by (destruct (named_port _ _ _ _ N P) as (y & Hy & _ & E & _); unfold owner; rewrite Hy; exact E).
  assert (Ov' : owner w v' = p). { destruct (bo_each _ _ _ _ BO v' s') as (n0 & [(_ & _ & _ & _ & X)|(_ & _ & _ & _ & X & _)]); [right; exact H| |]; exact X. }
  destruct (elem_of_list_lookup_1 _ _ H) as [j Hj].
  assert (T1 : has_op w n OUT -> v' <> v). { intros X E. symmetry in E. revert E. apply (bo_targets _ _ _ _ BO 0 (S j) v s v' s'); [reflexivity|exact Hj|lia|eauto]. }
  assert (T2 : has_op w n' OUT -> v' <> v). { intros X. apply (bo_targets _ _ _ _ BO (S j) 0 v' s' v s); [exact Hj|reflexivity|lia|eauto]. }
  split; [exact Nn|]. split; [intros [E|(E & _)]; [auto|]; congruence|]. split; [|split; assumption].
  intros [E|(E & X & _)]; [congruence|]. exact (T1 X E).
Qed.
Lemma nx_unread m : ~ gone1 w v n m -> owner w m = k -> has_op w m OUT -> readers w m = [] -> readers w' m = [].
Proof.
  intros G Om Ho R. pose proof W as [C _]. pose proof W' as [C' _]. apply (unread w' m C'). pose proof (proj1 (unread w m C) R) as NR. intros x Hx.
  destruct (operands_live w' x m C' Hx) as [_ Lx]. apply nx_live in Lx as [Lx Gx].
  assert (Z : forall a, a ∈ operands w x -> σ a = m -> False).
  { intros a Ha E. assert (gone1 w v n a \/ ~ gone1 w v n a) as [Ga|Ga].
    { destruct (decide (a = n)) as [->|]; [left; left; reflexivity|]. destruct (decide (a = v)) as [->|]; [|right; intros [?|(? & _)]; auto].
      destruct opn as [X|X]; [right; intros [?|(_ & Y & _)]; [auto|pose proof (has_op_det _ _ _ _ X Y); discriminate]|].
      destruct B as [(_ & Y & _)|(_ & _ & _ & _ & _ & [Y|Y] & _)]; [pose proof (has_op_det _ _ _ _ X Y); discriminate|left; right; auto|].
      right. intros [?|(_ & _ & Y')]; [auto|]. pose proof (has_op_det _ _ _ _ Y' Y). discriminate. }
    - assert (E' : σ a = v \/ exists d, operands w n = [d] /\ σ a = d).
      { destruct opn as [X|X].
        - destruct Ga as [->|(-> & Y & _)]; [left; apply Rin; exact X|pose proof (has_op_det _ _ _ _ X Y); discriminate].
        - right. destruct (Rout X) as (d & Od & Sn & R1 & R2). exists d. split; [exact Od|]. destruct Ga as [->|(-> & _ & Y)]; [exact Sn|apply R1; exact Y]. }
      destruct E' as [E'|(d & Od & E')]; [congruence|]. apply (NR n). rewrite Od, <- E, E'. constructor.
    - rewrite (Sid a Ga) in E. subst a. exact (NR x Ha). }
  assert (C1 : ~ (x = v /\ has_op w n OUT) -> False).
  { intro X. rewrite Op in Hx; [|exact Gx|intros; auto]. apply elem_of_list_fmap in Hx as (a & -> & Ha). apply (Z a Ha). reflexivity. }
  apply C1. intros [-> X]. destruct (Rout X) as (d & Od & Sn & R1 & R2).
  destruct B as [(_ & Y & _)|(_ & _ & _ & _ & _ & [Y|Y] & _)]; [pose proof (has_op_det _ _ _ _ X Y); discriminate|apply Gx; right; auto|].
  destruct (R2 Y) as [_ O']. rewrite O' in Hx. apply elem_of_list_singleton in Hx as ->. apply (NR n). rewrite Od. constructor.
Qed.
Lemma nx_binding v' s' n' : (v', s') ∈ bs -> binding_ok w p k v' s' n' -> binding_ok w' p k v' s' n'.
Proof.
  intros H [(P & Ho & On & Lv & Ov)|(P & Ho & (d & On) & Rn & Ov & Vo & Opv)]; destruct (nx_rest _ _ _ H P) as (Nn & G & Gv & T2 & T1).
  - left. split; [apply nx_port; split; [exact P|eapply nx_diff; eauto]|]. split; [apply nx_op; assumption|]. split.
    + rewrite Op, On; [reflexivity|exact G|]. intros ->. exfalso. destruct (named_port _ _ _ _ N P) as (y & Hy & _ & E & _). unfold owner in Ovn. rewrite Hy in Ovn. congruence.
    + split; [apply nx_live; auto|]. rewrite nx_owner by auto. exact Ov.
  - specialize (T2 Ho). assert (Lv : is_Some (w_nodes w !! v')) by (destruct Vo as [(y & Hy & _)|(y & Hy & _)]; eauto).
    assert (Own' : owner w n' = k) by (destruct (named_port _ _ _ _ N P) as (y & Hy & _ & E & _); unfold owner; rewrite Hy; exact E).
    right. split; [apply nx_port; split; [exact P|eapply nx_diff; eauto]|]. split; [apply nx_op; assumption|]. split.
    + exists (σ d). rewrite Op, On; [reflexivity|exact G|]. intros ->. congruence.
    + split; [apply nx_unread; assumption|]. split; [rewrite nx_owner by auto; exact Ov|]. split; [rewrite !nx_op by auto; exact Vo|].
      rewrite Op, Opv; [reflexivity|exact Gv|]. intros ->. congruence.
Qed.
Lemma nx_bindings : bindings_ok w' p k bs.
Proof.
  constructor.
  - exact Npk.
  - pose proof (bo_names _ _ _ _ BO) as ND. cbn in ND. apply NoDup_cons in ND as [_ ND]. exact ND.
  - intros v' s' H. destruct (bo_each _ _ _ _ BO v' s') as (n' & X); [right; exact H|]. exists n'. apply nx_binding; assumption.
  - intros i j v1 s1 v2 s2 A D Nij (n1 & P & Ho). apply nx_port in P as [P _]. apply (bo_targets _ _ _ _ BO (S i) (S j) v1 s1 v2 s2); [exact A|exact D|lia|].
    exists n1. split; [exact P|]. destruct (nx_rest v1 s1 n1 (elem_of_list_lookup_2 _ _ _ A) P) as (_ & G & _). apply nx_op in Ho; [exact Ho|exact G].
Qed.
Lemma nx_sigma_driver v' s' n' d : (v', s') ∈ bs -> port w k s' n' -> has_op w n' OUT -> operands w n' = [d] -> ~ (d = v /\ has_op w n OUT) /\ d <> n \/ has_op w n IN /\ d = n.
Proof.
  intros H P Ho On. destruct (decide (d = n)) as [->|Nd].
  - destruct opn as [X|X]; [auto|]. exfalso. destruct B as [(_ & Y & _)|(_ & _ & _ & Y & _)]; [pose proof (has_op_det _ _ _ _ X Y); discriminate|].
    apply (proj1 (unread w n (proj1 W)) Y n'). rewrite On. constructor.
  - left. split; [|exact Nd]. intros [-> X]. revert On. intro On. apply (DF v' s' n' v s n v); auto; constructor; exact H || auto.
Qed.
Lemma nx_drivers : drivers_free w' k bs.
Proof.
  intros v1 s1 n1 v2 s2 n2 d H1 H2 P1 Ho1 On P2 Ho2. apply nx_port in P1 as [P1 _], P2 as [P2 _].
  destruct (nx_rest _ _ _ H1 P1) as (Nn1 & G1 & Gv1 & T12 & T11). destruct (nx_rest _ _ _ H2 P2) as (Nn2 & G2 & Gv2 & T22 & T21).
  apply nx_op in Ho1; [|exact G1]. apply nx_op in Ho2; [|exact G2]. 
  assert (Own1 : owner w n1 = k) by (destruct (named_port _ _ _ _ N P1) as (y & Hy & _ & E & _); unfold owner; rewrite Hy; exact E).
  rewrite Op in On; [|exact G1|intros ->; congruence].
  destruct (operands w n1) as [|d0 [|]] eqn:O1; try discriminate. injection On as <-.
  destruct (nx_sigma_driver _ _ _ _ H1 P1 Ho1 O1) as [[X Y]|[X ->]].
  - rewrite Sid; [|intros [?|(? & ? & _)]; auto]. apply (DF v1 s1 n1 v2 s2 n2 d0); auto; right; assumption.
  - destruct (Rin X) as [_ ->]. intros E. apply (T22 Ho2). auto.
Qed.

(** values *)
Lemma nx_type m t : ~ gone1 w v n m -> type_of w m = Some t -> type_of w' m = Some t.
Proof.
  intros G. unfold type_of. destruct K as (K1 & K2 & Kt & _). destruct (w_nodes w !! m) as [y|] eqn:Hy; [|discriminate]. destruct (K2 m y Hy G) as (x & Hx & (_ & E & _)).
  rewrite Hx, <- E, Kt. auto.
Qed.
Lemma nx_type_eq m : ~ gone1 w v n m -> is_Some (w_nodes w !! m) -> type_of w' m = type_of w m.
Proof.
  intros G (y & Hy). pose proof K as (K1 & K2 & K3 & _). destruct (K2 m y Hy G) as (x & Hx & (_ & E & _)). unfold type_of. rewrite Hx, Hy, K3, E. reflexivity.
Qed.
Lemma nx_kind_eq m : ~ gone1 w v n m -> is_Some (w_nodes w !! m) -> kind_at w' m = kind_at w m.
Proof. intros G L. unfold kind_at. rewrite nx_type_eq by assumption. reflexivity. Qed.
Lemma nx_type_step m : types_match w k ((v, s) :: bs) -> is_Some (w_nodes w !! m) -> (m = n -> ~ has_op w n OUT) -> kind_at w' (σ m) = kind_at w m.
Proof.
  intros TM Lm Nn. assert (GD : gone1 w v n m \/ ~ gone1 w v n m).
  { destruct (decide (m = n)) as [->|N1]; [left; left; reflexivity|]. destruct (decide (m = v)) as [->|N2]; [|right; intros [E|(E & _)]; auto].
    destruct opn as [X|X]; [right; intros [E|(_ & Y & _)]; [auto|pose proof (has_op_det _ _ _ _ X Y); discriminate]|].
    destruct B as [(_ & Y & _)|(_ & _ & _ & _ & _ & [Y|Y] & _)]; [pose proof (has_op_det _ _ _ _ X Y); discriminate|left; right; auto|right; intros [E|(_ & _ & Z)]; [auto|pose proof (has_op_det _ _ _ _ Y Z); discriminate]]. }
  destruct (TM v s n) as [TI TO]; [constructor|exact Pn|].
  destruct GD as [[->|(-> & X & Y)]|G]; [| |rewrite (Sid m G); apply nx_kind_eq; assumption].
  - destruct opn as [X|X]; [|destruct (Nn eq_refl X)]. destruct (Rin X) as [_ ->]. rewrite nx_kind_eq; [exact (TI X)| |].
    + intros [E|(_ & Y & _)]; [apply Npk; rewrite <- Ovn, E; exact Own|pose proof (has_op_det _ _ _ _ X Y); discriminate].
    + destruct B as [(_ & _ & _ & Y & _)|(_ & Y & _)]; [exact Y|pose proof (has_op_det _ _ _ _ X Y); discriminate].
  - destruct (Rout X) as (d & Od & _ & R1 & _). destruct (R1 Y) as [_ ->]. rewrite (TO X Y d Od). assert (Hd : d ∈ operands w n) by (rewrite Od; constructor).
    apply nx_kind_eq; [|apply (operands_live w n d (proj1 W) Hd)]. intros [->|(-> & _)].
    + destruct B as [(_ & Z & _)|(_ & _ & _ & Rn & _)]; [pose proof (has_op_det _ _ _ _ X Z); discriminate|]. exact (proj1 (unread w n (proj1 W)) Rn n Hd).
    + apply (DF v s n v s n v); auto; constructor.
Qed.
Lemma nx_types : types_match w k ((v, s) :: bs) -> types_match w' k bs.
Proof.
  intros TM v' s' n' Hin P'. apply nx_port in P' as [P' _]. destruct (nx_rest v' s' n' Hin P') as (Nn & G & Gv & T2 & T1).
  destruct (TM v' s' n') as [TI TO]; [right; exact Hin|exact P'|].
  assert (Ln : is_Some (w_nodes w !! n')) by (destruct (named_port _ _ _ _ N P') as (z & Hz & _); eauto).
  assert (Lv : is_Some (w_nodes w !! v')). { destruct (bo_each _ _ _ _ BO v' s') as (n2 & B2); [right; exact Hin|]. destruct B2 as [(_ & _ & _ & X & _)|(_ & _ & _ & _ & _ & [(z & Hz & _)|(z & Hz & _)] & _)]; eauto. }
  rewrite !(nx_op n' _ G), (nx_op v' _ Gv). split.
  - intro X. rewrite !nx_kind_eq by assumption. exact (TI X).
  - intros X Y d' Od'. destruct (bo_each _ _ _ _ BO v' s') as (n2 & B2); [right; exact Hin|].
    assert (n2 = n') by (assert (Q : port w k s' n2) by (destruct B2 as [Z|Z]; apply Z); unfold port in Q, P'; congruence). subst n2.
    destruct B2 as [(_ & Z & _)|(_ & _ & (d & Od) & _)]; [pose proof (has_op_det _ _ _ _ X Z); discriminate|].
    rewrite Op, Od in Od'; [|exact G|]. 2:{ intros -> _. apply Npk. rewrite <- Ovn. destruct (named_port _ _ _ _ N P') as (z & Hz & _ & Em & _). unfold owner. rewrite Hz. exact Em. }
    injection Od' as <-. assert (Hd : d ∈ operands w n') by (rewrite Od; constructor).
    rewrite nx_kind_eq by assumption. rewrite nx_type_step; [exact (TO X Y d Od)|exact TM|apply (operands_live w n' d (proj1 W) Hd)|].
    intros -> Z. destruct B as [(_ & Q & _)|(_ & _ & _ & Rn & _)]; [pose proof (has_op_det _ _ _ _ Z Q); discriminate|]. exact (proj1 (unread w n (proj1 W)) Rn n' Hd).
Qed.
Lemma gone_dec m : gone1 w v n m \/ ~ gone1 w v n m.
Proof.
  destruct (decide (m = n)) as [->|]; [left; left; reflexivity|]. destruct (decide (m = v)) as [->|]; [|right; intros [?|(? & _)]; auto].
  destruct opn as [X|X]; [right; intros [?|(_ & Y & _)]; [auto|pose proof (has_op_det _ _ _ _ X Y); discriminate]|].
  destruct B as [(_ & Y & _)|(_ & _ & _ & _ & _ & [Y|Y] & _)]; [pose proof (has_op_det _ _ _ _ X Y); discriminate|left; right; auto|].
  right. intros [?|(_ & _ & Y')]; [auto|]. pose proof (has_op_det _ _ _ _ Y' Y). discriminate.
Qed.
Lemma nx_rules {V} (I : interp V) (R' : nat -> Z -> V -> Prop) : rules I (link w' k bs) w' R' -> rules I (link w k ((v, s) :: bs)) w (fun m i x => R' (σ m) i x).
Proof.
  intros [ru1 ru2 ru3 ru4 ru5 ru6 ru7 ru8]. pose proof K as (K1 & K2 & _).
  assert (LV : forall m nd, w_nodes w !! m = Some nd -> ~ gone1 w v n m -> exists nd', w_nodes w' !! m = Some nd' /\ same_head nd nd' /\ σ m = m).
  { intros m nd Hm G. destruct (K2 m nd Hm G) as (x & Hx & S). exists x. auto. }
  (* a node that goes away is the input (linked) or has an operator without a rule, or is the output *)
  assert (GO : forall m nd, w_nodes w !! m = Some nd -> gone1 w v n m -> n_op nd = IN /\ m = n \/ n_op nd = OUT /\ m = n \/ n_op nd = NONE).
  { intros m nd Hm [->|(-> & _ & (y & Hy & E))]; [|right; right; congruence]. destruct opn as [(y & Hy & E)|(y & Hy & E)]; [left|right; left]; split; congruence. }
  assert (OPS : forall m nd, w_nodes w !! m = Some nd -> ~ gone1 w v n m -> n_op nd <> OUT -> operands w' m = map σ (operands w m)).
  { intros m nd Hm G NO. apply Op; [exact G|]. intros -> X. destruct B as [(_ & Y & _)|(_ & _ & _ & _ & _ & [Y|Y] & _)].
    - pose proof (has_op_det _ _ _ _ X Y). discriminate.
    - apply G. right. auto.
    - destruct Y as (y & Hy & E). congruence. }
  constructor.
  - (* links *) intros a b i x (v' & s' & n' & Hin & P' & D) Rb. apply elem_of_cons in Hin as [E|Hin].
    + injection E as -> ->. unfold port in P'. pose proof Pn as P0. unfold port in P0. rewrite P0 in P'. injection P' as <-. destruct D as [(X & -> & ->)|(X & -> & ->)].
      * destruct (Rin X) as [_ ->]. rewrite Sid in Rb; [exact Rb|]. intros [E|(_ & Y & _)]; [congruence|]. pose proof (has_op_det _ _ _ _ X Y). discriminate.
      * destruct (Rout X) as (d & Od & Sn & R1 & R2). rewrite Sn in Rb. destruct B as [(_ & Y & _)|(_ & _ & _ & _ & _ & [Y|Y] & _)]; [pose proof (has_op_det _ _ _ _ X Y); discriminate|destruct (R1 Y) as [_ ->]; exact Rb|].
        destruct (R2 Y) as [_ O']. destruct Y as (y & Hy & Ey). assert (Gv : ~ gone1 w v n v). { intros [E|(_ & _ & (z & Hz & Ez))]; [congruence|congruence]. }
        destruct (LV v y Hy Gv) as (z & Hz & (E1 & _) & ->). eapply ru6; [exact Hz|congruence|exact O'|exact Rb].
    + destruct (nx_rest _ _ _ Hin P') as (Nn & G & Gv & T2 & T1).
      assert (L' : link w' k bs a b). { exists v', s', n'. split; [exact Hin|]. split; [apply nx_port; split; [exact P'|eapply nx_diff; eauto]|]. rewrite !nx_op by exact G. exact D. }
      assert (σ a = a /\ σ b = b) as [Ea Eb] by (destruct D as [(_ & -> & ->)|(_ & -> & ->)]; auto). rewrite Ea. rewrite Eb in Rb. exact (ru1 _ _ _ _ L' Rb).
  - intros m nd i Hm Ho Hk NL Hi. destruct (gone_dec m) as [G|G].
    + exfalso. destruct (GO m nd Hm G) as [[_ ->]|[[E _]|E]]; [|congruence|congruence]. apply (NL v). exists v, s, n. split; [constructor|]. split; [exact Pn|]. left. split; [exists nd; auto|auto].
    + destruct (LV m nd Hm G) as (x & Hx & (E1 & _ & E3 & E4 & _) & ->). rewrite E4. apply ru2; [exact Hx|congruence|congruence| |exact Hi].
      intros b (v' & s' & n' & Hin & P' & D). apply nx_port in P' as [P' _]. apply (NL b). exists v', s', n'. split; [right; exact Hin|]. split; [exact P'|].
      destruct (nx_rest _ _ _ Hin P') as (_ & G' & _). rewrite !nx_op in D by exact G'. exact D.
  - intros m nd i Hm Ho Hk NL. destruct (gone_dec m) as [G|G].
    + exfalso. destruct (GO m nd Hm G) as [[_ ->]|[[E _]|E]]; [|congruence|congruence]. apply (NL v). exists v, s, n. split; [constructor|]. split; [exact Pn|]. left. split; [exists nd; auto|auto].
    + destruct (LV m nd Hm G) as (x & Hx & (E1 & _ & E3 & E4 & _) & ->). rewrite E4. apply ru3; [exact Hx|congruence|congruence|].
      intros b (v' & s' & n' & Hin & P' & D). apply nx_port in P' as [P' _]. apply (NL b). exists v', s', n'. split; [right; exact Hin|]. split; [exact P'|].
      destruct (nx_rest _ _ _ Hin P') as (_ & G' & _). rewrite !nx_op in D by exact G'. exact D.
  - intros m nd t c i Hm Ho Ht. destruct (gone_dec m) as [G|G]; [destruct (GO m nd Hm G) as [[E _]|[[E _]|E]]; congruence|].
    destruct (LV m nd Hm G) as (x & Hx & (E1 & _) & ->). eapply ru4; [exact Hx|congruence|apply nx_type; assumption].
  - intros m nd q a i x Hm Ho Oa Ra. destruct (gone_dec m) as [G|G]; [destruct (GO m nd Hm G) as [[E _]|[[E _]|E]]; congruence|].
    destruct (LV m nd Hm G) as (y & Hy & (E1 & _) & ->). eapply ru5; [exact Hy|rewrite <- E1; exact Ho|rewrite (OPS m nd Hm G), Oa by congruence; reflexivity|exact Ra].
  - intros m nd a i x Hm Ho Oa Ra. destruct (gone_dec m) as [G|G].
    + destruct (GO m nd Hm G) as [[E _]|[[_ ->]|E]]; [congruence| |congruence]. assert (X : has_op w n OUT) by (exists nd; auto).
      destruct (Rout X) as (d & Od & Sn & R1 & R2). rewrite Oa in Od. injection Od as ->. rewrite Sn.
      assert (Gd : ~ gone1 w v n d).
      { intros [->|(-> & _)]; [|apply (DF v s n v s n v); auto; constructor]. destruct B as [(_ & Y & _)|(_ & _ & _ & Y & _)]; [pose proof (has_op_det _ _ _ _ X Y); discriminate|].
        apply (proj1 (unread w n (proj1 W)) Y n). rewrite Oa. constructor. }
      rewrite (Sid d Gd) in Ra. exact Ra.
    + destruct (LV m nd Hm G) as (y & Hy & (E1 & _) & ->). eapply ru6; [exact Hy|congruence| |exact Ra].
      rewrite Op, Oa; [reflexivity|exact G|]. intros -> X. destruct B as [(_ & Y & _)|(_ & _ & _ & _ & _ & _ & Y)]; [pose proof (has_op_det _ _ _ _ X Y); discriminate|congruence].
  - intros m nd c arms a i xc x Hm Ho Oa Hi Rc La Ra Rb. destruct (gone_dec m) as [G|G]; [destruct (GO m nd Hm G) as [[E _]|[[E _]|E]]; congruence|].
    destruct (LV m nd Hm G) as (y & Hy & (E1 & _) & ->). eapply (ru7 m y (σ c) (map σ arms) (σ a) i xc x); [exact Hy|congruence|rewrite (OPS m nd Hm G), Oa by congruence; reflexivity|exact Hi|exact Rc| |exact Ra|].
    + rewrite list_lookup_fmap. rewrite La. reflexivity.
    + intros b Hb. apply elem_of_list_fmap in Hb as (b0 & -> & Hb). apply Rb. exact Hb.
  - intros m nd t i xs x Hm Ho Ht Hi F2 E. destruct (gone_dec m) as [G|G]; [destruct (GO m nd Hm G) as [[E' _]|[[E' _]|E']]; rewrite E' in Ho; destruct Ho|].
    destruct (LV m nd Hm G) as (y & Hy & (E1 & _) & ->). eapply ru8; [exact Hy|rewrite <- E1; exact Ho|apply nx_type; eassumption|exact Hi| |rewrite <- E1; exact E].
    rewrite (OPS m nd Hm G) by (intro X; rewrite X in Ho; exact Ho). clear -F2. induction F2; constructor; auto.
Qed.

(** the renaming follows links and outputs *)
Lemma nx_step_leads m : leads w (link w k ((v, s) :: bs)) m (σ m).
Proof.
  destruct (gone_dec m) as [G|G]; [|rewrite (Sid m G); constructor]. destruct opn as [X|X].
  - destruct G as [->|(-> & Y & _)]; [|pose proof (has_op_det _ _ _ _ X Y); discriminate]. destruct (Rin X) as [_ ->]. eapply le_link; [|constructor].
    exists v, s, n. split; [constructor|]. split; [exact Pn|auto].
  - destruct (Rout X) as (d & Od & Sn & R1 & R2). assert (Z : leads w (link w k ((v, s) :: bs)) n d) by (eapply le_out; [exact X|exact Od|constructor]).
    destruct G as [->|(-> & _ & Y)]; [rewrite Sn; exact Z|]. destruct (R1 Y) as [_ ->]. eapply le_link; [|exact Z]. exists v, s, n. split; [constructor|]. split; [exact Pn|auto].
Qed.
Lemma nx_leads x y : leads w' (link w' k bs) x y -> leads w (link w k ((v, s) :: bs)) x y.
Proof.
  induction 1 as [|a b c (v' & s' & n' & Hin & P' & D) _ IH|a b c Ho Ob _ IH]; [constructor| |].
  - apply nx_port in P' as [P' _]. destruct (nx_rest _ _ _ Hin P') as (_ & G' & _). rewrite !nx_op in D by exact G'. eapply le_link; [|exact IH].
    exists v', s', n'. split; [right; exact Hin|]. auto.
  - assert (G : ~ gone1 w v n a) by (destruct Ho as (y & Hy & _); apply nx_live; eauto). apply nx_op in Ho; [|exact G].
    destruct (decide (a = v)) as [->|Na].
    + destruct opn as [X|X].
      * rewrite Op in Ob; [|exact G|intros _ Y; pose proof (has_op_det _ _ _ _ X Y); discriminate]. destruct (operands w v) as [|b0 [|]] eqn:E; try discriminate. injection Ob as <-.
        eapply le_out; [exact Ho|exact E|]. eapply leads_trans; [apply nx_step_leads|exact IH].
      * destruct (Rout X) as (d & Od & Sn & R1 & R2). destruct (R2 Ho) as [_ O']. rewrite O' in Ob. injection Ob as <-. eapply (le_link _ _ v n).
        { exists v, s, n. split; [constructor|]. split; [exact Pn|auto]. }
        eapply le_out; [exact X|exact Od|exact IH].
    + rewrite Op in Ob; [|exact G|intro; contradiction]. destruct (operands w a) as [|b0 [|]] eqn:E; try discriminate. injection Ob as <-.
      eapply le_out; [exact Ho|exact E|]. eapply leads_trans; [apply nx_step_leads|exact IH].
Qed.
Lemma nx_ordered : ordered w k ((v, s) :: bs) -> ordered w' k bs.
Proof.
  intros H i j v1 s1 v2 s2 n1 d A D Lt P1 Ho O1 P2. apply nx_port in P1 as [P1 _], P2 as [P2 _].
  destruct (nx_rest v1 s1 n1 (elem_of_list_lookup_2 _ _ _ A) P1) as (_ & G1 & _). apply nx_op in Ho; [|exact G1].
  assert (Own1 : owner w n1 = k) by (destruct (named_port _ _ _ _ N P1) as (y & Hy & _ & E & _); unfold owner; rewrite Hy; exact E).
  assert (Own2 : owner w d = k) by (destruct (named_port _ _ _ _ N P2) as (y & Hy & _ & E & _); unfold owner; rewrite Hy; exact E).
  rewrite Op in O1; [|exact G1|intros ->; congruence]. destruct (operands w n1) as [|d0 [|]] eqn:E; try discriminate. injection O1 as <-.
  destruct (nx_sigma_driver v1 s1 n1 d0 (elem_of_list_lookup_2 _ _ _ A) P1 Ho E) as [[X Y]|[X ->]].
  - rewrite Sid in P2; [|intros [?|(? & ? & _)]; auto]. apply (H (S i) (S j) v1 s1 v2 s2 n1 d0 A D); auto. lia.
  - destruct (Rin X) as [_ Es]. congruence.
Qed.
End Next.

Record bound (w : world) (p k : nat) (bs : list (nat * string)) (w' : world) (rs : list nat) (σ : nat -> nat) : Prop := {
  bd_run : bind_all w p k bs = Ok (w', rs);
  bd_WF : WF w'; bd_named : named w';
  bd_keeps : keeps w w' (removed w k bs);
  bd_names : forall k', k' <> k -> names w' k' = names w k';
  bd_kern : forall k', is_Some (w_kern w' !! k') <-> is_Some (w_kern w !! k');
  bd_id : forall m, ~ removed w k bs m -> σ m = m;
  bd_leads : forall m, leads w (link w k bs) m (σ m);
  bd_live : forall m, is_Some (w_nodes w !! m) -> is_Some (w_nodes w' !! σ m);
  bd_rules : forall V (I : interp V) R', rules I (fun _ _ => False) w' R' -> rules I (link w k bs) w (fun m i x => R' (σ m) i x);
  bd_op : forall m, ~ removed w k bs m -> ~ (exists b, link w k bs m b /\ has_op w m OUT) -> operands w' m = map σ (operands w m);
  bd_out : forall m b d, link w k bs m b -> has_op w m OUT -> operands w b = [d] -> operands w' m = [σ d];
  bd_shp : forall m, ~ removed w k bs m -> shp w' m = shp w m \/ has_op w m OUT /\ shp w' m = [(0, true)];
  bd_type : types_match w k bs -> forall m, is_Some (w_nodes w !! m) -> ~ (exists v s, (v, s) ∈ bs /\ port w k s m /\ has_op w m OUT) -> kind_at w' (σ m) = kind_at w m;
  bd_ret : length rs = length bs /\ (ordered w k bs -> forall j v s, bs !! j = Some (v, s) -> rs !! j = Some (σ v))
}.
Lemma removed_nil w k m : ~ removed w k [] m.
Proof. intros (v & s & n & H & _). inversion H. Qed.
Lemma link_nil w k a b : ~ link w k [] a b.
Proof. intros (v & s & n & H & _). inversion H. Qed.
Lemma map_id' {A} (l : list A) : map (fun x => x) l = l.
Proof. apply map_id. Qed.

Lemma bind_all_ok p k : forall bs w, WF w -> named w -> bindings_ok w p k bs -> drivers_free w k bs -> exists w' rs σ, bound w p k bs w' rs σ.
Proof.
  induction bs as [|[v s] bs IH]; intros w W N BO DF.
  - exists w, [], (fun m => m). constructor; auto.
    + split; [|split; [|auto]]; [intros m x H; exists x; split; [exact H|split; [repeat split|apply removed_nil]]|intros m y H _; exists y; split; [exact H|repeat split]].
    + constructor.
    + intros V I R' [r1 r2 r3 r4 r5 r6 r7 r8]. constructor; auto; intros; try (eapply link_nil; eassumption); eauto. destruct (link_nil _ _ _ _ H).
    + intros m _ _. rewrite map_id'. reflexivity.
    + intros m b d H. destruct (link_nil _ _ _ _ H).
    + split; [reflexivity|]. intros _ j v s H. discriminate.
  - destruct (bo_each _ _ _ _ BO v s) as (n & B); [constructor|].
    assert (Pn : port w k s n) by (destruct B as [H|H]; apply H).
    destruct (bind_step w p k v s n W (bo_diff _ _ _ _ BO) N B) as (w1 & r & σ1 & E1 & W1 & K & Nm & Kn & Sid & Rin & Rout & Op & Shp).
    { intros Ho d Od. apply (DF v s n v s n d); auto; constructor. }
    assert (N1 : named w1) by exact (nx_named w w1 p k v s n bs N BO B K Nm).
    assert (BO1 : bindings_ok w1 p k bs) by exact (nx_bindings w w1 p k v s n r σ1 bs W N BO B W1 K Nm Sid Rin Rout Op).
    assert (DF1 : drivers_free w1 k bs) by exact (nx_drivers w w1 p k v s n r σ1 bs W N BO B DF K Nm Sid Rin Op).
    destruct (IH w1 W1 N1 BO1 DF1) as (w2 & rs & σ2 & [B1 B2 B3 B4 B5 B6 B7 B8 B9 B10 B11 B12 Bsh Bty [B13 B14]]).
    assert (GD : forall m, gone1 w v n m \/ ~ gone1 w v n m) by (intro; exact (gone_dec w p k v s n B m)).
    assert (RM : forall m, removed w k ((v, s) :: bs) m <-> gone1 w v n m \/ removed w1 k bs m).
    { intro m. split.
      - intros (v' & s' & n' & Hin & P' & D). apply elem_of_cons in Hin as [E|Hin].
        + injection E as -> ->. unfold port in P'. pose proof Pn as P0. unfold port in P0. rewrite P0 in P'. injection P' as <-. left. destruct D as [->|(-> & X & Y)]; [left; reflexivity|right; auto].
        + right. exists v', s', n'. split; [exact Hin|]. assert (Ns : s' <> s) by (eapply nx_diff; eauto). split; [apply (nx_port w w1 k s Nm); auto|].
          destruct (nx_rest w p k v s n r σ1 bs N BO B Rin v' s' n' Hin P') as (_ & G & Gv & _). rewrite (nx_op w w1 v n K n' _ G), (nx_op w w1 v n K v' _ Gv). exact D.
      - intros [G|(v' & s' & n' & Hin & P' & D)].
        + exists v, s, n. split; [constructor|]. split; [exact Pn|]. destruct G as [->|(-> & X & Y)]; auto.
        + exists v', s', n'. split; [right; exact Hin|]. apply (nx_port w w1 k s Nm) in P' as [P' _]. split; [exact P'|].
          destruct (nx_rest w p k v s n r σ1 bs N BO B Rin v' s' n' Hin P') as (_ & G & Gv & _). rewrite (nx_op w w1 v n K n' _ G), (nx_op w w1 v n K v' _ Gv) in D. exact D. }
    assert (LK : forall a b, link w k ((v, s) :: bs) a b <-> link w k [(v, s)] a b \/ link w1 k bs a b).
    { intros a b. split.
      - intros (v' & s' & n' & Hin & P' & D). apply elem_of_cons in Hin as [E|Hin].
        + left. exists v', s', n'. split; [rewrite E; constructor|]. auto.
        + right. exists v', s', n'. split; [exact Hin|]. assert (Ns : s' <> s) by (eapply nx_diff; eauto). split; [apply (nx_port w w1 k s Nm); auto|].
          destruct (nx_rest w p k v s n r σ1 bs N BO B Rin v' s' n' Hin P') as (_ & G & Gv & _). rewrite !(nx_op w w1 v n K n' _ G). exact D.
      - intros [(v' & s' & n' & Hin & P' & D)|(v' & s' & n' & Hin & P' & D)].
        + exists v', s', n'. split; [apply elem_of_list_singleton in Hin as ->; constructor|]. auto.
        + exists v', s', n'. split; [right; exact Hin|]. apply (nx_port w w1 k s Nm) in P' as [P' _]. split; [exact P'|].
          destruct (nx_rest w p k v s n r σ1 bs N BO B Rin v' s' n' Hin P') as (_ & G & Gv & _). rewrite !(nx_op w w1 v n K n' _ G) in D. exact D. }
    assert (L1 : forall a b, link w k [(v, s)] a b <-> has_op w n IN /\ a = n /\ b = v \/ has_op w n OUT /\ a = v /\ b = n).
    { intros a b. split.
      - intros (v' & s' & n' & Hin & P' & D). apply elem_of_list_singleton in Hin. injection Hin as -> ->. unfold port in P'. pose proof Pn as P0. unfold port in P0. rewrite P0 in P'. injection P' as <-. exact D.
      - intro D. exists v, s, n. split; [constructor|]. auto. }
    assert (SL : forall m, is_Some (w_nodes w !! m) -> is_Some (w_nodes w1 !! σ1 m)).
    { intros m Hm. destruct (GD m) as [G|G].
      * assert (LK1 : forall x, is_Some (w_nodes w !! x) -> ~ gone1 w v n x -> is_Some (w_nodes w1 !! x)) by (intros x H H'; apply (nx_live w w1 v n K x); auto).
        destruct B as [(_ & X & _ & Lv & Ov)|(_ & X & _ & Rn & _ & [Y|Y] & _)].
        -- destruct G as [->|(-> & Y & _)]; [|pose proof (has_op_det _ _ _ _ X Y); discriminate]. destruct (Rin X) as [_ ->]. apply LK1; [exact Lv|].
           intros [->|(_ & Y & _)]; [|pose proof (has_op_det _ _ _ _ X Y); discriminate]. destruct (named_port _ _ _ _ N Pn) as (z & Hz & _ & Em & _). unfold owner in Ov. rewrite Hz in Ov. exact (bo_diff _ _ _ _ BO (eq_trans (eq_sym Ov) Em)).
        -- destruct (Rout X) as (d & Od & Sn & R1 & R2). destruct (R1 Y) as [_ Sv]. assert (Es : σ1 m = d) by (destruct G as [->|(-> & _)]; assumption). rewrite Es.
           assert (Hd : d ∈ operands w n) by (rewrite Od; constructor). apply LK1; [apply (operands_live w n d (proj1 W) Hd)|]. intros [->|(-> & _)].
           ++ exact (proj1 (unread w n (proj1 W)) Rn n Hd).
           ++ apply (DF v s n v s n v); auto; constructor.
        -- destruct (Rout X) as (d & Od & Sn & R1 & R2). destruct G as [->|(-> & _ & Y')]; [|pose proof (has_op_det _ _ _ _ Y Y'); discriminate]. rewrite Sn.
           assert (Hd : d ∈ operands w n) by (rewrite Od; constructor). apply LK1; [apply (operands_live w n d (proj1 W) Hd)|]. intros [->|(-> & _)].
           ++ exact (proj1 (unread w n (proj1 W)) Rn n Hd).
           ++ apply (DF v s n v s n v); auto; constructor.
      * rewrite (Sid m G). apply (nx_live w w1 v n K m). auto. }
    exists w2, (r :: rs), (fun m => σ2 (σ1 m)). constructor; auto.
    + cbn. rewrite E1. cbn. rewrite B1. reflexivity.
    + destruct K as (K1 & K2 & K3 & K4 & K5 & K6), B4 as (Q1 & Q2 & Q3 & Q4 & Q5 & Q6). split; [|split; [|split; [|split; [|split]]]]; try congruence.
      * intros m x H. destruct (Q1 m x H) as (y & Hy & S1 & G1). destruct (K1 m y Hy) as (z & Hz & S2 & G2). exists z. split; [exact Hz|]. split; [eapply same_head_trans; eauto|]. rewrite RM. tauto.
      * intros m z H G. rewrite RM in G. destruct (K2 m z H) as (y & Hy & S1); [tauto|]. destruct (Q2 m y Hy) as (x & Hx & S2); [tauto|]. exists x. split; [exact Hx|]. eapply same_head_trans; eauto.
    + intros k' Nk. rewrite B5, Nm by exact Nk. rewrite decide_False by exact Nk. reflexivity.
    + intro k'. rewrite B6. apply Kn.
    + intros m G. rewrite RM in G. rewrite Sid, B7; tauto.
    + intro m. eapply leads_trans; [eapply (nx_step_leads w w1 p k v s n r σ1 bs); eauto|]. eapply (nx_leads w w1 p k v s n r σ1 bs); eauto.
    + intros V I R' HR. apply B10 in HR. exact (nx_rules w w1 p k v s n r σ1 bs W N BO B DF K Nm Sid Rin Rout Op I _ HR).
    + intros m G NT. rewrite RM in G. assert (G1 : ~ gone1 w v n m) by tauto. assert (G2 : ~ removed w1 k bs m) by tauto.
      rewrite B11; [|exact G2|].
      * rewrite Op; [rewrite map_map; reflexivity|exact G1|]. intros -> X. apply NT. exists n. split; [apply LK; left; apply L1; auto|].
        destruct B as [(_ & Y & _)|(_ & _ & _ & _ & _ & [Y|Y] & _)]; [pose proof (has_op_det _ _ _ _ X Y); discriminate|exfalso; apply G1; right; auto|exact Y].
      * intros (b & Lb & Hb). apply NT. exists b. split; [apply LK; auto|]. apply (nx_op w w1 v n K m _ G1). exact Hb.
    + intros m b d Lb Ho Ob. apply LK in Lb as [Lb|Lb].
      * apply L1 in Lb as [(X & -> & ->)|(X & -> & ->)]; [pose proof (has_op_det _ _ _ _ X Ho); discriminate|].
        destruct (Rout X) as (d' & Od & Sn & R1 & R2). rewrite Ob in Od. injection Od as <-. destruct (R2 Ho) as [_ O1].
        assert (Gv : ~ gone1 w v n v). { intros [->|(_ & _ & Y)]; [|pose proof (has_op_det _ _ _ _ Ho Y); discriminate]. destruct B as [(_ & Y & _)|(_ & _ & _ & _ & Ov & _)]; [pose proof (has_op_det _ _ _ _ X Y); discriminate|].
          destruct (named_port _ _ _ _ N Pn) as (z & Hz & _ & Em & _). unfold owner in Ov. rewrite Hz in Ov. exact (bo_diff _ _ _ _ BO (eq_trans (eq_sym Ov) Em)). }
        assert (Gd : ~ gone1 w v n d). { intros [->|(-> & _)]; [|apply (DF v s n v s n v); auto; constructor]. destruct B as [(_ & Y & _)|(_ & _ & _ & Rn & _)]; [pose proof (has_op_det _ _ _ _ X Y); discriminate|].
          apply (proj1 (unread w n (proj1 W)) Rn n). rewrite Ob. constructor. }
        rewrite (Sid d Gd). rewrite B11, O1; [reflexivity| |].
        -- intros (v' & s' & n' & Hin & P' & D). apply (nx_port w w1 k s Nm) in P' as [P' _]. destruct (nx_rest w p k v s n r σ1 bs N BO B Rin v' s' n' Hin P') as (_ & _ & _ & _ & T1).
           destruct D as [->|(E & _)]; [|exact (T1 X (eq_sym E))]. destruct (named_port _ _ _ _ N P') as (z & Hz & _ & Em & _). destruct B as [(_ & Y & _)|(_ & _ & _ & _ & Ov & _)]; [pose proof (has_op_det _ _ _ _ X Y); discriminate|].
           unfold owner in Ov. rewrite Hz in Ov. exact (bo_diff _ _ _ _ BO (eq_trans (eq_sym Ov) Em)).
        -- intros (b & (v' & s' & n' & Hin & P' & D) & _). apply (nx_port w w1 k s Nm) in P' as [P' _]. destruct (nx_rest w p k v s n r σ1 bs N BO B Rin v' s' n' Hin P') as (_ & G' & _ & _ & T1).
           destruct D as [(Y & E & _)|(_ & E & _)]; [|exact (T1 X (eq_sym E))]. apply (nx_op w w1 v n K n' _ G') in Y. rewrite <- E in Y. pose proof (has_op_det _ _ _ _ Ho Y). discriminate.
      * assert (Lb' := Lb). destruct Lb' as (v' & s' & n' & Hin & P' & D). apply (nx_port w w1 k s Nm) in P' as [P' _]. destruct (nx_rest w p k v s n r σ1 bs N BO B Rin v' s' n' Hin P') as (_ & G' & Gv & T2 & T1).
        rewrite !(nx_op w w1 v n K n' _ G') in D. destruct D as [(Y & -> & _)|(Y & -> & ->)]; [pose proof (has_op_det _ _ _ _ Ho Y); discriminate|].
        assert (On' : operands w1 n' = [σ1 d]). { rewrite Op, Ob; [reflexivity|exact G'|]. intro Env. exfalso. destruct (named_port _ _ _ _ N P') as (z & Hz & _ & Em & _).
          assert (Ov : owner w v = p) by (destruct B as [(_ & _ & _ & _ & H)|(_ & _ & _ & _ & H & _)]; exact H). unfold owner in Ov. rewrite <- Env, Hz in Ov. exact (bo_diff _ _ _ _ BO (eq_trans (eq_sym Ov) Em)). }
        apply (B12 v' n' (σ1 d) Lb); [apply (nx_op w w1 v n K v' _ Gv); exact Ho|exact On'].
    + intros m G. rewrite RM in G. assert (G1 : ~ gone1 w v n m) by tauto. assert (G2 : ~ removed w1 k bs m) by tauto.
      destruct (Bsh m G2) as [->|[X Y]]; [apply Shp; exact G1|right]. split; [|exact Y]. apply (nx_op w w1 v n K m _ G1). exact X.
    + intros TM m Lm NO. assert (Nn : m = n -> ~ has_op w n OUT) by (intros -> X; apply NO; exists v, s; split; [constructor|auto]).
      rewrite <- (nx_type_step w w1 p k v s n r σ1 bs W N BO B DF K Sid Rin Rout m TM Lm Nn). apply Bty.
      * exact (nx_types w w1 p k v s n r σ1 bs W N BO B DF K Nm Sid Rin Rout Op TM).
      * apply SL, Lm.
      * intros (v' & s' & Hin & P' & X'). apply (nx_port w w1 k s Nm) in P' as [P' _]. destruct (nx_rest w p k v s n r σ1 bs N BO B Rin v' s' _ Hin P') as (Nn' & G' & Gv & T2 & T1).
        apply (nx_op w w1 v n K _ _ G') in X'. destruct (GD m) as [G|G]; [|rewrite (Sid m G) in *; apply NO; exists v', s'; split; [right; exact Hin|auto]].
        destruct (named_port _ _ _ _ N P') as (z & Hz & _ & Em & _).
        assert (Ov : owner w v = p) by (destruct B as [(_ & _ & _ & _ & H)|(_ & _ & _ & _ & H & _)]; exact H).
        destruct G as [->|(-> & X & Y)].
        -- destruct B as [(_ & X & _)|(_ & X & _)]; [|exact (Nn eq_refl X)]. destruct (Rin X) as [_ Es]. rewrite Es in *. unfold owner in Ov. rewrite Hz in Ov. exact (bo_diff _ _ _ _ BO (eq_trans (eq_sym Ov) Em)).
        -- destruct (Rout X) as (d & Od & _ & R1 & _). destruct (R1 Y) as [_ Es]. rewrite Es in *. destruct (bo_each _ _ _ _ BO v' s') as (n2 & Bq); [right; exact Hin|].
           assert (n2 = d) by (assert (Q : port w k s' n2) by (destruct Bq as [Z|Z]; apply Z); unfold port in Q, P'; congruence). subst n2.
           destruct Bq as [(_ & Z & _)|(_ & _ & _ & Rd & _)]; [pose proof (has_op_det _ _ _ _ X' Z); discriminate|]. apply (proj1 (unread w d (proj1 W)) Rd n). rewrite Od. constructor.
    + split; [cbn; congruence|]. intros Ord j v' s' Hj. destruct j as [|j].
      * injection Hj as <- <-. cbn. f_equal.
        assert (Es : r = σ1 v).
        { destruct B as [(_ & X & _ & _ & Ov)|(_ & X & _ & _ & Ov & [Y|Y] & _)].
          - destruct (Rin X) as [-> _]. symmetry. apply Sid. intros [->|(_ & Y & _)]; [|pose proof (has_op_det _ _ _ _ X Y); discriminate].
            destruct (named_port _ _ _ _ N Pn) as (z & Hz & _ & Em & _). unfold owner in Ov. rewrite Hz in Ov. exact (bo_diff _ _ _ _ BO (eq_trans (eq_sym Ov) Em)).
          - destruct (Rout X) as (d & _ & _ & R1 & _). destruct (R1 Y). congruence.
          - destruct (Rout X) as (d & _ & _ & _ & R2). destruct (R2 Y) as [-> _]. symmetry. apply Sid. intros [->|(_ & _ & Y')]; [|pose proof (has_op_det _ _ _ _ Y Y'); discriminate].
            destruct (named_port _ _ _ _ N Pn) as (z & Hz & _ & Em & _). unfold owner in Ov. rewrite Hz in Ov. exact (bo_diff _ _ _ _ BO (eq_trans (eq_sym Ov) Em)). }
        rewrite <- Es. symmetry. apply B7. intros (v' & s' & n' & Hin & P' & D). apply (nx_port w w1 k s Nm) in P' as [P' _]. destruct (nx_rest w p k v s n r σ1 bs N BO B Rin v' s' n' Hin P') as (_ & G' & Gv & T2 & T1).
        rewrite (nx_op w w1 v n K n' _ G'), (nx_op w w1 v n K v' _ Gv) in D. destruct (elem_of_list_lookup_1 _ _ Hin) as [j Hj].
        assert (Ov : owner w v = p) by (destruct B as [(_ & _ & _ & _ & H)|(_ & _ & _ & _ & H & _)]; exact H).
        assert (Nv : v <> n') by (intros ->; destruct (named_port _ _ _ _ N P') as (z & Hz & _ & Em & _); unfold owner in Ov; rewrite Hz in Ov; exact (bo_diff _ _ _ _ BO (eq_trans (eq_sym Ov) Em))).
        destruct B as [(_ & X & _ & _ & _)|(_ & X & _ & _ & _ & [Y|Y] & _)].
        -- destruct (Rin X) as [-> _]. destruct D as [E|(E & Z & _)]; [auto|exact (T2 Z (eq_sym E))].
        -- destruct (Rout X) as (d & Od & _ & R1 & _). destruct (R1 Y) as [-> _]. destruct D as [->|(-> & Z & _)].
           ++ apply (Ord 0 (S j) v s v' s' n n'); auto. lia.
           ++ apply (DF v s n v' s' n' v'); auto; constructor; auto.
        -- destruct (Rout X) as (d & Od & _ & _ & R2). destruct (R2 Y) as [-> _]. destruct D as [E|(E & Z & _)]; [auto|exact (T2 Z (eq_sym E))].
      * change (bs !! j = Some (v', s')) in Hj. change (rs !! j = Some (σ2 (σ1 v'))). rewrite (B14 (nx_ordered w w1 p k v s n r σ1 bs W N BO B DF K Nm Sid Rin Op Ord) j v' s' Hj). f_equal. f_equal. symmetry. apply Sid.
        destruct (bo_each _ _ _ _ BO v' s') as (n' & B'); [right; eapply elem_of_list_lookup_2; exact Hj|].
        assert (P' : port w k s' n') by (destruct B' as [H|H]; apply H). apply (nx_rest w p k v s n r σ1 bs N BO B Rin v' s' n' (elem_of_list_lookup_2 _ _ _ Hj) P').
Qed.
