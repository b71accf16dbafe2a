(** The ASAP pass completes on every well-formed program of bounded size (proofs). *)
From Coq Require Import ZArith Bool Lia String.
From stdpp Require Import list.
From Verif Require Import Types Value Graph Dfcir StreamSpec Sched SchedSpec SchedProofs DfcirProofs SchedStream SchedMain SchedFinal.
Local Open Scope Z_scope.
Local Arguments nearest : simpl never.

Lemma i32_ok z : - 2 ^ 31 <= z < 2 ^ 31 -> i32 z = Some z.
Proof. intro H. unfold i32. destruct (Z.leb_spec (- 2 ^ 31) z), (Z.ltb_spec z (2 ^ 31)); cbn; try reflexivity; lia. Qed.

Lemma wrap32_small d : - 2 ^ 31 <= d < 2 ^ 31 -> wrap32 d = d.
Proof. intro H. unfold wrap32. rewrite Z.mod_small; lia. Qed.

Section Progress.
Variable P : program.
Hypothesis WF : wfp P.
Hypothesis CB : connects_back P.
Variables (M Lm : Z).
Hypothesis M0 : 0 <= M.
Hypothesis L1 : 1 <= Lm.
Hypothesis OFF : forall v d k t l a, Def v (DOffset d) k t l a ∈ P -> - M <= d <= M.
Hypothesis LAT : forall v o k t l a, Def v o k t l a ∈ P -> is_scheduled o = true -> 0 <= l <= Lm.
Let N := Z.of_nat (length P).
Let W := Lm + N * M.
Hypothesis FIT : N * W < 2 ^ 31.

Let ND := wp_defs P WF.
Let DN := wp_dests P WF.

Definition rk (x : nat) : nat := match list_find (fun y => y = x) (defs P) with Some (i, _) => i | None => 0%nat end.

Lemma rk_lookup i x : defs P !! i = Some x -> rk x = i.
Proof.
  intro H. unfold rk. assert (list_find (fun y => y = x) (defs P) = Some (i, x)) as ->; [|reflexivity].
  apply list_find_Some. split; [assumption|]. split; [reflexivity|]. intros j y Hj Lj ->.
  pose proof (NoDup_lookup _ _ _ _ ND H Hj). lia.
Qed.
Lemma defs_length (Q : program) : (length (defs Q) <= length Q)%nat.
Proof. induction Q as [|[] Q IH]; cbn; [lia| |]; unfold defs in *; cbn; lia. Qed.
Lemma rk_lt x : x ∈ defs P -> (rk x < length P)%nat.
Proof.
  intro H. apply elem_of_list_lookup in H as (i & Hi). rewrite (rk_lookup _ _ Hi). apply lookup_lt_Some in Hi.
  pose proof (defs_length P). lia.
Qed.
Lemma rk_before p r o k t l a q x : P = p ++ Def r o k t l a :: q -> x ∈ defs p -> (rk x < rk r)%nat.
Proof.
  intros E H. apply elem_of_list_lookup in H as (i & Hi). pose proof (lookup_lt_Some _ _ _ Hi).
  assert (X1 : defs P !! i = Some x) by (rewrite E, defs_app, lookup_app_l by assumption; assumption).
  assert (X2 : defs P !! length (defs p) = Some r) by (rewrite E, defs_app, lookup_app_r, Nat.sub_diag by lia; reflexivity).
  rewrite (rk_lookup _ _ X1), (rk_lookup _ _ X2). assumption.
Qed.

(** hops stay inside a prefix *)
Lemma hop_prefix p q v s d : P = p ++ q -> v ∈ defs p -> hop P v s d -> s ∈ defs p /\ (rk s < rk v)%nat.
Proof.
  intros E Hv Hp.
  assert (exists o k t l a p1 q1, p = p1 ++ Def v o k t l a :: q1) as (o & k & t & l & a & p1 & q1 & Ep).
  { apply defs_elem in Hv as (o & k & t & l & a & Hv). apply elem_of_list_split in Hv as (p1 & q1 & ->). eauto 10. }
  assert (E' : P = p1 ++ Def v o k t l a :: (q1 ++ q)) by (rewrite E, Ep, <- app_assoc; reflexivity).
  assert (s ∈ defs p1) as Hs.
  { destruct Hp as [v d k' t' l' s Hd|v s Hd].
    - assert (Def v o k t l a ∈ P) as Hd' by (rewrite E'; apply elem_of_app; right; left).
      pose proof (def_unique _ _ _ _ _ _ _ _ _ _ _ _ ND Hd Hd') as Y. injection Y as -> -> -> -> ->.
      eapply (wp_dom P WF); [exact E'|]. left.
    - eapply CB; [exact E'|exact Hd]. }
  split; [rewrite Ep, defs_app; apply elem_of_app; left; assumption|]. eapply rk_before; [exact E'|exact Hs].
Qed.
Lemma hops_prefix p q v s d : P = p ++ q -> hops P v s d -> v ∈ defs p -> s ∈ defs p /\ (rk s <= rk v)%nat.
Proof.
  intros E Hh. induction Hh as [|v s d u e Hp Hh IH]; [auto|]. intro Hv. destruct (hop_prefix p q v s d E Hv Hp) as [X Y].
  destruct (IH X) as [X' Y']. split; [assumption|lia].
Qed.

Lemma N1 x : x ∈ defs P -> Z.of_nat (rk x) + 1 <= N.
Proof. intro H. pose proof (rk_lt x H). unfold N. lia. Qed.
Lemma NM : 0 <= N * M. Proof. apply Z.mul_nonneg_nonneg; [unfold N; lia|assumption]. Qed.
Lemma W1 : Lm <= W. Proof. unfold W. pose proof NM. lia. Qed.

Lemma resolve_progress : forall f v acc, v ∈ defs P -> (rk v < f)%nat ->
  - ((N - 1 - Z.of_nat (rk v)) * M) <= acc <= (N - 1 - Z.of_nat (rk v)) * M ->
  exists s off, resolve P f v acc = Some (s, off) /\ - (N * M) <= off <= N * M.
Proof.
  induction f as [|f IH]; intros v acc Hv Lf Ha; [lia|].
  pose proof (N1 v Hv) as Nv.
  assert (Step : forall s d, hop P v s d -> s ∈ defs P /\ (rk s < f)%nat).
  { intros s d Hp. destruct (hop_prefix P [] v s d ltac:(rewrite app_nil_r; reflexivity) Hv Hp). split; [assumption|lia]. }
  assert (HN : N * M < 2 ^ 31).
  { assert (1 <= N) by lia. assert (N * M <= W) by (unfold W; lia). assert (0 <= W) by (pose proof W1; lia). nia. }
  cbn [resolve].
  assert (Hcon : (forall d k t l a, Def v (DOffset d) k t l a ∉ P) -> exists s off,
     match con_of P v with Some s => resolve P f s acc | None => Some (v, acc) end = Some (s, off) /\ - (N * M) <= off <= N * M).
  { intros _. destruct (con_of P v) as [s|] eqn:Ec.
    - apply con_of_in in Ec. destruct (Step s 0 ltac:(constructor; assumption)) as [S1 S2].
      destruct (hop_prefix P [] v s 0 ltac:(rewrite app_nil_r; reflexivity) Hv ltac:(constructor; assumption)) as [_ R1].
      apply IH; [assumption|assumption|]. nia.
    - exists v, acc. split; [reflexivity|]. nia. }
  pose proof Hv as Hv0. apply defs_elem in Hv as (o & k & t & l & a & Hd).
  rewrite (op_of_def _ _ _ _ _ _ _ ND Hd), (def_of_def _ _ _ _ _ _ _ ND Hd).
  destruct o; try (apply Hcon; intros d0 k0 t0 l0 a0 X; pose proof (def_unique _ _ _ _ _ _ _ _ _ _ _ _ ND Hd X) as Y; discriminate Y).
  pose proof (wp_off P WF _ _ _ _ _ _ Hd) as La. destruct a as [|s [|]]; cbn in La; try lia.
  pose proof (OFF _ _ _ _ _ _ Hd) as Od.
  assert (Hp : hop P v s (wrap32 offset)) by (econstructor; exact Hd).
  destruct (hop_prefix P [] v s _ ltac:(rewrite app_nil_r; reflexivity) Hv0 Hp) as [S1 R1].
  assert (MN : M <= N * M) by nia.
  rewrite wrap32_small by lia.
  pose proof (N1 s S1) as Ns.
  assert (Ha' : - ((N - 1 - Z.of_nat (rk s)) * M) <= acc + offset <= (N - 1 - Z.of_nat (rk s)) * M) by nia.
  rewrite i32_ok by nia.
  destruct (con_of P s) as [s'|] eqn:Ec.
  - apply con_of_in in Ec.
    destruct (hop_prefix P [] s s' 0 ltac:(rewrite app_nil_r; reflexivity) S1 ltac:(constructor; assumption)) as [S2 R2].
    apply IH; [assumption|lia|]. nia.
  - apply IH; [assumption|lia|]. assumption.
Qed.

Lemma nearest_progress p q v : P = p ++ q -> v ∈ defs p ->
  exists s off, nearest P v = Some (s, off) /\ - (N * M) <= off <= N * M /\ s ∈ defs p /\ (rk s <= rk v)%nat /\ final P s.
Proof.
  intros E Hv. assert (HvP : v ∈ defs P) by (rewrite E, defs_app; apply elem_of_app; left; assumption).
  destruct (resolve_progress (S (length P)) v 0 HvP) as (s & off & Er & Bo).
  - pose proof (rk_lt v HvP). lia.
  - pose proof (N1 v HvP). nia.
  - exists s, off. split; [exact Er|]. split; [exact Bo|]. destruct (nearest_hops P WF _ _ _ Er) as [Fs Hh].
    destruct (hops_prefix p q v s off E Hh Hv) as [X Y]. auto.
Qed.

Lemma final_node p s : (forall x, x ∈ p -> x ∈ P) -> s ∈ defs p -> final P s -> s ∈ node_ids p.
Proof.
  intros Sub H [_ Fs]. apply defs_elem in H as (o & k & t & l & a & H). unfold node_ids. apply elem_of_list_omap.
  exists (Def s o k t l a). split; [assumption|]. destruct o; try reflexivity. exfalso. eapply Fs. apply Sub. exact H.
Qed.
Lemma node_ids_app A B : node_ids (A ++ B) = node_ids A ++ node_ids B.
Proof. unfold node_ids. apply omap_app. Qed.

Lemma op_chans_progress p q tgt done : P = p ++ q -> (forall x, x ∈ node_ids p -> x ∈ done) ->
  forall args i, (forall a, a ∈ args -> a ∈ defs p) -> exists cs, op_chans P done tgt i args = Some cs.
Proof.
  intros E Hd. assert (Sub : forall x, x ∈ p -> x ∈ P) by (intros; rewrite E; apply elem_of_app; left; assumption).
  induction args as [|a args IH]; intros i Ha; [eexists; reflexivity|].
  cbn [op_chans]. destruct (nearest_progress p q a E (Ha a ltac:(left))) as (s & off & En & _ & Hs & _ & Fs). rewrite En.
  rewrite bool_decide_true by (apply Hd, final_node; assumption).
  destruct (IH (i + 1) ltac:(intros; apply Ha; right; assumption)) as (cs & Ecs). rewrite Ecs. eauto.
Qed.

Lemma construct_progress : forall rest p done, P = p ++ rest -> (forall x, x ∈ node_ids p -> x ∈ done) ->
  exists r, construct P done rest = Some r.
Proof.
  induction rest as [|s rest IH]; intros p done E Hd; [eexists; reflexivity|].
  cbn [construct].
  assert (exists ns cs, process P done s = Some (ns, cs) /\ (forall x, x ∈ node_ids (p ++ [s]) -> x ∈ map s_id ns ++ done)) as (ns & cs & Ep & Hx).
  { assert (Sub : forall x, x ∈ p -> x ∈ P) by (intros; rewrite E; apply elem_of_app; left; assumption).
    rewrite node_ids_app. destruct s as [r o k t l args|d v].
    - assert (Harg : forall a, a ∈ args -> a ∈ defs p) by (intros a Ha; eapply (wp_dom P WF); [exact E|exact Ha]).
      destruct (op_chans_progress p (Def r o k t l args :: rest) r (r :: done) E ltac:(intros x X; right; auto) args 0 Harg) as (cs & Ecs).
      cbn [process]. destruct o; rewrite ?Ecs; (eexists _, _; split; [reflexivity|]); intros x X; apply elem_of_app in X as [X|X]; cbn in *;
        try (apply elem_of_list_singleton in X as ->); try (inversion X; fail); rewrite ?elem_of_cons; auto.
    - cbn [process]. assert (Hd' : d ∈ defs p) by (eapply (wp_dst P WF); exact E).
      assert (Hv : v ∈ defs p) by (eapply (wp_dom P WF); [exact E|left]).
      assert (Hc : Con d v ∈ P) by (rewrite E; apply elem_of_app; right; left).
      assert (Tr : forall x, x ∈ node_ids p ++ node_ids [Con d v] -> x ∈ done).
      { intros x X. apply elem_of_app in X as [X|X]; [auto|inversion X]. }
      destruct (wp_con P WF _ _ Hc) as (sc & nm & k & t & l & a & HD). rewrite (op_of_def _ _ _ _ _ _ _ ND HD).
      destruct (nearest_progress p _ v E Hv) as (s & off & En & _ & Hs & _ & Fs). rewrite En.
      rewrite bool_decide_true by (apply Hd, final_node; assumption).
      rewrite bool_decide_true. 2:{ apply Hd. unfold node_ids. apply elem_of_list_omap.
        apply defs_elem in Hd' as (o & k' & t' & l' & a' & Hd'). exists (Def d o k' t' l' a'). split; [assumption|].
        pose proof (def_unique _ _ _ _ _ _ _ _ _ _ _ _ ND HD (Sub _ Hd')) as Y. injection Y as -> _ _ _ _. reflexivity. }
      cbn. eexists _, _. split; [reflexivity|]. cbn. exact Tr. }
  rewrite Ep. destruct (IH (p ++ [s]) (map s_id ns ++ done)) as ([ns' cs'] & Er).
  { rewrite <- app_assoc. exact E. } { exact Hx. }
  rewrite Er. eexists. reflexivity.
Qed.

Lemma sgraph_progress : exists ns cs, sgraph P = Some (ns, cs).
Proof. destruct (construct_progress P [] [] eq_refl) as ([ns cs] & E); [intros x X; inversion X|]. exists ns, cs. exact E. Qed.

(** channels go forward and have bounded offsets *)
Section Graph.
Variables (ns : list snode) (cs : list schan).
Hypothesis EG : sgraph P = Some (ns, cs).

Lemma chan_fwd c : c ∈ cs -> (rk (sc_src c) < rk (sc_tgt c))%nat /\ sc_src c ∈ defs P /\ sc_tgt c ∈ defs P /\ - (N * M) <= sc_off c <= N * M.
Proof.
  intro Hc. destruct (construct_spec P WF P [] ns cs ltac:(auto) EG) as (_ & _ & C3 & _).
  destruct (C3 c Hc) as (st & Hst & Hco). apply elem_of_list_split in Hst as (p & q & E).
  destruct Hco as [r o k t l args i a Ho Ha Hn Ht Hi|d v sc nm Hop Hn Ht Hi].
  - assert (Hap : a ∈ defs p) by (eapply (wp_dom P WF); [exact E|apply elem_of_list_lookup_2 in Ha; exact Ha]).
    destruct (nearest_progress p _ a E Hap) as (s & off & En & Bo & Hs & Rs & _). rewrite Hn in En. injection En as <- <-.
    pose proof (rk_before _ _ _ _ _ _ _ _ _ E Hap). rewrite Ht. split; [lia|]. split; [rewrite E, defs_app; apply elem_of_app; left; assumption|].
    split; [|exact Bo]. rewrite E, defs_app. apply elem_of_app. right. left.
  - assert (Hc' : Con d v ∈ P) by (rewrite E; apply elem_of_app; right; left).
    destruct (wp_con P WF _ _ Hc') as (sc' & nm' & k & t & l & a & HD). apply elem_of_list_split in HD as (p1 & q1 & E1).
    pose proof (CB _ _ _ _ _ _ _ _ _ E1 Hc') as Hv.
    destruct (nearest_progress p1 _ v E1 Hv) as (s & off & En & Bo & Hs & Rs & _). rewrite Hn in En. injection En as <- <-.
    pose proof (rk_before _ _ _ _ _ _ _ _ _ E1 Hv). rewrite Ht. split; [lia|]. split; [rewrite E1, defs_app; apply elem_of_app; left; assumption|].
    split; [|exact Bo]. rewrite E1, defs_app. apply elem_of_app. right. left.
Qed.

Lemma nodes_lat n : n ∈ ns -> 0 <= s_lat n <= Lm /\ s_id n ∈ defs P.
Proof.
  intro H. destruct (construct_spec P WF P [] ns cs ltac:(auto) EG) as (_ & C2 & _). destruct (C2 n H) as (k & t & l & a & Hd & El).
  split; [|apply defs_elem; eauto 10]. rewrite El. destruct (is_scheduled (s_op n)) eqn:Es; [|lia]. eapply LAT; eassumption.
Qed.

Lemma Wpos : 1 <= W. Proof. pose proof NM. unfold W. lia. Qed.

Lemma asap_chans_progress n : n ∈ ns -> forall l m mx, (forall c, c ∈ l -> c ∈ cs /\ sc_src c = s_id n) ->
  (forall x, 0 <= m x <= Z.of_nat (rk x) * W) ->
  exists m' mx', asap_chans ns n l m mx = Some (m', mx') /\ forall x, 0 <= m' x <= Z.of_nat (rk x) * W.
Proof.
  intro Hn. destruct (nodes_lat n Hn) as [Ll Hd]. pose proof Wpos as Wp. pose proof NM as Nm.
  induction l as [|c l IH]; intros m mx Hl Hm; [eexists _, _; split; [reflexivity|assumption]|].
  cbn [asap_chans]. destruct (Hl c ltac:(left)) as [Hc Es]. destruct (chan_fwd c Hc) as (Rf & _ & Ht & Bo). rewrite Es in Rf.
  pose proof (Hm (s_id n)) as Hmn. pose proof (N1 _ Hd) as Nn. pose proof (N1 _ Ht) as Nt.
  assert (B1 : (Z.of_nat (rk (s_id n)) + 1) * W <= Z.of_nat (rk (sc_tgt c)) * W) by (apply Z.mul_le_mono_nonneg_r; lia).
  assert (B2 : Z.of_nat (rk (sc_tgt c)) * W <= N * W) by (apply Z.mul_le_mono_nonneg_r; lia).
  assert (LW : Lm + N * M = W) by reflexivity.
  assert (NW : N * M <= W) by lia.
  assert (NW2 : N * M < 2 ^ 31) by nia.
  rewrite i32_ok by lia. rewrite i32_ok by lia.
  apply IH; [intros; apply Hl; right; assumption|].
  intro x. destruct (m (sc_tgt c) <? _) eqn:El; [|apply Hm]. unfold upd. destruct (Nat.eqb_spec x (sc_tgt c)) as [->|]; [|apply Hm].
  apply Z.ltb_lt in El. pose proof (Hm (sc_tgt c)). lia.
Qed.

Lemma asap_nodes_progress : forall rest m mx, (forall n, n ∈ rest -> n ∈ ns) -> (forall x, 0 <= m x <= Z.of_nat (rk x) * W) ->
  exists m' mx', asap_nodes ns cs rest m mx = Some (m', mx') /\ forall x, 0 <= m' x <= Z.of_nat (rk x) * W.
Proof.
  induction rest as [|n rest IH]; intros m mx Hr Hm; [eexists _, _; split; [reflexivity|assumption]|].
  cbn [asap_nodes]. pose proof (Hr n ltac:(left)) as Hn. destruct (nodes_lat n Hn) as [Ll _].
  destruct (Z.ltb_spec (s_lat n) 0); [lia|].
  destruct (asap_chans_progress n Hn (outputs_of cs (s_id n)) m mx) as (m1 & mx1 & E1 & H1).
  { intros c Hc. apply outputs_of_spec in Hc. assumption. } { assumption. }
  rewrite E1. apply IH; [intros; apply Hr; right; assumption|assumption].
Qed.

Lemma asap_buffers_progress m : (forall x, 0 <= m x <= Z.of_nat (rk x) * W) ->
  forall l, (forall c, c ∈ l -> c ∈ cs) -> exists bs, asap_buffers ns m l = Some bs.
Proof.
  intro Hm. pose proof Wpos as Wp. pose proof NM as Nm.
  induction l as [|c l IH]; intro Hl; [eexists; reflexivity|]. cbn [asap_buffers].
  destruct (chan_fwd c (Hl c ltac:(left))) as (Rf & Hs & Ht & Bo).
  pose proof (Hm (sc_src c)) as H1. pose proof (Hm (sc_tgt c)) as H2. pose proof (N1 _ Hs) as Ns. pose proof (N1 _ Ht) as Nt.
  assert (Lc : 0 <= node_lat ns (sc_src c) <= Lm).
  { unfold node_lat. destruct (List.find _ ns) as [n|] eqn:En; [|lia]. apply in_find in En as [En _]. apply nodes_lat. assumption. }
  assert (B1 : (Z.of_nat (rk (sc_src c)) + 1) * W <= Z.of_nat (rk (sc_tgt c)) * W) by (apply Z.mul_le_mono_nonneg_r; lia).
  assert (B2 : (Z.of_nat (rk (sc_tgt c)) + 1) * W <= N * W) by (apply Z.mul_le_mono_nonneg_r; lia).
  assert (LW : Lm + N * M = W) by reflexivity.
  rewrite i32_ok by lia. rewrite i32_ok by lia. rewrite i32_ok by lia.
  destruct IH as (bs & E); [intros; apply Hl; right; assumption|]. rewrite E. destruct (_ && _); eauto.
Qed.
End Graph.
End Progress.

(** ** Insertion of buffers *)
Lemma insert_progress P fr : forall bs B P2 f, buffered P fr B P2 f ->
  NoDup (map (fun x => key (fst x)) bs) ->
  (forall c z, (c, z) ∈ bs -> 0 < z /\ B (sc_tgt c) (sc_ind c) = 0 /\ (sc_tgt c < fr)%nat /\
     (forall d k t l a, Def (sc_tgt c) (DOffset d) k t l a ∉ P) /\
     ((0 <= sc_ind c /\ exists o k t l a, Def (sc_tgt c) o k t l a ∈ P /\ (Z.to_nat (sc_ind c) < length a)%nat) \/
      (sc_ind c = -1 /\ exists v, Con (sc_tgt c) v ∈ P))) ->
  exists P3, insert_buffers P2 bs f = Some P3.
Proof.
  induction bs as [|[c z] bs IH]; intros B P2 f H Nd Hc; [eexists; reflexivity|].
  cbn [insert_buffers]. destruct (Hc c z ltac:(left)) as (Zp & C1 & C2 & C3 & C4).
  assert (exists P', insert_buffer P2 c z f = Some P') as (P' & E).
  { unfold insert_buffer. destruct (Z.leb_spec z 0); [lia|].
    destruct C4 as [(I0 & o & k & t & l & a & Hd & La)|(I1 & v & Hv)].
    - destruct (Z.leb_spec 0 (sc_ind c)); [|lia]. destruct (bf_def _ _ _ _ _ H _ _ _ _ _ _ Hd) as (a2 & X1 & X2 & _).
      rewrite (def_of_def _ _ _ _ _ _ _ (bf_nd _ _ _ _ _ H) X1).
      destruct (a2 !! Z.to_nat (sc_ind c)) as [x|] eqn:Ex; [|apply lookup_ge_None in Ex; lia].
      destruct (val_ty P2 x). eauto.
    - destruct (Z.leb_spec 0 (sc_ind c)); [lia|]. rewrite I1. cbn. destruct (bf_con _ _ _ _ _ H _ _ Hv) as (s2 & X1 & _).
      rewrite (con_of_con _ _ _ (bf_dn _ _ _ _ _ H) X1). destruct (val_ty P2 s2). eauto. }
  rewrite E. cbn in Nd. apply NoDup_cons in Nd as [N1 N2].
  eapply IH; [eapply buffered_step; eassumption|exact N2|].
  intros c' z' Hc'. destruct (Hc c' z' ltac:(right; assumption)) as (D0 & D1 & D2 & D3 & D4).
  split; [assumption|]. split; [|auto]. unfold updB.
  destruct (Nat.eqb_spec (sc_tgt c') (sc_tgt c)) as [Et|]; [|assumption].
  destruct (Z.eqb_spec (sc_ind c') (sc_ind c)) as [Ei|]; [|assumption].
  exfalso. apply N1. apply elem_of_list_fmap. exists (c', z'). split; [|assumption]. unfold key. cbn. congruence.
Qed.

(** every requested buffer is positive and names an existing operand or connect *)
Lemma buffers_good P ns cs m mx bs : wfp P -> connects_back P -> narrow P -> sgraph P = Some (ns, cs) ->
  asap_nodes ns cs ns (fun _ => 0) 0 = Some (m, mx) -> asap_buffers ns m cs = Some bs ->
  forall c z, (c, z) ∈ bs -> 0 < z /\ (sc_tgt c < fresh P)%nat /\
     (forall d k t l a, Def (sc_tgt c) (DOffset d) k t l a ∉ P) /\
     ((0 <= sc_ind c /\ exists o k t l a, Def (sc_tgt c) o k t l a ∈ P /\ (Z.to_nat (sc_ind c) < length a)%nat) \/
      (sc_ind c = -1 /\ exists v, Con (sc_tgt c) v ∈ P)).
Proof.
  intros WF CB NR EG EN EB c z Hb.
  assert (NS := back_no_self P ns cs WF CB EG). assert (OD := sgraph_ordered P WF ns cs EG).
  destruct (asap_nodes_spec ns cs OD NS m mx EN) as ((F1 & F2) & _).
  destruct (asap_buffers_spec ns m cs bs EB) as [B1 _]. destruct (B1 c z Hb) as (Hc & Ez & Nz & Nc).
  split. { pose proof (F2 c Hc). lia. }
  assert (Hfr : forall o k t l a, Def (sc_tgt c) o k t l a ∈ P -> (sc_tgt c < fresh P)%nat).
  { intros. apply (fresh_spec P). eexists. split; [eassumption|]. left. }
  destruct (construct_spec P WF P [] ns cs ltac:(auto) EG) as (_ & _ & C3 & _).
  destruct (C3 c Hc) as (st & Hst & Hco).
  destruct Hco as [r o k t l args i a Ho Ha Hn Ht Hi|d v sc nm Hop Hn Ht Hi].
  - subst r. split; [eapply Hfr; exact Hst|]. split.
    { intros d k' t' l' a' X. pose proof (def_unique _ _ _ _ _ _ _ _ _ _ _ _ (wp_defs P WF) Hst X) as Y. injection Y as <- _ _ _ _. discriminate. }
    left. pose proof (narrow' P WF NR ns cs EG _ _ _ _ _ _ _ _ _ _ Hst Ho Ha Hn Nc) as L. rewrite Hi, wrap8_small by exact L.
    split; [lia|]. exists o, k, t, l, args. split; [exact Hst|]. rewrite Nat2Z.id. eapply lookup_lt_Some. exact Ha.
  - subst d. destruct (wp_con P WF _ _ Hst) as (sc' & nm' & k & t & l & a & HD). split; [eapply Hfr; exact HD|]. split.
    { eapply not_off_con; [exact WF|exact Hst]. }
    right. eauto.
Qed.

Theorem asap_pass_completes cfg order P Lm M :
  wfp P -> connects_back P -> narrow P -> bounded cfg P Lm M -> (forall bs, order bs ≡ₚ bs) ->
  exists Q L, asap_pass cfg order P = Some (Q, L).
Proof.
  intros WF CB NR [B1 B2 B3 B4 B5] PM. unfold asap_pass. set (P1 := apply_config cfg P).
  assert (WF1 := cfg_wfp cfg P WF). assert (CB1 := cfg_back cfg P CB). assert (NR1 := cfg_narrow cfg P NR).
  fold P1 in WF1, CB1, NR1.
  assert (O1 : forall v d k t l a, Def v (DOffset d) k t l a ∈ P1 -> - M <= d <= M).
  { intros v d k t l a H. apply cfg_def_inv in H as (l' & H). eauto. }
  assert (A1 : forall v o k t l a, Def v o k t l a ∈ P1 -> is_scheduled o = true -> 0 <= l <= Lm).
  { intros v o k t l a H Hs. unfold P1, apply_config in H. apply elem_of_list_fmap in H as (st & E & H). destruct st as [r o' k' t' l' a'|]; [|discriminate].
    injection E as -> -> -> -> -> ->. rewrite Hs. unfold config_latency. destruct (cfg (op_class o' t')) as [x|] eqn:Ex; [eapply B1; exact Ex|lia]. }
  assert (Fit : Z.of_nat (length P1) * (Lm + Z.of_nat (length P1) * M) < 2 ^ 31).
  { unfold P1, apply_config. rewrite map_length. exact B5. }
  destruct (sgraph_progress P1 WF1 CB1 M Lm B4 B2 O1 Fit) as (ns & cs & EG). rewrite EG.
  unfold asap.
  destruct (asap_nodes_progress P1 WF1 CB1 M Lm B4 B2 O1 A1 Fit ns cs EG ns (fun _ => 0) 0) as (m & mx & EN & Hm).
  { auto. } { intro x. pose proof (Wpos P1 M Lm B4 B2). nia. }
  rewrite EN. destruct (asap_buffers_progress P1 WF1 CB1 M Lm B4 B2 O1 A1 Fit ns cs EG m Hm cs) as (bs & EB); [auto|].
  rewrite EB.
  destruct (insert_progress P1 (fresh P1) (order bs) (fun _ _ => 0) P1 (fresh P1)) as (P2 & E2).
  { apply buffered0; [exact WF1|]. apply fresh_defs. }
  { eapply bs_keys; [exact WF1|exact NR1|exact EG|eapply asap_realises; [exact EB|apply PM]|eapply asap_nodup; [exact WF1|exact NR1|exact EG|exact EB|apply PM]]. }
  { intros c z Hc. rewrite PM in Hc. destruct (buffers_good P1 ns cs m mx bs WF1 CB1 NR1 EG EN EB c z Hc) as (X1 & X2 & X3 & X4). auto. }
  rewrite E2. eauto.
Qed.
