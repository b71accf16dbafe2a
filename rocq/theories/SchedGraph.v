(** ASAP on the graph of a program: positivity, balance, optimality (proofs). *)
From Coq Require Import ZArith Bool Lia.
From stdpp Require Import list.
From Verif Require Import Types Value Graph Dfcir Sched SchedSpec SchedProofs DfcirProofs SchedStream SchedMain SchedFinal.
Local Open Scope Z_scope.
Section G.
Variables (P : program) (ns : list snode) (cs : list schan) (m : lats) (bs : list (schan * Z)) (mx : Z).
Hypothesis WF : wfp P.
Hypothesis CB : connects_back P.
Hypothesis EG : sgraph P = Some (ns, cs).
Hypothesis EA : asap ns cs = Some (m, bs, mx).

Lemma asap_parts : asap_nodes ns cs ns (fun _ => 0) 0 = Some (m, mx) /\ asap_buffers ns m cs = Some bs.
Proof.
  unfold asap in EA. destruct (asap_nodes ns cs ns (fun _ => 0) 0) as [[m' mx']|]; [|discriminate].
  destruct (asap_buffers ns m' cs) as [b|] eqn:E; [|discriminate]. injection EA as <- <- <-. auto.
Qed.
Let OD := sgraph_ordered P WF ns cs EG.
Let NS := back_no_self P ns cs WF CB EG.

Theorem asap_optimal :
  feasible ns cs m /\ (forall t, feasible ns cs t -> forall x, m x <= t x) /\
  (forall x, (exists a, path ns cs a x (m x)) /\ forall a z, path ns cs a x z -> z <= m x) /\
  (forall x, node_is_output ns x = true -> m x <= mx) /\
  (mx = 0 \/ exists x, node_is_output ns x = true /\ m x = mx).
Proof.
  destruct asap_parts as [EN _]. destruct (asap_nodes_spec ns cs OD NS m mx EN) as (F & Pth & Mn & S1 & S2 & _).
  split; [exact F|]. split; [exact Mn|]. split; [|split; [exact S1|exact S2]].
  intro x. split; [apply Pth|]. intros a z Hp. destruct F as [F1 F2].
  induction Hp as [|b z c Hp IH Hc Es]; [apply F1|]. pose proof (F2 _ Hc). rewrite Es in *. lia.
Qed.

Theorem asap_positive : forall c z, (c, z) ∈ bs -> 0 < z.
Proof.
  destruct asap_parts as [EN EB]. intros c z H. destruct (asap_buffers_spec ns m cs bs EB) as [B1 _].
  destruct (B1 c z H) as (Hc & Ez & Nz & _). destruct asap_optimal as ((_ & F2) & _). pose proof (F2 c Hc). lia.
Qed.

Lemma bpath_len buf : (forall c, c ∈ cs -> node_is_const ns (sc_src c) = false -> buf_of bs c (buf c)) ->
  forall a b z, bpath ns cs buf a b z -> z = m b - m a.
Proof.
  intros HB a b z Hp. destruct asap_parts as [EN EB]. destruct (asap_buffers_spec ns m cs bs EB) as [B1 B2].
  induction Hp as [|b z c Hp IH Hc Es Nc]; [lia|].
  rewrite <- Es in Nc. pose proof (HB c Hc Nc) as Hb. pose proof (B2 c Hc Nc) as Hb'.
  assert (buf c = m (sc_tgt c) - (m (sc_src c) + chan_delay ns c)) as E.
  { destruct Hb as [Hb|[Z0 Hb]].
    - apply B1 in Hb. tauto.
    - destruct Hb' as [Hb'|[Z1 _]]; [exfalso; exact (Hb _ Hb')|]. rewrite Z0. lia. }
  rewrite E, Es, IH. lia.
Qed.

Theorem asap_balanced buf : (forall c, c ∈ cs -> node_is_const ns (sc_src c) = false -> buf_of bs c (buf c)) ->
  forall a a' b z z', bpath ns cs buf a b z -> bpath ns cs buf a' b z' ->
    (a = a' \/ (forall c, c ∈ cs -> sc_tgt c <> a /\ sc_tgt c <> a')) -> z = z'.
Proof.
  intros HB a a' b z z' H H' Ha. apply (bpath_len buf HB) in H. apply (bpath_len buf HB) in H'.
  enough (m a = m a') by lia. destruct Ha as [->|Ha]; [reflexivity|].
  assert (Z : forall x, (forall c, c ∈ cs -> sc_tgt c <> x) -> m x = 0).
  { intros x Hx. destruct asap_optimal as (_ & _ & Pth & _). destruct (Pth x) as [(y & Hp) _].
    inversion Hp as [Y|b' z'' c Hb Hc Es Y1 Y2]; [reflexivity|]. exfalso. eapply Hx; [exact Hc|assumption]. }
  rewrite !Z; [reflexivity| |]; intros c Hc; apply (Ha c Hc).
Qed.
End G.
