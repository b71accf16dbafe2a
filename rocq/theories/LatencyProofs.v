(** Latencies (proofs). *)
From Coq Require Import ZArith Bool String Lia.
From stdpp Require Import gmap list.
From Verif Require Import Instance InstanceSpec InstanceFlow Types Word Value Graph GraphSpec BuilderProofs2 BuilderTopo GraphFacts KernelSort TopSort TypingSpec TypingProofs
     Dfcir StreamSpec Sched SchedSpec DfcirProofs SchedStream SchedMain SchedFinal DfcirBuild KernelSpec KernelFlow Linear Pipeline Latency LatencySpec.
Local Open Scope Z_scope.

(** ** Statements survive buffer insertion *)
Definition keeps (P P' : program) (f : nat) : Prop :=
  (forall r o k t l a, Def r o k t l a ∈ P -> exists a', Def r o k t l a' ∈ P') /\
  (forall r o k t l a, Def r o k t l a ∈ P' -> (exists a', Def r o k t l a' ∈ P) \/ ((f <= r)%nat /\ o = DLatency)).
Lemma elem_mjoin_map {A B} (g : A -> list B) l x : x ∈ mjoin (map g l) <-> exists y, y ∈ l /\ x ∈ g y.
Proof.
  rewrite elem_of_list_join. split.
  - intros (z & Hx & Hz). apply elem_of_list_In, in_map_iff in Hz as (y & <- & Hy). exists y. split; [apply elem_of_list_In; exact Hy|exact Hx].
  - intros (y & Hy & Hx). exists (g y). split; [exact Hx|]. apply elem_of_list_In, in_map, elem_of_list_In. exact Hy.
Qed.
Lemma insert_keeps P c lat f P' : insert_buffer P c lat f = Some P' -> keeps P P' f.
Proof.
  unfold insert_buffer. destruct (lat <=? 0); [discriminate|]. destruct (0 <=? sc_ind c).
  - destruct (def_of P (sc_tgt c)) as [[[[[o0 k0] t0] l0] args]|]; [|discriminate]. destruct (args !! Z.to_nat (sc_ind c)) as [v|]; [|discriminate].
    destruct (val_ty P v) as [kv tv]. intro E. injection E as <-. split; intros r o k t l a H.
    + destruct (decide (r = sc_tgt c)) as [Er|Er].
      * eexists. apply elem_mjoin_map. exists (Def r o k t l a). split; [exact H|]. rewrite Er, Nat.eqb_refl. right. left.
      * exists a. apply elem_mjoin_map. exists (Def r o k t l a). split; [exact H|]. apply Nat.eqb_neq in Er. rewrite Er. left.
    + apply elem_mjoin_map in H as (s & Hs & Hx). destruct s as [r' o' k' t' l' a'|d v'].
      * destruct (Nat.eqb r' (sc_tgt c)); rewrite !elem_of_cons, elem_of_nil in Hx; repeat destruct Hx as [Hx|Hx]; try contradiction; injection Hx as -> -> -> -> -> ->; [right; auto with lia|left; eauto|left; eauto].
      * rewrite elem_of_list_singleton in Hx. discriminate.
  - destruct (sc_ind c =? -1); [|discriminate]. destruct (con_of P (sc_tgt c)) as [v|]; [|discriminate].
    destruct (val_ty P v) as [kv tv]. intro E. injection E as <-. split; intros r o k t l a H.
    + exists a. apply elem_mjoin_map. exists (Def r o k t l a). split; [exact H|]. left.
    + apply elem_mjoin_map in H as (s & Hs & Hx). destruct s as [r' o' k' t' l' a'|d v'].
      * rewrite elem_of_list_singleton in Hx. injection Hx as -> -> -> -> -> ->. left. eauto.
      * destruct (Nat.eqb d (sc_tgt c)); rewrite !elem_of_cons, elem_of_nil in Hx; repeat destruct Hx as [Hx|Hx]; try contradiction; try discriminate.
        injection Hx as -> -> -> -> -> ->. right. auto with lia.
Qed.
Lemma keeps_trans P P' P'' f g : (f <= g)%nat -> keeps P P' f -> keeps P' P'' g -> keeps P P'' f.
Proof.
  intros L [A1 A2] [B1 B2]. split; intros r o k t l a H.
  - apply A1 in H as (a' & H). eapply B1; exact H.
  - apply B2 in H as [(a' & H)|[H ->]]; [|right; split; [lia|reflexivity]]. apply A2 in H. exact H.
Qed.
Lemma inserts_keep : forall bs P f P', insert_buffers P bs f = Some P' -> keeps P P' f.
Proof.
  induction bs as [|[c lat] bs IH]; intros P f P' E; cbn in E.
  - injection E as <-. split; eauto.
  - destruct (insert_buffer P c lat f) as [P1|] eqn:E1; [|discriminate]. apply insert_keeps in E1. apply IH in E.
    eapply keeps_trans; [|exact E1|exact E]. lia.
Qed.
Definition not_off (o : dop) : Prop := forall d, o <> DOffset d.
Definition keeps_ops (P P' : program) : Prop :=
  (forall r o k t l a, not_off o -> Def r o k t l a ∈ P -> exists a', Def r o k t l a' ∈ P') /\
  (forall r o k t l a, Def r o k t l a ∈ P' -> exists a', Def r o k t l a' ∈ P).
(** the name of an offset is not the name of anything else *)
Definition offs_only (P : program) : Prop :=
  forall v d k t l a o k' t' l' a', Def v (DOffset d) k t l a ∈ P -> Def v o k' t' l' a' ∈ P -> ~ not_off o.
Lemma erase_keeps P v : offs_only P -> keeps_ops P (erase_offset P v).
Proof.
  intro ND. unfold erase_offset. destruct (def_of P v) as [[[[[o0 k0] t0] l0] args]|] eqn:E; [|repeat split; eauto].
  destruct o0; try (repeat split; eauto; fail). destruct args as [|s args]; [repeat split; eauto|].
  apply def_of_in in E. split.
  - intros r o k t l a N H. eexists. apply elem_of_list_In, in_map_iff. exists (Def r o k t l a). split; [reflexivity|].
    apply filter_In. split; [apply elem_of_list_In; exact H|]. cbn. destruct (Nat.eqb_spec r v) as [->|]; [|reflexivity].
    exfalso. exact (ND _ _ _ _ _ _ _ _ _ _ _ E H N).
  - intros r o k t l a H. apply elem_of_list_In, in_map_iff in H as (x & Hx & Hin). apply filter_In in Hin as [Hin _]. apply elem_of_list_In in Hin.
    destruct x as [r' o' k' t' l' a'|d' v']; cbn in Hx; [|discriminate]. injection Hx as -> -> -> -> -> _. eauto.
Qed.
Lemma keeps_offs P P' : keeps_ops P P' -> offs_only P -> offs_only P'.
Proof. intros [_ K] O v d k t l a o k' t' l' a' H1 H2. apply K in H1 as (x & H1). apply K in H2 as (y & H2). eapply O; eassumption. Qed.
Lemma erases_keep P : offs_only P -> keeps_ops P (erase_offsets P).
Proof.
  unfold erase_offsets. generalize (offset_ids P). intro l. revert P. induction l as [|v l IH]; intros P ND; [split; eauto|].
  cbn. assert (K := erase_keeps P v ND). assert (ND' := keeps_offs _ _ K ND). destruct K as [A1 A2]. destruct (IH _ ND') as [B1 B2]. split.
  - intros r o k t l' a N H. destruct (A1 _ _ _ _ _ _ N H) as (a' & H'). eapply B1; eassumption.
  - intros r o k t l' a H. destruct (B2 _ _ _ _ _ _ H) as (a' & H'). eapply A2; eassumption.
Qed.

(** the scheduled program has the operations of the original one, with their latencies *)
Lemma pass_keeps P bs P2 r : NoDup (defs P) -> insert_buffers P bs (fresh P) = Some P2 -> r ∈ defs P ->
  (forall o k t l a, not_off o -> Def r o k t l a ∈ P -> exists a', Def r o k t l a' ∈ erase_offsets P2) /\
  (forall o k t l a, Def r o k t l a ∈ erase_offsets P2 -> exists a', Def r o k t l a' ∈ P).
Proof.
  intros ND E Hr. destruct (inserts_keep _ _ _ _ E) as [A1 A2].
  assert (DL : forall v o k t l a, Def v o k t l a ∈ P -> (v < fresh P)%nat).
  { intros v o k t l a H. apply fresh_spec. eexists. split; [exact H|]. cbn. left. }
  assert (OO : offs_only P2).
  { intros v d k t l a o k' t' l' a' H1 H2 N. apply A2 in H1 as [(x & H1)|[_ X]]; [|discriminate].
    apply A2 in H2 as [(y & H2)|[L _]]; [|specialize (DL _ _ _ _ _ _ H1); lia].
    pose proof (op_of_def _ _ _ _ _ _ _ ND H1) as X1. rewrite (op_of_def _ _ _ _ _ _ _ ND H2) in X1. injection X1 as ->. exact (N _ eq_refl). }
  destruct (erases_keep _ OO) as [B1 B2]. split.
  - intros o k t l a N H. apply A1 in H as (a' & H). eapply B1; eassumption.
  - intros o k t l a H. apply B2 in H as (a' & H). apply A2 in H as [H|[L _]]; [exact H|].
    exfalso. apply elem_of_list_omap in Hr as (s & Hs & Es). destruct s; [|discriminate]. injection Es as ->. specialize (DL _ _ _ _ _ _ Hs). lia.
Qed.

Section Kernel.
Variables (F : fltops) (h : list icmd) (w : world) (order : list nat).
Hypothesis R : irun F init_world h = Ok w.
Hypothesis D : idisciplined F init_world h.
Context {kern : nat}.
Hypothesis K1 : only_kernel w kern.
Hypothesis C : complete w kern.
Hypothesis S : sorts w kern order.
Variable P : program.
Hypothesis EP : build w order = Ok P.

Lemma node_stmt n nd : w_nodes w !! n = Some nd -> exists o t a,
  w_types w !! n_ty (result_var w nd a) = Some t /\ translate_op nd (operands w n) = Ok (o, a) /\ NoDup (defs P) /\
  Def n o (n_vk (result_var w nd a)) t (-1) a ∈ P /\
  (forall o' k' t' l' a', Def n o' k' t' l' a' ∈ P -> o' = o /\ t' = t) /\ ((forall d, o <> DOffset d) -> result_var w nd a = nd).
Proof.
  intro H. destruct (flow_facts F h w order R D K1 C S) as (W & DR & ND & LV & TO & NP).
  destruct (build_spec w order W DR ND LV TO NP) as (P' & E' & ED & WP & CB & DD & DC). rewrite EP in E'. injection E' as <-.
  destruct (translate_op_total w W DR NP n nd H) as (o & a & T & _). destruct (result_typed w W n nd a H) as (t & Ht).
  exists o, t, a. split; [exact Ht|]. split; [exact T|]. split; [apply WP|]. split; [|split].
  - apply DD. split; [apply LV; eauto|]. split; [exists nd; repeat split; assumption|reflexivity].
  - intros o' k' t' l' a' H'. apply DD in H' as (_ & (nd' & H1 & _ & Ht' & T') & _). rewrite H in H1. injection H1 as <-.
    rewrite T in T'. injection T' as <- <-. rewrite Ht in Ht'. split; congruence.
  - intro N. apply result_other. intros k E. unfold translate_op in T. rewrite E in T. destruct (operands w n); [discriminate|]. injection T as <- _. exact (N k eq_refl).
Qed.
Lemma kernel_latency cfg bs P2 n nd o t a : w_nodes w !! n = Some nd -> w_types w !! n_ty nd = Some t ->
  translate_op nd (operands w n) = Ok (o, a) -> is_scheduled o = true ->
  insert_buffers (apply_config cfg P) bs (fresh (apply_config cfg P)) = Some P2 ->
  has_latency (erase_offsets P2) n (config_latency cfg o t).
Proof.
  intros H Ht T Sc E. destruct (node_stmt n nd H) as (o1 & t1 & a1 & Ht1 & T1 & ND & Hd & U & RV).
  rewrite T in T1. injection T1 as <- <-. rewrite RV in Ht1, Hd by (intros d X; subst o; discriminate Sc). rewrite Ht in Ht1. injection Ht1 as <-.
  assert (Hc : Def n o (n_vk nd) t (config_latency cfg o t) a ∈ apply_config cfg P).
  { apply elem_of_list_In, in_map_iff. exists (Def n o (n_vk nd) t (-1) a). rewrite Sc. split; [reflexivity|apply elem_of_list_In; exact Hd]. }
  destruct (pass_keeps (apply_config cfg P) bs P2 n) as [A B].
  - rewrite cfg_defs. exact ND.
  - exact E.
  - apply elem_of_list_omap. eexists. split; [exact Hc|reflexivity].
  - split.
    + assert (N : not_off o) by (intros d X; rewrite X in Sc; discriminate Sc). destruct (A _ _ _ _ _ N Hc) as (a' & Ha). eauto.
    + intros o' k' t' l' a' Hx. apply B in Hx as (a2 & Hx). apply elem_of_list_In, in_map_iff in Hx as (s & Es & Hs).
      apply elem_of_list_In in Hs. destruct s as [r2 o2 k2 t2 l2 a3|]; [|discriminate]. injection Es as -> -> -> -> El _.
      destruct (U _ _ _ _ _ Hs) as [-> ->]. rewrite Sc in El. congruence.
Qed.
Lemma comb_latency rnd eps m perm Q n nd o a : w_nodes w !! n = Some nd ->
  translate_op nd (operands w n) = Ok (o, a) -> is_scheduled o = true ->
  0 < m -> Pipeline.comb_pass rnd eps m perm P = Some Q -> has_latency Q n 0.
Proof.
  intros H T Sc Hm E. destruct (node_stmt n nd H) as (o1 & t1 & a1 & Ht1 & T1 & ND & Hd & U & RV).
  rewrite T in T1. injection T1 as <- <-. rewrite RV in Ht1, Hd by (intros d X; subst o; discriminate Sc).
  unfold Pipeline.comb_pass in E. destruct (Z.eqb_spec m 0); [lia|]. set (P1 := apply_config _ P) in E.
  destruct (Pipeline.cgraph P1) as [[ns cs]|]; [|discriminate]. destruct (Pipeline.comb_layers ns cs) as [mm mx].
  destruct (Pipeline.cascades _ _ _ _) as [ks|]; [|discriminate]. destruct (Pipeline.comb_buffers _ _ _ _) as [bs|]; [|discriminate].
  assert (Hc : Def n o (n_vk nd) t1 0 a ∈ P1).
  { apply elem_of_list_In, in_map_iff. exists (Def n o (n_vk nd) t1 (-1) a). rewrite Sc. split; [reflexivity|apply elem_of_list_In; exact Hd]. }
  destruct (inserts_keep _ _ _ _ E) as [A B]. split; [destruct (A _ _ _ _ _ _ Hc) as (a' & Ha); eauto|].
  intros o' k' t' l' a' Hx. apply B in Hx as [(a2 & Hx)|[L _]].
  - apply elem_of_list_In, in_map_iff in Hx as (s & Es & Hs).
    apply elem_of_list_In in Hs. destruct s as [r2 o2 k2 t2 l2 a3|]; [|discriminate]. injection Es as -> -> -> -> El _.
    destruct (U _ _ _ _ _ Hs) as [-> ->]. rewrite Sc in El. cbn in El. congruence.
  - exfalso. assert (n < fresh P1)%nat by (apply fresh_spec; eexists; split; [exact Hc|cbn; left]). lia.
Qed.

Hypothesis BT : bindings_typed F init_world h.
(** the class the scheduler looks up is the documented one, unless floats are compared *)
Lemma doc_class_spec cfg n nd t o a f c : w_nodes w !! n = Some nd -> w_types w !! n_ty nd = Some t ->
  translate_op nd (operands w n) = Ok (o, a) -> doc_class (n_op nd) f = Some c -> args_float w n f ->
  is_comparison (n_op nd) && f = false ->
  is_scheduled o = true /\ config_latency (processor_cfg cfg) o t = default 1 (cfg c).
Proof.
  intros H Ht T Dc (x & rest & tx & Ex & Tx & Fx) Nc.
  assert (WT : kind_typed w) by exact (irun_typed F h w R D BT).
  destruct (WT n nd t H Ht) as (args & A1 & A2). rewrite Ex in A1. inversion A1 as [|? ta ? tr Hta Hr]; subst. rewrite Tx in Hta. injection Hta as <-.
  unfold translate_op in T. rewrite Ex in T. unfold doc_class in Dc.
  destruct (n_op nd) eqn:Eo; try discriminate Dc.
  - destruct (is_bitwise o0) eqn:Bw; [discriminate|]. injection Dc as <-.
    destruct rest as [|y rest]; [discriminate|]. injection T as <- _. cbn [is_scheduled]. rewrite Bw. split; [reflexivity|].
    cbn in Nc. destruct A2 as (args' & Ek & a1 & a2 & r & -> & Et). injection Ek as Ek _. apply kind_float in Ek.
    unfold config_latency, op_class. rewrite Bw. unfold processor_cfg, cfg_set. destruct (ocls_eq_dec _ _) as [X|_]; [discriminate X|].
    destruct (is_comp o0) eqn:Cp.
    + subst t. cbn [is_float]. cbn in Nc. rewrite Nc. destruct (cfg (OBin o0 false)); reflexivity.
    + subst t. rewrite <- Ek. destruct (cfg _); reflexivity.
  - destruct u; [discriminate|]. injection Dc as <-. injection T as <- _. split; [reflexivity|].
    destruct A2 as (args' & Ek & r & ->). injection Ek as Ek _. apply kind_float in Ek. unfold config_latency, op_class, processor_cfg, cfg_set.
    destruct (ocls_eq_dec _ _) as [X|_]; [discriminate X|]. rewrite <- Ek. destruct (cfg _); reflexivity.
Qed.
Lemma cast_class cfg n nd t o a : w_nodes w !! n = Some nd -> translate_op nd (operands w n) = Ok (o, a) -> n_op nd = CAST ->
  is_scheduled o = true /\ config_latency (processor_cfg cfg) o t = 0.
Proof.
  intros H T Ec. unfold translate_op in T. rewrite Ec in T. destruct (operands w n); [discriminate|]. injection T as <- _.
  split; [reflexivity|]. unfold config_latency, op_class, processor_cfg, cfg_set. destruct (ocls_eq_dec _ _) as [_|X]; [reflexivity|congruence].
Qed.
End Kernel.

(** ** The file *)
Lemma field_name c : class_name c <> "<unknown>"%string -> field_class (class_name c) = c.
Proof. destruct c as [[] []|[]|]; intro H; try (exfalso; apply H; reflexivity); reflexivity. Qed.
Lemma field_inv s : field_class s <> OUndef -> class_name (field_class s) = s.
Proof.
  unfold field_class.
  repeat (match goal with |- context [String.eqb s ?x] => destruct (String.eqb_spec s x) as [->|_]; [intros _; reflexivity|] end).
  intro H. contradiction.
Qed.
Lemma add_fields_spec : forall l cfg c, class_name c <> "<unknown>"%string -> exists cfg', add_fields (members l) cfg = Some cfg' /\
  cfg' c = fold_left (fun d p => if String.eqb (fst p) (class_name c) then Some (u16 (snd p)) else d) l (cfg c).
Proof.
  induction l as [|[k z] l IH]; intros cfg c Hc; [exists cfg; split; reflexivity|].
  cbn [members map add_fields fold_left fst snd]. destruct (IH (cfg_set cfg (field_class k) (u16 z)) c Hc) as (cfg' & E & V).
  exists cfg'. split; [exact E|]. rewrite V. f_equal. unfold cfg_set.
  destruct (ocls_eq_dec c (field_class k)) as [->|N].
  - rewrite field_inv; [rewrite String.eqb_refl; reflexivity|]. intro X. rewrite X in Hc. apply Hc. reflexivity.
  - destruct (String.eqb_spec k (class_name c)) as [->|]; [|reflexivity]. exfalso. apply N. symmetry. apply field_name. exact Hc.
Qed.
Lemma fold_value l key : forall d, (forall k z, (k, z) ∈ l -> 0 <= z < 65536) ->
  default 1 (fold_left (fun d p => if String.eqb (fst p) key then Some (u16 (snd p)) else d) l d) =
  fold_left (fun d p => if String.eqb (fst p) key then snd p else d) l (default 1 d).
Proof.
  induction l as [|[k z] l IH]; intros d H; [reflexivity|]. cbn [fold_left fst snd]. rewrite IH by (intros k' z' X; apply (H k' z'); right; exact X).
  f_equal. destruct (String.eqb k key); [|reflexivity]. cbn. unfold u16. apply Z.mod_small. apply (H k z). left.
Qed.
Lemma doc_key o f c : doc_class o f = Some c -> exists b, doc_name o = Some b /\ class_name c = (b ++ doc_suffix f)%string.
Proof. destruct o as [| | | | | |[]|[]| | | | |]; cbn; intro H; try discriminate H; injection H as <-; eexists; (split; [reflexivity|]); destruct f; reflexivity. Qed.
Lemma doc_known o f c : doc_class o f = Some c -> class_name c <> "<unknown>"%string.
Proof. destruct o as [| | | | | |[]|[]| | | | |]; cbn; intro H; try discriminate H; injection H as <-; destruct f; discriminate. Qed.
