(** * Kernels built with sub-kernel instances (proofs): values in the merged graph are
    exactly those of the linked kernels, and the invariants of single-kernel histories
    carry over. *)
From Coq Require Import ZArith Bool String Lia.
From stdpp Require Import gmap list.
From Verif Require Import Types Word Value Graph GraphSpec BuilderProofs BuilderProofs2 BuilderTopo StreamSpec DfcirBuild KernelValues TypingSpec TypingProofs
  Instance InstanceSpec InstanceProofs InstanceBind InstanceLoop InstanceMain InstanceStep InstanceDrop.

Lemma lval_leads {V} (I : interp V) L w a b i x : leads w L a b -> lval I L w b i x -> lval I L w a i x.
Proof.
  induction 1 as [|a b c HL _ IH|a b c (nd & Hn & Ho) Ob _ IH]; intro X; [exact X| |].
  - exact (ru_link _ _ _ _ (lval_rules I L w) a b i x HL (IH X)).
  - exact (ru_out _ _ _ _ (lval_rules I L w) a nd b i x Hn Ho Ob (IH X)).
Qed.

Section Flow.
Variables (w : world) (p k : nat) (bs : list (nat * string)).
Hypothesis (W : WF w) (N : named w) (Lo : local w) (IO : instance_ok w p k bs).
Variables (w' : world) (rs : list nat) (σ : nat -> nat).
Hypothesis (H : instanced w p k bs w' rs σ).
Let BO : bindings_ok w p k bs := io_bindings _ _ _ _ IO.
Notation L := (link w k bs).

Lemma linked_dec m : (exists b, L m b /\ has_op w m OUT) \/ ~ (exists b, L m b /\ has_op w m OUT).
Proof.
  destruct (decide (m ∈ map fst bs)) as [E|E].
  - apply elem_of_list_fmap in E as ((v & s) & Ev & Hb). cbn in Ev. subst v. destruct (bo_each _ _ _ _ BO m s Hb) as (n & B0). assert (P : port w k s n) by (destruct B0 as [B0|B0]; apply B0).
    destruct (each w p k bs IO m s n Hb P) as [(_ & X & _)|(_ & X & _ & _ & _ & [Y|Y] & _)].
    + right. intros (b & (v' & s' & n' & H' & P' & [(X' & E1 & _)|(X' & E1 & _)]) & Ho); [subst m; pose proof (has_op_det _ _ _ _ X' Ho); discriminate|]. subst v'.
      destruct (elem_of_list_lookup_1 _ _ H') as [j Hj]. destruct (elem_of_list_lookup_1 _ _ Hb) as [i Hi]. destruct (decide (i = j)) as [->|Nij].
      * rewrite Hi in Hj. injection Hj as ->. assert (n = n') by (unfold port in *; congruence). subst n'. pose proof (has_op_det _ _ _ _ X X'). discriminate.
      * refine (bo_targets _ _ _ _ BO j i m s' m s Hj Hi (not_eq_sym Nij) _ eq_refl). eauto.
    + right. intros (b & _ & Ho). pose proof (has_op_det _ _ _ _ Ho Y). discriminate.
    + left. exists n. split; [|exact Y]. exists m, s, n. split; [exact Hb|]. split; [exact P|]. right. auto.
  - right. intros (b & (v' & s' & n' & H' & P' & [(X' & E1 & _)|(X' & E1 & _)]) & Ho); [subst m; pose proof (has_op_det _ _ _ _ X' Ho); discriminate|].
    apply E. apply elem_of_list_fmap. exists (v', s'). auto.
Qed.
Lemma linked_driver m b : L m b -> has_op w m OUT -> has_op w b OUT /\ (exists d, operands w b = [d]) /\ operands w m = [].
Proof.
  intros (v & s & n & Hb & P & [(X & -> & ->)|(X & -> & ->)]) Ho; [pose proof (has_op_det _ _ _ _ X Ho); discriminate|].
  destruct (each w p k bs IO v s n Hb P) as [(_ & Y & _)|(_ & _ & Y & _ & _ & _ & Z)]; [pose proof (has_op_det _ _ _ _ X Y); discriminate|]. auto.
Qed.
(** the operands of a variable of the merged graph *)
Lemma merged_ops m : is_Some (w_nodes w' !! m) ->
  operands w' m = map σ (operands w m) \/
  exists b d, L m b /\ has_op w m OUT /\ has_op w b OUT /\ operands w b = [d] /\ operands w' m = [σ d] /\ operands w m = [].
Proof.
  intros (x & Hx). destruct (in_back _ _ _ _ _ _ _ H m x Hx) as (y & Hy & G & _). destruct (linked_dec m) as [(b & Lb & Ho)|NL].
  - right. destruct (linked_driver m b Lb Ho) as (Hb & (d & Od) & Om). exists b, d. pose proof (in_out _ _ _ _ _ _ _ H m b d Lb Ho Od). auto 7.
  - left. apply (in_op _ _ _ _ _ _ _ H m G NL).
Qed.
Lemma merged_type n : is_Some (w_nodes w' !! n) -> type_of w' n = type_of w n.
Proof.
  intros (x & Hx). destruct (in_back _ _ _ _ _ _ _ H n x Hx) as (y & Hy & _ & _ & E2 & _). unfold type_of. rewrite Hx, Hy, (in_types _ _ _ _ _ _ _ H), E2. reflexivity.
Qed.

(** every value of the merged graph is a value of the linked kernels *)
Lemma kval_back {V} (I : interp V) n i x : kval I w' n i x -> lval I L w n i x.
Proof.
  pose proof (lval_rules I L w) as HR.
  assert (LD : forall m i x, lval I L w (σ m) i x -> lval I L w m i x) by (intros m j y; apply lval_leads, (in_leads _ _ _ _ _ _ _ H)).
  assert (BK : forall m z, w_nodes w' !! m = Some z -> exists y, w_nodes w !! m = Some y /\ n_op z = n_op y /\ n_vk z = n_vk y /\ n_name z = n_name y /\ ~ removed w k bs m).
  { intros m z Hz. destruct (in_back _ _ _ _ _ _ _ H m z Hz) as (y & Hy & G & E1 & E2 & E3 & E4 & _). exists y. auto. }
  assert (NL : forall m y, w_nodes w !! m = Some y -> ~ removed w k bs m -> n_op y = IN -> forall b, ~ L m b).
  { intros m y Hy G Eo b (v & s & q & Hb & P & [(X & -> & ->)|(X & -> & ->)]).
    - apply G. exists v, s, q. auto.
    - destruct (each w p k bs IO v s q Hb P) as [(_ & Y & _)|(_ & _ & _ & _ & _ & [Y|Y] & _)]; [pose proof (has_op_det _ _ _ _ X Y); discriminate| |]; pose proof (has_op_det _ _ _ _ Y (ex_intro _ y (conj Hy Eo))); discriminate. }
  assert (OPS : forall m z y, w_nodes w' !! m = Some z -> w_nodes w !! m = Some y -> n_op y <> OUT -> operands w' m = map σ (operands w m)).
  { intros m z y Hz Hy No. destruct (merged_ops m ltac:(eauto)) as [E|(b & d & _ & Ho & _)]; [exact E|]. exfalso. apply No. destruct Ho as (y' & Hy' & Ey). congruence. }
  revert n i x. apply (kval_ind' w' I (lval I L w)).
  - intros n nd i Hn Ho Hv Hi. destruct (BK n nd Hn) as (y & Hy & E1 & E2 & -> & G). rewrite E1 in Ho. rewrite E2 in Hv. exact (ru_stream _ _ _ _ HR n y i Hy Ho Hv (NL n y Hy G Ho) Hi).
  - intros n nd i Hn Ho Hv. destruct (BK n nd Hn) as (y & Hy & E1 & E2 & -> & G). rewrite E1 in Ho. rewrite E2 in Hv. exact (ru_scalar _ _ _ _ HR n y i Hy Ho Hv (NL n y Hy G Ho)).
  - intros n nd t c i Hn Ho Ht. destruct (BK n nd Hn) as (y & Hy & E1 & _). rewrite E1 in Ho. rewrite merged_type in Ht by eauto. exact (ru_const _ _ _ _ HR n y t c i Hy Ho Ht).
  - intros n nd q a i x Hn Ho Oa IH. destruct (BK n nd Hn) as (y & Hy & E1 & _). rewrite E1 in Ho. rewrite (OPS n nd y Hn Hy) in Oa by congruence.
    destruct (operands w n) as [|a0 [|? ?]] eqn:Eo; try discriminate. injection Oa as <-. exact (ru_offset _ _ _ _ HR n y q a0 i x Hy Ho Eo (LD _ _ _ IH)).
  - intros n nd a i x Hn Ho Oa IH. destruct (BK n nd Hn) as (y & Hy & E1 & _). rewrite E1 in Ho. destruct (merged_ops n ltac:(eauto)) as [E|(b & d & Lb & Hob & (yb & Hyb & Eob) & Od & E & _)]; rewrite E in Oa.
    + destruct (operands w n) as [|a0 [|? ?]] eqn:Eo; try discriminate. injection Oa as <-. exact (ru_out _ _ _ _ HR n y a0 i x Hy Ho Eo (LD _ _ _ IH)).
    + injection Oa as <-. apply (ru_link _ _ _ _ HR n b i x Lb). exact (ru_out _ _ _ _ HR b yb d i x Hyb Eob Od (LD _ _ _ IH)).
  - intros n nd c arms a i xc x Hn Ho Oa Hi IHc La IHa Ka Arms. destruct (BK n nd Hn) as (y & Hy & E1 & _). rewrite E1 in Ho. rewrite (OPS n nd y Hn Hy) in Oa by congruence.
    destruct (operands w n) as [|c0 arms0] eqn:Eo; [discriminate|]. injection Oa as <- <-. rewrite list_lookup_fmap in La. destruct (arms0 !! i_idx I xc) as [a0|] eqn:Ea; [|discriminate]. injection La as <-.
    apply (ru_mux _ _ _ _ HR n y c0 arms0 a0 i xc x Hy Ho Eo Hi (LD _ _ _ IHc) Ea (LD _ _ _ IHa)).
    intros b Hb. destruct (Arms (σ b)) as (z & Z); [apply elem_of_list_fmap; eauto|]. exists z. apply LD, Z.
  - intros n nd t i xs x Hn Ho Ht Hi F2 E. destruct (BK n nd Hn) as (y & Hy & E1 & _). rewrite E1 in Ho, E. rewrite merged_type in Ht by eauto.
    rewrite (OPS n nd y Hn Hy) in F2 by (intro X; rewrite X in Ho; exact Ho). apply (ru_op _ _ _ _ HR n y t i xs x Hy Ho Ht Hi); [|exact E].
    apply Forall2_fmap_l in F2. eapply Forall2_impl; [exact F2|]. intros a z Z. apply LD, Z.
Qed.
(** so the values of the merged graph are those of the linked kernels *)
Theorem merged_values {V} (I : interp V) m i x : kval I w' (σ m) i x <-> lval I L w m i x.
Proof.
  split; [|apply (in_lval _ _ _ _ _ _ _ H)]. intro Kv. eapply lval_leads; [apply (in_leads _ _ _ _ _ _ _ H)|]. apply kval_back, Kv.
Qed.

(** ** invariants *)
Lemma leads_rank (rank : nat -> nat) : (forall a b, a ∈ operands w b -> rank a < rank b) -> (forall a b, L a b -> rank b < rank a) ->
  forall a b, leads w L a b -> rank b <= rank a.
Proof.
  intros R1 R2. induction 1 as [|a b c HL _ IH|a b c _ Ob _ IH]; [lia|specialize (R2 _ _ HL); lia|].
  specialize (R1 b a ltac:(rewrite Ob; constructor)). lia.
Qed.
Lemma merged_rank (rank : nat -> nat) : (forall a b, a ∈ operands w b -> rank a < rank b) -> (forall a b, L a b -> rank b < rank a) ->
  forall a b, a ∈ operands w' b -> rank a < rank b.
Proof.
  intros R1 R2 a b Ha. destruct (operands_live w' b a (proj1 (in_WF _ _ _ _ _ _ _ H)) Ha) as [_ Lb].
  destruct (merged_ops b Lb) as [E|(c & d & Lc & _ & _ & Od & E & _)]; rewrite E in Ha.
  - apply elem_of_list_fmap in Ha as (x & -> & Hx). pose proof (leads_rank rank R1 R2 _ _ (in_leads _ _ _ _ _ _ _ H x)). specialize (R1 _ _ Hx). lia.
  - apply elem_of_list_singleton in Ha as ->. pose proof (leads_rank rank R1 R2 _ _ (in_leads _ _ _ _ _ _ _ H d)). specialize (R1 d c ltac:(rewrite Od; constructor)). specialize (R2 _ _ Lc). lia.
Qed.
Lemma merged_ranked : feed_forward w k bs -> ranked w'.
Proof. intros (rank & R1 & R2). exists rank. apply merged_rank; assumption. Qed.
Lemma merged_clean : srcs_clean w -> srcs_clean w'.
Proof.
  intros S n x Hx D. destruct (in_back _ _ _ _ _ _ _ H n x Hx) as (y & Hy & G & E & _). rewrite E in D.
  destruct (merged_ops n ltac:(eauto)) as [->|(b & d & _ & Ho & _)]; [rewrite (S n y Hy D); reflexivity|].
  destruct Ho as (y' & Hy' & Ey). assert (y' = y) by congruence. subst. destruct D as [D|[c D]]; congruence.
Qed.
Lemma merged_drivers : drivers_ok w -> drivers_ok w'.
Proof.
  intros D n x ch Hx Hc Hcn. destruct (in_back _ _ _ _ _ _ _ H n x Hx) as (y & Hy & G & E & _).
  assert (In : (c_ind ch, true) ∈ shp w' n) by (unfold shp; rewrite <- Hcn; apply elem_of_list_fmap; eauto).
  assert (One : forall l : list chan, ch ∈ l -> length (map (fun ch => (c_ind ch, c_conn ch)) l) = 1 -> l = [ch]).
  { intros l Hl Len. rewrite map_length in Len. destruct l as [|z [|? ?]]; try discriminate. apply elem_of_list_singleton in Hl as ->. reflexivity. }
  destruct (in_shp _ _ _ _ _ _ _ H n G) as [X|[(y' & Hy' & Ey) X]].
  - rewrite X in In. unfold shp in In. apply elem_of_list_fmap in In as (ch0 & E0 & H0). injection E0 as Ei Ec. symmetry in Ec. destruct (D n y ch0 Hy H0 Ec) as [D1 D2]. rewrite E. split; [|exact D2].
    apply One; [exact Hc|]. fold (shp w' n). rewrite X. unfold shp. rewrite D1. reflexivity.
  - assert (y' = y) by congruence. subst. rewrite E. split; [|auto]. apply One; [exact Hc|]. fold (shp w' n). rewrite X. reflexivity.
Qed.
Lemma merged_typed : types_match w k bs -> kind_typed w -> kind_typed w'.
Proof.
  intros TM WT n x t Hx Ht. destruct (in_back _ _ _ _ _ _ _ H n x Hx) as (y & Hy & G & E1 & E2 & _).
  rewrite (in_types _ _ _ _ _ _ _ H), E2 in Ht. destruct (WT n y t Hy Ht) as (args & F2 & TG). rewrite E1.
  assert (UN : forall a m, a ∈ operands w m -> ~ (exists v s, (v, s) ∈ bs /\ port w k s a /\ has_op w a OUT)).
  { intros a m Ha (v & s & Hb & P & X). destruct (each w p k bs IO v s a Hb P) as [(_ & Y & _)|(_ & _ & _ & Rd & _)]; [pose proof (has_op_det _ _ _ _ X Y); discriminate|].
    exact (proj1 (unread w a (proj1 W)) Rd m Ha). }
  destruct (merged_ops n ltac:(eauto)) as [->|(b & d & Lb & (y' & Hy' & Ey) & _ & Od & -> & _)].
  - assert (Q : forall a, a ∈ operands w n -> kind_at w' (σ a) = kind_at w a).
    { intros a Ha. apply (in_type _ _ _ _ _ _ _ H TM); [apply (operands_live w n a (proj1 W) Ha)|eapply UN; exact Ha]. }
    assert (exists args', Forall2 (fun a ta => type_of w' (σ a) = Some ta) (operands w n) args' /\ map kind args = map kind args') as (args' & G2 & EK).
    { clear -F2 Q. induction F2 as [|a ta l lt Ha _ IH]; [exists []; split; [constructor|reflexivity]|].
      destruct IH as (lt' & G & E); [intros b Hb; apply Q; right; exact Hb|]. specialize (Q a ltac:(constructor)). unfold kind_at in Q. rewrite Ha in Q.
      destruct (type_of w' (σ a)) as [ta'|] eqn:Ea; [|discriminate]. injection Q as Q. exists (ta' :: lt'). split; [constructor; assumption|cbn; congruence]. }
    exists args'. split; [apply Forall2_fmap_l; exact G2|exact (kind_typing_kinds _ _ _ _ EK TG)].
  - assert (y' = y) by congruence. subst y'. rewrite Ey. assert (Hd : d ∈ operands w b) by (rewrite Od; constructor).
    destruct (operands_live w b d (proj1 W) Hd) as [(yd & Hyd) _]. destruct (cs_type _ (proj1 W) d yd Hyd) as (td & Htd).
    assert (Q := in_type _ _ _ _ _ _ _ H TM d ltac:(eauto) ltac:(eapply UN; exact Hd)). unfold kind_at in Q.
    assert (type_of w d = Some td) as Etd by (unfold type_of; rewrite Hyd; exact Htd). rewrite Etd in Q.
    destruct (type_of w' (σ d)) as [td'|] eqn:Ed; [|discriminate]. exists [td']. split; [constructor; [exact Ed|constructor]|apply typing_kinds; exact I].
Qed.
End Flow.

(** ** Histories *)
Section Histories.
Variable F : fltops.
Record sound (w : world) : Prop := { so_WF : WF w; so_named : named w; so_local : local w }.
Record forward (w : world) : Prop := { fw_rank : ranked w; fw_clean : srcs_clean w; fw_drivers : drivers_ok w }.
Lemma init_sound : sound init_world.
Proof. constructor; [apply init_WF|apply init_named|apply init_local]. Qed.
Lemma init_forward : forward init_world.
Proof. constructor; [apply init_ranked|apply init_srcs_clean|apply init_drivers]. Qed.

Lemma istep_sound w c w' r : istep F w c = Ok (w', r) -> (match c with IInst p k bs => instance_ok w p k bs | IDrop k => drop_ok w k | _ => True end) -> sound w -> sound w'.
Proof.
  intros E D [W N L]. destruct c as [c|p k bs|k].
  - cbn in E. ropen E. destruct x as [w1 r1]. injection Hy as <- <-. constructor; [eapply step_ext; eauto|exact (step_named F _ _ _ _ Hx W N)|exact (step_local F _ _ _ _ Hx W L)].
  - destruct (instance_runs w p k bs W N L D) as (w1 & rs & σ & H). change (do_instance w p k bs = Ok (w', r)) in E. rewrite (in_run _ _ _ _ _ _ _ H) in E. injection E as <- <-.
    constructor; apply H.
  - destruct (drop_runs w k W N L D) as (w1 & H). cbn in E. rewrite (dd_run _ _ _ H) in E. injection E as <- <-. constructor; apply H.
Qed.
Lemma istep_forward w c w' r : istep F w c = Ok (w', r) -> iok w c -> sound w -> forward w -> forward w'.
Proof.
  intros E D [W N L] [R S Dr]. destruct c as [c|p k bs|k].
  - cbn in E, D. ropen E. destruct x as [w1 r1]. injection Hy as <- <-. destruct (step_ff F _ _ _ _ Hx W D R S) as [R' S'].
    assert (E1 : run F w [c] = Ok w1) by (cbn; rewrite Hx; reflexivity). assert (D1 : disciplined F w [c]) by (cbn; rewrite Hx; auto).
    constructor; [exact R'|exact S'|exact (run_drivers F _ _ _ E1 D1 W Dr)].
  - destruct D as (D & FF). destruct (instance_runs w p k bs W N L D) as (w1 & rs & σ & H). change (do_instance w p k bs = Ok (w', r)) in E. rewrite (in_run _ _ _ _ _ _ _ H) in E. injection E as <- <-.
    constructor; [exact (merged_ranked w p k bs D _ _ _ H FF)|exact (merged_clean w p k bs D _ _ _ H S)|exact (merged_drivers w p k bs _ _ _ H Dr)].
  - destruct (drop_runs w k W N L D) as (w1 & H). cbn in E. rewrite (dd_run _ _ _ H) in E. injection E as <- <-.
    constructor; [exact (drop_ranked w k w1 H R)|exact (drop_clean w k w1 H S)|exact (drop_drivers w k w1 H Dr)].
Qed.
Lemma irun_sound : forall h w w', irun F w h = Ok w' -> instances_ok F w h -> sound w -> sound w'.
Proof.
  induction h as [|c h IH]; intros w w' E D S; cbn [irun instances_ok] in E, D; [injection E as <-; exact S|].
  ropen E. destruct x as [w1 r]. rewrite Hx in D. destruct D as [D1 D2]. eapply IH; eauto. eapply istep_sound; eauto.
Qed.
Lemma disciplined_instances : forall h w, idisciplined F w h -> instances_ok F w h.
Proof.
  induction h as [|c h IH]; intros w D; [exact I|]. cbn [idisciplined instances_ok] in *. destruct D as [D1 D2]. split; [destruct c; [exact I|apply D1|exact D1]|].
  destruct (istep F w c) as [[w1 r]| | |]; auto.
Qed.
Lemma irun_forward : forall h w w', irun F w h = Ok w' -> idisciplined F w h -> sound w -> forward w -> sound w' /\ forward w'.
Proof.
  induction h as [|c h IH]; intros w w' E D S Fw; cbn [irun idisciplined] in E, D; [injection E as <-; auto|].
  ropen E. destruct x as [w1 r]. rewrite Hx in D. destruct D as [D1 D2]. eapply IH; eauto; [|eapply istep_forward; eauto]. eapply istep_sound; eauto. destruct c; [exact I|apply D1|exact D1].
Qed.
Lemma istep_typed w c w' r : istep F w c = Ok (w', r) -> (match c with IInst p k bs => instance_ok w p k bs | IDrop k => drop_ok w k | _ => True end) ->
  (match c with IInst _ k bs => types_match w k bs | _ => True end) -> sound w -> kind_typed w -> kind_typed w'.
Proof.
  intros E D TM [W N L] T. destruct c as [c|p k bs|k].
  - cbn in E. ropen E. destruct x as [w1 r1]. injection Hy as <- <-. assert (E1 : run F w [c] = Ok w1) by (cbn; rewrite Hx; reflexivity). exact (run_kind_typed F _ _ _ E1 W T).
  - destruct (instance_runs w p k bs W N L D) as (w1 & rs & σ & H). change (do_instance w p k bs = Ok (w', r)) in E. rewrite (in_run _ _ _ _ _ _ _ H) in E. injection E as <- <-.
    exact (merged_typed w p k bs W D _ _ _ H TM T).
  - destruct (drop_runs w k W N L D) as (w1 & H). cbn in E. rewrite (dd_run _ _ _ H) in E. injection E as <- <-. exact (drop_typed w k w1 H T).
Qed.
Lemma irun_typed_from : forall h w w', irun F w h = Ok w' -> instances_ok F w h -> bindings_typed F w h -> sound w -> kind_typed w -> kind_typed w'.
Proof.
  induction h as [|c h IH]; intros w w' E D B S T; cbn [irun instances_ok bindings_typed] in E, D, B; [injection E as <-; exact T|].
  ropen E. destruct x as [w1 r]. rewrite Hx in D, B. destruct D as [D1 D2]. destruct B as [B1 B2]. eapply (IH w1); eauto; [eapply istep_sound; eauto|eapply istep_typed; eauto].
Qed.
Lemma irun_typed h w : irun F init_world h = Ok w -> idisciplined F init_world h -> bindings_typed F init_world h -> kind_typed w.
Proof. intros R D B. exact (irun_typed_from _ _ _ R (disciplined_instances _ _ D) B init_sound init_kind_typed). Qed.
Lemma calls_typed : forall h w, bindings_typed F w (map ICall h).
Proof. induction h as [|c h IH]; intro w; [exact I|]. cbn. split; [exact I|]. destruct (step F w c) as [[w1 r]| | |]; cbn; auto. Qed.
(** single-kernel histories are a special case *)
Lemma irun_calls : forall h w, irun F w (map ICall h) = run F w h.
Proof.
  induction h as [|c h IH]; intro w; [reflexivity|]. cbn. destruct (step F w c) as [[w1 r]| | |]; cbn; auto.
Qed.
Lemma calls_ok : forall h w, instances_ok F w (map ICall h).
Proof. induction h as [|c h IH]; intro w; [exact I|]. cbn. split; [exact I|]. destruct (step F w c) as [[w1 r]| | |]; cbn; auto. Qed.
Lemma calls_disciplined : forall h w, disciplined F w h -> idisciplined F w (map ICall h).
Proof. induction h as [|c h IH]; intros w D; [exact I|]. cbn in *. destruct D as [D1 D2]. split; [exact D1|]. destruct (step F w c) as [[w1 r]| | |]; cbn; auto. Qed.
Lemma elab_WF h w : elaborates F h w -> WF w.
Proof. intros [R O]. apply (irun_sound _ _ _ R O init_sound). Qed.
Lemma run_elaborates h w : run F init_world h = Ok w -> elaborates F (map ICall h) w.
Proof. intro R. split; [rewrite irun_calls; exact R|apply calls_ok]. Qed.
End Histories.
