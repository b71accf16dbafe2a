(** * A kernel constructed on its own (proofs). *)
From Coq Require Import ZArith Bool String Lia.
From stdpp Require Import gmap list.
From Verif Require Import KernelFlow Types Word Value OpSpec Graph GraphSpec TypesProofs BuilderProofs BuilderProofs2 BuilderTopo GraphFacts StreamSpec Dfcir DfcirBuild
     Verilog Stubs Naming Firrtl Lower RtlSpec KernelSpec KernelValues KernelSort TopSort PipelineSpec Instance InstanceSpec InstanceLoop InstanceMain InstanceStep InstanceFlow LifeProofs ProgTyping SliceFacts
     Prog ProgFrame ProgRules ProgCalls ProgMux ProgPorts ProgInstance StdKernels ProgLib GaloisKernel Verify VerifySpec PropertiesSched StdSpec.
Local Open Scope Z_scope.

Section Top.
Variable F : fltops.

Lemma st_init T : st F T [] init_world.
Proof. constructor; [reflexivity|exact I| |intros _; exact I]. intros t H. inversion H. Qed.
Lemma tidy_init : tidy init_world.
Proof. intros n nd H. cbn in H. rewrite lookup_empty in H. discriminate. Qed.

(** the state when the body of the constructor starts *)
Definition starts (w : world) (k : nat) : Prop :=
  is_Some (w_kern w !! k) /\ w_top w = Some k /\ w_stack w = [k] /\ names w k = [] /\ w_nodes w = ∅ /\ forall j, is_Some (w_kern w !! j) -> j = k.
Definition body_rule (T : bool) {A} (body : nat -> prog A) (ss : list string) (Ws : list Z) (so : string) (e : env) (W : Z) (y : Z -> Z) : Prop :=
  forall k h w, st F T h w -> starts w k -> wp F T h w (body k) (fun w2 _ => exists ports out d, child T e w w2 k ss Ws ports so out d W y).
Lemma top_wp T {A} (body : nat -> prog A) ss Ws so e W y : body_rule T body ss Ws so e W y ->
  wp F T [] init_world (kernel body) (fun w2 _ => exists k w1 ports out d, starts w1 k /\ (T = true -> tidy w1) /\ child T e w1 w2 k ss Ws ports so out d W y).
Proof.
  intro B. unfold kernel. eapply rule_bind; [exact (rule_kernel F T [] init_world (st_init T))|]. cbn beta.
  intros h1 w1 k S1 (G1 & K1 & N1 & N1' & K1' & K1'' & St1 & _ & T1 & E1 & TD).
  assert (ST : starts w1 k).
  { split; [exact K1'|]. split; [exact (T1 eq_refl)|]. split; [exact St1|]. split; [exact N1|]. split; [exact E1|]. intros j Hj. apply K1'' in Hj as [Hj|Hj]; [|exact Hj]. cbn in Hj. rewrite lookup_empty in Hj. destruct Hj; discriminate. }
  eapply wp_conseq; [exact (B k h1 w1 S1 ST)|]. cbn beta. intros w2 a (ports & out & d & CH). exists k, w1, ports, out, d. split; [exact ST|]. split; [|exact CH]. intro ET. exact (TD ET tidy_init).
Qed.
(** the output carries what the constructor computed *)
Lemma out_yields T e w1 w2 k ss Ws ports so out d W y : child T e w1 w2 k ss Ws ports so out d W y -> yields e w2 out W y.
Proof.
  intros CH i Hi. destruct (a_val _ _ _ _ _ _ (proj1 (ch_drv _ _ _ _ _ _ _ _ _ _ _ _ _ CH))) as (f & V). destruct (V i Hi) as (B & A & _). pose proof (a_width _ _ _ _ _ _ (proj1 (ch_drv _ _ _ _ _ _ _ _ _ _ _ _ _ CH))) as HW.
  destruct (utype_facts _ _ B HW) as (S1 & _ & S2 & _). split; [apply (V i Hi)|]. exists (f i). split; [exact S1|]. split; [exact S2|]. destruct (ch_op _ _ _ _ _ _ _ _ _ _ _ _ _ CH) as (nd & Hn & Ho).
  eapply kv_out; [exact Hn|exact Ho|exact (ch_ops _ _ _ _ _ _ _ _ _ _ _ _ _ CH)|exact A].
Qed.
Lemma top_stands T {A} (p : prog A) a e h w2 k w1 (ss : list string) Ws ports so out d W y : exec F init_world p = Ok (w2, a, h) -> st F T h w2 -> starts w1 k -> child T e w1 w2 k ss Ws ports so out d W y -> length ss = length Ws ->
  stands F p (zip ss Ws) so W h w2 out.
Proof.
  intros E S2 (K1 & TP & STK & NM & EM & KO) CH LE. destruct CH as [[G FRM _] FREE NMS INS TYS OT OUTP OP OPS RD DRV].
  destruct (st_sound F T h w2 S2) as [[WF2 NMD LOC] [RK CL DR]].
  assert (OK : only_kernel w2 k).
  { intros n nd Hn. destruct (cs_owned _ (proj1 WF2) n nd Hn) as (g & Hg & _). apply KO. destruct FRM as (_ & _ & FK). apply FK. eauto. }
  assert (NEW : forall n, n ∉ out :: ports -> ~ has_op w2 n IN /\ ~ hole w2 n) by (intros n Hn; apply (g_new _ _ _ G); [rewrite EM; apply lookup_empty|exact Hn]).
  assert (PIN : forall n, n ∈ ports -> exists s V, (s, V) ∈ zip ss Ws /\ port w2 k s n /\ in_port w2 n /\ type_of w2 n = Some (TFixed false V 0)).
  { intros n Hn. apply elem_of_list_lookup in Hn as (j & Hj). destruct (Forall2_lookup_r _ _ _ _ _ INS Hj) as (s & Hs & HP & HI). destruct (Forall2_lookup_r _ _ _ _ _ TYS Hj) as (V & HV & HT).
    exists s, V. split; [|auto]. apply elem_of_list_lookup. exists j. apply lookup_zip_with_Some. eauto. }
  assert (PN : forall s n, port w2 k s n -> exists nd, w_nodes w2 !! n = Some nd /\ n_name nd = s).
  { intros s n HP. unfold port, name_lookup in HP. destruct (List.find _ _) as [[s' n']|] eqn:EF; [|discriminate]. injection HP as <-. apply List.find_some in EF as [I Es]. apply String.eqb_eq in Es. cbn in Es. subst s'. apply elem_of_list_In in I. destruct (NMD k s n' I) as (nd & H1 & H2 & _). eauto. }
  assert (CM : complete w2 k).
  { intros n nd Hn _. destruct (decide (n = out)) as [-> |No].
    - destruct OP as (nd' & Hn' & Ho). rewrite Hn in Hn'. injection Hn' as <-. rewrite Ho. split; [discriminate|]. intros _. rewrite OPS. discriminate.
    - destruct (decide (n ∈ ports)) as [Hp|Hp].
      + destruct (PIN n Hp) as (s & V & _ & _ & ((nd' & Hn' & Ho & _) & _) & _). rewrite Hn in Hn'. injection Hn' as <-. rewrite Ho. split; discriminate.
      + destruct (NEW n ltac:(rewrite elem_of_cons; tauto)) as [_ NH]. split; [intro X; apply NH; left; exists nd; auto|]. intros X Y. apply NH. right. split; [exists nd; auto|exact Y]. }
  assert (KL : is_Some (w_kern w2 !! k)) by (destruct FRM as (_ & _ & FK); apply FK; exact K1). destruct KL as [g Hg].
  pose proof (ranked_sorts w2 k g WF2 RK CL Hg CM OK) as SO.
  constructor.
  - eauto.
  - exists k. intros hash PH. destruct (SO hash PH) as (order & ES & _). exists order. split; [exact ES|]. exists k. destruct S2 as [R D _ _]. split; [exact R|]. split; [exact D|]. split; [exact OK|]. split; [exact CM|]. exists hash. auto.
  - intros n nd Hn Ho. destruct (decide (n ∈ out :: ports)) as [I|I].
    + apply elem_of_cons in I as [-> |I]; [destruct OP as (nd' & Hn' & Ho'); congruence|]. destruct (PIN n I) as (s & V & HZ & HP & ((nd' & Hn' & _ & Ev) & _) & HT). rewrite Hn in Hn'. injection Hn' as <-. split; [exact Ev|]. exists V. split; [|exact HT].
      destruct (PN s n HP) as (nd' & Hn' & En). rewrite Hn in Hn'. injection Hn' as <-. rewrite En. exact HZ.
    + exfalso. destruct (NEW n I) as [NI _]. apply NI. exists nd. auto.
  - intros s V HZ. apply elem_of_list_lookup in HZ as (j & HZ). apply lookup_zip_with_Some in HZ as (s' & V' & EZ & Hs & HV). injection EZ as <- <-. destruct (Forall2_lookup_l _ _ _ _ _ INS Hs) as (n & Hn & HP & ((nd & Hnd & Ho & _) & _)).
    destruct (PN s n HP) as (nd' & Hn' & En). rewrite Hnd in Hn'. injection Hn' as <-. exists n, nd. auto.
  - destruct (PN so out OUTP) as (nd & Hn & En). exists nd. split; [exact Hn|]. destruct OP as (nd' & Hn' & Ho). rewrite Hn in Hn'. injection Hn' as <-. auto.
Qed.
(** the code runs the same way whatever the streams are *)
Theorem kernel_computes T {A} (body : nat -> prog A) ss Ws so W (B : Type) (ok : env -> B -> Prop) (y : B -> Z -> Z) e0 b0 : length ss = length Ws -> ok e0 b0 ->
  (forall e b, ok e b -> body_rule T body ss Ws so e W (y b)) ->
  exists h w out, stands F (kernel body) (zip ss Ws) so W h w out /\ st F T h w /\ (T = true -> tidy w) /\ forall e b, ok e b -> yields e w out W (y b).
Proof.
  intros LE OK0 BR. destruct (top_wp T body ss Ws so e0 W (y b0) (BR e0 b0 OK0)) as (w & a & h & EX & S & k & w1 & ports & out & d & ST & TD & CH). exists h, w, out.
  split; [exact (top_stands T (kernel body) a e0 h w k w1 ss Ws ports so out d W _ EX S ST CH LE)|]. split; [exact S|]. split; [intro ET; exact (x_tidy _ _ _ _ (ch_ext _ _ _ _ _ _ _ _ _ _ _ _ _ CH) ET (TD ET))|].
  intros e b OK. destruct (top_wp T body ss Ws so e W (y b) (BR e b OK)) as (w' & a' & h' & EX' & S' & k' & w1' & ports' & out' & d' & ST' & _ & CH'). rewrite EX in EX'. injection EX' as <- <- <-.
  assert (EO : out' = out).
  { pose proof (ch_out _ _ _ _ _ _ _ _ _ _ _ _ _ CH) as P1. pose proof (ch_out _ _ _ _ _ _ _ _ _ _ _ _ _ CH') as P2. assert (EK : k' = k).
    { destruct ST' as (K1' & _ & _ & _ & _ & _). destruct ST as (_ & _ & _ & _ & _ & KO). apply KO.
      destruct (ch_ext _ _ _ _ _ _ _ _ _ _ _ _ _ CH) as [_ (_ & _ & FK) _]. destruct (ch_ext _ _ _ _ _ _ _ _ _ _ _ _ _ CH') as [_ (_ & _ & FK') _]. apply FK, FK', K1'. }
    subst k'. unfold port in P1, P2. congruence. }
  subst out'. exact (out_yields _ _ _ _ _ _ _ _ _ _ _ _ _ CH').
Qed.
End Top.

(** ** The circuit *)
Lemma tidy_schedulable w : WF w -> tidy w -> schedulable w.
Proof.
  intros WFw TD. constructor.
  - intros n nd k Hn Ho. destruct (TD n nd Hn) as (_ & _ & H & _). destruct (H k Ho).
  - intro n. destruct (w_nodes w !! n) as [nd|] eqn:Hn; [apply (TD n nd Hn)|]. left. destruct (operands w n) as [|a l] eqn:E; [cbn; lia|]. destruct (operands_live w n a (proj1 WFw) ltac:(rewrite E; left)) as [_ [nd Hnd]]. congruence.
  - left. intros n nd Hn Ho. apply (TD n nd Hn), Ho.
Qed.
Lemma tidy_combinational w : WF w -> tidy w -> combinational w.
Proof.
  intros WFw TD. constructor.
  - intros n nd k Hn. apply (TD n nd Hn).
  - intros n nd Hn Ho. apply (TD n nd Hn), Ho.
  - apply (sk_narrow _ (tidy_schedulable w WFw TD)).
Qed.
Lemma tidy_realizable w lat : tidy w -> realizable w lat.
Proof.
  intro TD. constructor.
  - intros n t Ht. unfold type_of in Ht. destruct (w_nodes w !! n) as [nd|] eqn:Hn; [|discriminate]. destruct (TD n nd Hn) as ((t' & Ht' & PT & _) & _). unfold type_of in Ht'. rewrite Hn in Ht'. congruence.
  - intros n nd t ts Hn Ht HT. destruct (TD n nd Hn) as ((t' & Ht' & _ & FT) & _). assert (t' = t) by congruence. subst t'. apply FT, HT.
  - intros n nd Hn Ho. apply (TD n nd Hn), Ho.
Qed.
Lemma offset_node F h w order P : built F h w order -> build w order = Ok P -> forall v d k t l a, Def v (DOffset d) k t l a ∈ P -> exists nd, w_nodes w !! v = Some nd /\ n_op nd = OFFSET d.
Proof.
  intros (kern & R & D & K & C & S) E v d k t l a H. destruct (flow_facts F h w order R D K C S) as (W & DR & ND & LV & TO & NP).
  destruct (build_spec w order W DR ND LV TO NP) as (P' & E' & ED & WP & CB & DD & DC). rewrite E in E'. injection E' as <-.
  apply DD in H as (_ & (nd & H & _ & _ & T) & _). exists nd. split; [exact H|].
  unfold translate_op in T. destruct (n_op nd); try (destruct (operands w v) as [|p [|q r]]; discriminate T); try discriminate T.
  destruct (operands w v); [discriminate|]. injection T as -> _. reflexivity.
Qed.
Lemma tidy_acceptable w : tidy w -> acceptable w /\ offsets_plain w.
Proof.
  intro TD. split.
  - intros n nd Hn. destruct (TD n nd Hn) as (_ & _ & _ & _ & C). destruct (n_op nd); try exact I; match type of C with False => destruct C | _ => idtac end. intros c arms E. destruct (C c arms E) as (nc & Hc & Vc & _).
    destruct (TD c nc Hc) as ((t & Ht & _) & _). unfold type_of in Ht. rewrite Hc in Ht. exists t. unfold var_type. rewrite Hc, Ht, Vc. reflexivity.
  - intros n nd d a Hn Ho. destruct (TD n nd Hn) as (_ & _ & H & _). destruct (H d Ho).
Qed.
Lemma st_good F h w : st F true h w -> good_types F h.
Proof. intros [R D M B]. split; [exact M|exact (B eq_refl)]. Qed.
