(** * A kernel with signed streams constructed on its own (proofs). *)
From Coq Require Import ZArith Bool String Lia.
From stdpp Require Import gmap list.
From Verif Require Import KernelFlow Types Word Value OpSpec Graph GraphSpec TypingSpec TypesProofs BuilderProofs BuilderProofs2 BuilderTopo GraphFacts StreamSpec Dfcir DfcirBuild
     Verilog Stubs Naming StubsSpec Firrtl Lower RtlSpec KernelSpec KernelValues KernelSort TopSort Sched SchedSpec SchedFacts Linear LinearSpec Latency PipelineSpec Instance InstanceSpec InstanceLoop InstanceMain InstanceStep InstanceFlow LifeProofs ProgTyping SliceFacts
     Prog ProgFrame ProgRules ProgCalls ProgMux ProgPorts ProgInstance StdKernels ProgLib Verify VerifySpec PropertiesSched PropertiesLinear PropertiesVerify PropertiesRtl StdSpec ProgTop FlatRules FlatCalls FlatSpec.
Local Open Scope Z_scope.

Record flat (e : env) (w1 w2 : world) (k : nat) (ti to_ : dftype) (ss : list string) (ports : list nat) (so : list string) (outs : list nat) (ys : list (Z -> Z)) : Prop := {
  fl_ext : sext (outs ++ ports) w1 w2;
  fl_ins : Forall2 (fun s n => port w2 k s n /\ in_port w2 n /\ type_of w2 n = Some ti) ss ports;
  fl_outs : Forall2 (fun s n => port w2 k s n /\ has_op w2 n OUT /\ type_of w2 n = Some to_) so outs;
  fl_drv : Forall2 (fun n y => exists d, operands w2 n = [d] /\ sarg e w2 k d to_ y) outs ys
}.
Section Top.
Variable F : fltops.
Definition fbody {A} (body : nat -> prog A) (ti to_ : dftype) (ss so : list string) (e : env) (ys : list (Z -> Z)) : Prop :=
  forall k h w, st F true h w -> starts w k -> wp F true h w (body k) (fun w2 _ => exists ports outs, flat e w w2 k ti to_ ss ports so outs ys).
Lemma stidy_init w : w_nodes w = ∅ -> stidy w.
Proof. intros E n nd H. rewrite E, lookup_empty in H. discriminate. Qed.
Lemma ftop_wp {A} (body : nat -> prog A) ti to_ ss so e ys : fbody body ti to_ ss so e ys ->
  wp F true [] init_world (kernel body) (fun w2 _ => exists k w1 ports outs, starts w1 k /\ flat e w1 w2 k ti to_ ss ports so outs ys).
Proof.
  intro B. unfold kernel. eapply rule_bind; [exact (rule_kernel F true [] init_world (st_init F true))|]. cbn beta.
  intros h1 w1 k S1 (G1 & K1 & N1 & N1' & K1' & K1'' & St1 & _ & T1 & E1 & TD).
  assert (ST : starts w1 k).
  { split; [exact K1'|]. split; [exact (T1 eq_refl)|]. split; [exact St1|]. split; [exact N1|]. split; [exact E1|]. intros j Hj. apply K1'' in Hj as [Hj|Hj]; [|exact Hj]. cbn in Hj. rewrite lookup_empty in Hj. destruct Hj; discriminate. }
  eapply wp_conseq; [exact (B k h1 w1 S1 ST)|]. cbn beta. intros w2 a (ports & outs & CH). exists k, w1, ports, outs. auto.
Qed.
Lemma ftop_stands {A} (p : prog A) a e h w2 k w1 Wi Wo ss ports so outs ys : exec F init_world p = Ok (w2, a, h) -> st F true h w2 -> starts w1 k -> flat e w1 w2 k (sint Wi) (sint Wo) ss ports so outs ys ->
  sstands F p ss Wi so Wo h w2 outs.
Proof.
  intros E S2 (K1 & TP & STK & NM & EM & KO) [[G FRM _] INS OUTS DRV].
  destruct (st_sound F true h w2 S2) as [[WF2 NMD LOC] [RK CL DR]].
  assert (OK : only_kernel w2 k).
  { intros n nd Hn. destruct (cs_owned _ (proj1 WF2) n nd Hn) as (g & Hg & _). apply KO. destruct FRM as (_ & _ & FK). apply FK. eauto. }
  assert (NEW : forall n, n ∉ outs ++ ports -> ~ has_op w2 n IN /\ ~ hole w2 n) by (intros n Hn; apply (g_new _ _ _ G); [rewrite EM; apply lookup_empty|exact Hn]).
  assert (PIN : forall n, n ∈ ports -> exists s, s ∈ ss /\ port w2 k s n /\ in_port w2 n /\ type_of w2 n = Some (sint Wi)).
  { intros n Hn. apply elem_of_list_lookup in Hn as (j & Hj). destruct (Forall2_lookup_r _ _ _ _ _ INS Hj) as (s & Hs & HP). exists s. split; [apply elem_of_list_lookup; eauto|exact HP]. }
  assert (POUT : forall n, n ∈ outs -> has_op w2 n OUT /\ exists d, operands w2 n = [d]).
  { intros n Hn. apply elem_of_list_lookup in Hn as (j & Hj). destruct (Forall2_lookup_r _ _ _ _ _ OUTS Hj) as (s & Hs & HP). destruct (Forall2_lookup_l _ _ _ _ _ DRV Hj) as (y & _ & d & Hd & _). split; [apply HP|eauto]. }
  assert (PN : forall s n, port w2 k s n -> exists nd, w_nodes w2 !! n = Some nd /\ n_name nd = s).
  { intros s n HP. unfold port, name_lookup in HP. destruct (List.find _ _) as [[s' n']|] eqn:EF; [|discriminate]. injection HP as <-. apply List.find_some in EF as [I Es]. apply String.eqb_eq in Es. cbn in Es. subst s'. apply elem_of_list_In in I. destruct (NMD k s n' I) as (nd & H1 & H2 & _). eauto. }
  assert (CM : complete w2 k).
  { intros n nd Hn _. destruct (decide (n ∈ outs)) as [Io|Io].
    - destruct (POUT n Io) as ((nd' & Hn' & Ho) & d & Hd). rewrite Hn in Hn'. injection Hn' as <-. rewrite Ho. split; [discriminate|]. intros _. rewrite Hd. discriminate.
    - destruct (decide (n ∈ ports)) as [Hp|Hp].
      + destruct (PIN n Hp) as (s & _ & _ & ((nd' & Hn' & Ho & _) & _) & _). rewrite Hn in Hn'. injection Hn' as <-. rewrite Ho. split; discriminate.
      + destruct (NEW n ltac:(rewrite elem_of_app; tauto)) as [_ NH]. split; [intro X; apply NH; left; exists nd; auto|]. intros X Y. apply NH. right. split; [exists nd; auto|exact Y]. }
  assert (KL : is_Some (w_kern w2 !! k)) by (destruct FRM as (_ & _ & FK); apply FK; exact K1). destruct KL as [g Hg].
  pose proof (ranked_sorts w2 k g WF2 RK CL Hg CM OK) as SO.
  constructor.
  - eauto.
  - exists k. intros hash PH. destruct (SO hash PH) as (order & ES & _). assert (SR : sorts w2 k order) by (exists hash; auto). destruct S2 as [R D _ _]. destruct (kernel_translates F h w2 order R D OK CM SR) as (P & EB & _).
    exists order, P. split; [exact ES|]. split; [|exact EB]. exists k. auto 10.
  - intros n nd Hn Ho. destruct (decide (n ∈ outs)) as [I|I]; [destruct (POUT n I) as ((nd' & Hn' & Ho') & _); congruence|]. destruct (decide (n ∈ ports)) as [J|J].
    + destruct (PIN n J) as (s & HZ & HP & ((nd' & Hn' & _ & Ev) & _) & HT). rewrite Hn in Hn'. injection Hn' as <-. split; [exact Ev|]. split; [|exact HT].
      destruct (PN s n HP) as (nd' & Hn' & En). rewrite Hn in Hn'. injection Hn' as <-. rewrite En. exact HZ.
    + exfalso. destruct (NEW n ltac:(rewrite elem_of_app; tauto)) as [NI _]. apply NI. exists nd. auto.
  - intros s Hs. apply elem_of_list_lookup in Hs as (j & Hs). destruct (Forall2_lookup_l _ _ _ _ _ INS Hs) as (n & Hn & HP & ((nd & Hnd & Ho & _) & _) & _). destruct (PN s n HP) as (nd' & Hn' & En). rewrite Hnd in Hn'. injection Hn' as <-. exists n, nd. auto.
  - clear - OUTS PN. induction OUTS as [|s n so outs (HP & (nd & Hn & Ho) & HT) _ IH]; constructor; [|exact IH]. destruct (PN s n HP) as (nd' & Hn' & En). rewrite Hn in Hn'. injection Hn' as <-. exists nd. auto.
Qed.
(** the value of output [n] *)
Definition syields (e : env) (w : world) (t : dftype) (n : nat) (y : Z -> Z) : Prop := forall i, 0 <= i -> kval (hwa e) w n i (kind t, y i mod 2 ^ total_bits t).
Lemma flat_yields e w1 w2 k ti to_ ss ports so outs ys : flat e w1 w2 k ti to_ ss ports so outs ys -> Forall2 (syields e w2 to_) outs ys.
Proof.
  intros [_ _ OUTS DRV]. revert so OUTS. induction DRV as [|n y outs ys (d & Hd & A) _ IH]; intros so OUTS; [constructor|]. inversion OUTS as [|s ? so' ? (HP & (nd & Hn & Ho) & HT) OUTS']; subst. constructor; [|exact (IH _ OUTS')].
  intros i Hi. eapply kv_out; [exact Hn|exact Ho|exact Hd|exact (sa_val _ _ _ _ _ _ A i Hi)].
Qed.
Lemma ports_unique w k (Q R : nat -> Prop) so : forall outs outs', Forall2 (fun s n => port w k s n /\ Q n) so outs -> Forall2 (fun s n => port w k s n /\ R n) so outs' -> outs = outs'.
Proof.
  induction so as [|s so IH]; intros outs outs' A B; inversion A as [|? ? ? ? [P1 _]]; inversion B as [|? ? ? ? [P2 _]]; subst; [reflexivity|]. unfold port in P1, P2. f_equal; [congruence|]. apply IH; assumption.
Qed.
Theorem skernel_computes {A} (body : nat -> prog A) Wi Wo ss so (B : Type) (ok : env -> B -> Prop) (ys : B -> list (Z -> Z)) e0 b0 : ok e0 b0 ->
  (forall e b, ok e b -> fbody body (sint Wi) (sint Wo) ss so e (ys b)) ->
  exists h w outs, sstands F (kernel body) ss Wi so Wo h w outs /\ st F true h w /\ stidy w /\ forall e b, ok e b -> Forall2 (syields e w (sint Wo)) outs (ys b).
Proof.
  intros OK0 BR. destruct (ftop_wp body _ _ ss so e0 (ys b0) (BR e0 b0 OK0)) as (w & a & h & EX & S & k & w1 & ports & outs & ST & CH). exists h, w, outs.
  split; [exact (ftop_stands (kernel body) a e0 h w k w1 Wi Wo ss ports so outs _ EX S ST CH)|]. split; [exact S|]. split; [exact (sx_tidy _ _ _ (fl_ext _ _ _ _ _ _ _ _ _ _ _ CH) (stidy_init w1 (proj1 (proj2 (proj2 (proj2 (proj2 ST)))))))|].
  intros e b OK. destruct (ftop_wp body _ _ ss so e (ys b) (BR e b OK)) as (w' & a' & h' & EX' & S' & k' & w1' & ports' & outs' & ST' & CH'). rewrite EX in EX'. injection EX' as <- <- <-.
  assert (EO : outs' = outs).
  { assert (EK : k' = k).
    { destruct ST' as (K1' & _ & _ & _ & _ & _). destruct ST as (_ & _ & _ & _ & _ & KO). apply KO.
      destruct (fl_ext _ _ _ _ _ _ _ _ _ _ _ CH) as [_ (_ & _ & FK) _]. destruct (fl_ext _ _ _ _ _ _ _ _ _ _ _ CH') as [_ (_ & _ & FK') _]. apply FK, FK', K1'. }
    subst k'. exact (ports_unique w k _ _ so outs' outs (fl_outs _ _ _ _ _ _ _ _ _ _ _ CH') (fl_outs _ _ _ _ _ _ _ _ _ _ _ CH)). }
  subst outs'. exact (flat_yields _ _ _ _ _ _ _ _ _ _ _ CH').
Qed.
End Top.

(** ** The circuit *)
Lemma stidy_schedulable w : WF w -> stidy w -> schedulable w.
Proof.
  intros WFw TD. constructor.
  - intros n nd k Hn Ho. destruct (TD n nd Hn) as (_ & _ & H & _). destruct (H k Ho).
  - intro n. destruct (w_nodes w !! n) as [nd|] eqn:Hn; [left; apply (TD n nd Hn)|]. left. destruct (operands w n) as [|a l] eqn:E; [cbn; lia|]. destruct (operands_live w n a (proj1 WFw) ltac:(rewrite E; left)) as [_ [nd Hnd]]. congruence.
  - left. intros n nd Hn Ho. apply (TD n nd Hn), Ho.
Qed.
Lemma stidy_realizable w lat : good_lat lat -> stidy w -> realizable_as Actual w lat.
Proof.
  intros GL TD. constructor.
  - intros n t Ht. unfold type_of in Ht. destruct (w_nodes w !! n) as [nd|] eqn:Hn; [|discriminate]. destruct (TD n nd Hn) as ((t' & Ht' & PT & _) & _). unfold type_of in Ht'. rewrite Hn in Ht'. congruence.
  - intros n nd t ts Hn Ht HT. destruct (TD n nd Hn) as ((t' & Ht' & _ & FT) & _). assert (t' = t) by congruence. subst t'. apply (FT ts lat GL HT).
  - intros n nd Hn Ho. apply (TD n nd Hn), Ho.
Qed.
Lemma stidy_acceptable w : stidy w -> acceptable w /\ offsets_plain w.
Proof.
  intro TD. split.
  - intros n nd Hn. destruct (TD n nd Hn) as (_ & _ & _ & _ & C). destruct (n_op nd); try exact I; match type of C with False => destruct C | _ => idtac end. intros c arms E. destruct (C c arms E) as (nc & Hc & Vc & _).
    destruct (TD c nc Hc) as ((t & Ht & _) & _). unfold type_of in Ht. rewrite Hc in Ht. exists t. unfold var_type. rewrite Hc, Ht, Vc. reflexivity.
  - intros n nd d a Hn Ho. destruct (TD n nd Hn) as (_ & _ & H & _). destruct (H d Ho).
Qed.
Lemma delayed_good cfg : delayed cfg -> good_lat (node_latency (processor_cfg cfg)).
Proof.
  intro D. split.
  - intros b t Hb Hs. unfold node_latency, config_latency, op_class, processor_cfg, cfg_set. assert (FT : RtlSpec.is_float t = false) by (destruct t; try discriminate Hs; reflexivity).
    assert (BW : is_bitwise b = false) by (destruct b; try discriminate Hb; reflexivity). rewrite BW. change (Types.is_float t) with (RtlSpec.is_float t). rewrite FT.
    match goal with |- 0 < match ?c with _ => _ end => destruct c as [l|] eqn:E end; [|lia]. apply (D b Hb l). exact E.
  - intro t. reflexivity.
Qed.

Lemma hw_num_mod t y s W : itype t s W -> h_num (kind t, y mod 2 ^ W) mod 2 ^ W = y mod 2 ^ W.
Proof.
  intros [IS IW _ _ B IS' IW' _]. unfold h_num. cbn [fst snd]. rewrite IS', IW'. exact (num_cong s W y (proj1 B)).
Qed.
Theorem stidy_scompiles F {A} (p : prog A) ins Wi so Wo h w outs (ok : env -> Prop) (meets : env -> list (Z -> Z) -> Prop) : sstands F p ins Wi so Wo h w outs -> st F true h w -> stidy w -> 0 < Wi < 65536 -> 0 < Wo < 65536 ->
  (forall e ys, meets e ys -> (forall s, s ∈ ins -> exists x, sfed e s Wi x) /\ Forall2 (syields e w (sint Wo)) outs ys /\ Forall (fun y => forall i, 0 <= i -> 0 <= y i < 2 ^ Wo) ys) ->
  scompiles F h w outs meets.
Proof.
  intros ST S TD HI HO MT. pose proof (st_good F h w S) as GT. pose proof (st_WF F true h w S) as WFw. pose proof (stidy_schedulable w WFw TD) as Sc.
  split.
  - intros order P B EB cfg perm m PM LC M1 FIT. 
    assert (PC : forall c l, processor_cfg cfg c = Some l -> 0 <= l <= m) by (intros c l; unfold processor_cfg, cfg_set; destruct c; intro E; first [injection E as <-; lia|exact (LC _ _ E)]).
    assert (BD : bounded (processor_cfg cfg) P m 0).
    { constructor; [exact PC|exact M1| |lia|lia]. intros v d k t l a HD. exfalso. destruct (offset_node F h w order P B EB _ _ _ _ _ _ HD) as (nv & Hv & Ov). destruct (TD v nv Hv) as (_ & _ & X & _). exact (X _ Ov). }
    split.
    + destruct (C19_kernels_qualify F h w order P B Sc EB) as (A1 & A2 & A3). exact (C19_pass_completes (processor_cfg cfg) perm P m 0 A1 A2 A3 BD PM).
    + intros solve TS. destruct (C24_completes F h w order solve (processor_cfg cfg) perm P m 0 B Sc EB TS BD PM) as (Q & E). eauto.
  - intros Q (order & P & B & EB & SC). split.
    + destruct (stidy_acceptable w TD) as [AC OP]. destruct (C54_partial F h w order P B EB OP) as (V1 & V2 & _).
      destruct SC as [(cfg & perm & L & _ & _ & E)|(solve & cfg & perm & L & _ & _ & _ & E)]; [apply (V1 _ _ _ _ E), AC|apply (V2 _ _ _ _ _ E), AC].
    + destruct (C50_actual F h w order P Q B GT EB) as (dl & D0 & SH & RN).
      { destruct SC as [(cfg & perm & L & D & PM & E)|(solve & cfg & perm & L & D & TS & PM & E)]; pose proof (stidy_realizable w _ (delayed_good cfg D) TD) as RZ; [left; exists (processor_cfg cfg), perm, L; auto|right; left; exists solve, (processor_cfg cfg), perm, L; auto]. }
      pose proof (ss_outs _ _ _ _ _ _ _ _ _ ST) as OUTS. exists dl. split.
      * intros o Ho. apply elem_of_list_lookup in Ho as (j & Hj). destruct (Forall2_lookup_r _ _ _ _ _ OUTS Hj) as (s & _ & nd & Hn & Eo & _). exact (D0 o nd Hn Eo).
      * intros e ys M. destruct (MT e ys M) as (FD & YS & RG).
        assert (EV : env_for w e).
        { intros n nd t Hn Eo Ht. destruct (ss_ins _ _ _ _ _ _ _ _ _ ST n nd Hn Eo) as (Ev & HZ & HT). rewrite Ht in HT. injection HT as ->. rewrite Ev. intros i Hi. destruct (FD _ HZ) as (x & FX). destruct (FX i Hi) as [E R]. rewrite E. split; [reflexivity|].
          cbn [snd]. unfold word. unfold sint. rewrite (it_w _ _ _ (itype_int Wi HI)). exact R. }
        assert (G : forall outs' ys', Forall2 (syields e w (sint Wo)) outs' ys' -> Forall (fun y => forall i, 0 <= i -> 0 <= y i < 2 ^ Wo) ys' -> (forall o, o ∈ outs' -> exists nd, w_nodes w !! o = Some nd /\ n_op nd = OUT /\ type_of w o = Some (sint Wo)) ->
                   Forall2 (fun o y => displays e Q o (dl o) y) outs' ys').
        { intros outs' ys' Y. induction Y as [|o y outs' ys' Y1 Y IH]; intros R HO'; constructor.
          - split; [exact (RN e EV)|]. intros sig RT i Hi. destruct (HO' o ltac:(left)) as (nd & Hn & Eo & Ht). apply Forall_cons in R as [R _].
            pose proof (SH e sig RT o nd (sint Wo) i _ Hn Eo Ht Hi (Y1 i Hi)) as E. rewrite E. unfold sint in *. pose proof (itype_int Wo HO) as IT. rewrite (it_w _ _ _ IT). rewrite (hw_num_mod _ _ _ _ IT). apply Z.mod_small, R, Hi.
          - apply IH; [apply Forall_cons in R; tauto|]. intros o' H. apply HO'. right. exact H. }
        apply (G _ _ YS RG). intros o Ho. apply elem_of_list_lookup in Ho as (j & Hj). destruct (Forall2_lookup_r _ _ _ _ _ OUTS Hj) as (s & _ & nd & Hn & Eo & _ & Ht). eauto.
Qed.
