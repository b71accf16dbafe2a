(** * The multiplexer (proofs). *)
From Coq Require Import ZArith Bool String Lia.
From stdpp Require Import gmap list.
From Verif Require Import Types Word Value OpSpec Graph GraphSpec TypesProofs BuilderProofs BuilderProofs2 BuilderTopo GraphFacts StreamSpec Dfcir DfcirBuild
     Verilog Stubs Naming Firrtl Lower RtlSpec KernelSpec KernelValues Instance InstanceSpec InstanceLoop InstanceMain InstanceStep InstanceFlow LifeProofs ProgTyping SliceFacts Prog ProgFrame ProgRules ProgCalls.
Local Open Scope Z_scope.

Section Mux.
Variable F : fltops.
Lemma arms_types e w k W arms ys : Forall2 (fun a y => arg e w k a W y) arms ys ->
  exists fs : list (Z -> dftype), length fs = length arms /\
    forall j a f y, arms !! j = Some a -> fs !! j = Some f -> ys !! j = Some y -> forall i, 0 <= i -> utype (f i) W /\ kval (hw e) w a i (f i, y i) /\ 0 <= y i < 2 ^ W.
Proof.
  intro F2. induction F2 as [|a y arms ys A F2 (fs & L & IH)]; [exists []; split; [reflexivity|intros j a f y H; discriminate H]|].
  destruct (a_val _ _ _ _ _ _ A) as (f0 & V). exists (f0 :: fs). split; [cbn; congruence|]. intros [|j] a1 f y1 H1 H2 H3; cbn in H1, H2, H3; [injection H1 as <-; injection H2 as <-; injection H3 as <-; exact V|exact (IH j a1 f y1 H1 H2 H3)].
Qed.
Lemma rule_mux e T h w k c Wc xc arms W ys : st F T h w -> holds e w k c Wc xc -> Forall2 (fun a y => arg e w k a W y) arms ys -> 2 ^ Wc <= Z.of_nat (length arms) ->
  (T = true -> exists t, Forall (fun a => type_of w a = Some t) arms /\ ((length arms <= 127)%nat \/ forall a, a ∈ arms -> is_constant_node w a)) ->
  wp F T h w (call (CMux k c arms)) (fun w' s => fr T w w' /\ holds e w' k s W (fun i => (nth (Z.to_nat (xc i)) ys (fun _ => 0)) i) /\ forall a, head arms = Some a -> type_of w' s = type_of w a).
Proof.
  intros S C F2 LW TT. pose proof (st_WF F T h w S) as WFw. destruct (held _ _ _ _ _ _ (weak _ _ _ _ _ _ C)) as (nc & tc & Nc & _ & _ & _ & Em & HWc).
  assert (0 < 2 ^ Wc) by (apply Z.pow_pos_nonneg; lia).
  destruct arms as [|a0 arms]; [cbn in LW; lia|].
  assert (AR : forall a, a ∈ a0 :: arms -> exists y, arg e w k a W y).
  { intros a Ha. apply elem_of_list_lookup in Ha as (j & Hj). destruct (Forall2_lookup_l _ _ _ _ _ F2 Hj) as (y & _ & A). eauto. }
  destruct (AR a0 ltac:(constructor)) as (y0 & A0). destruct (a_node _ _ _ _ _ _ A0) as (n0 & N0 & _). destruct (a_type _ _ _ _ _ _ A0) as (t0 & Ht0 & UT0). pose proof (a_width _ _ _ _ _ _ A0) as HW.
  assert (Hty : w_types w !! n_ty n0 = Some t0) by (unfold type_of in Ht0; rewrite N0 in Ht0; exact Ht0).
  destruct (utype_facts t0 W UT0 HW) as (_ & _ & _ & PR & _).
  destruct (mk_op_progress w k MUX (n_ty n0) (c :: a0 :: arms)) as (w' & s & E).
  { apply WFw. } { eauto. } { discriminate. } { rewrite <- Em. exact (kern_of F _ _ _ _ _ S Nc). }
  { intros b Hb. rewrite elem_of_cons in Hb. destruct Hb as [->|Hb]; [exact (arg_usable _ _ _ _ _ _ (proj1 C))|]. destruct (AR b Hb) as (y & A). exact (arg_usable _ _ _ _ _ _ A). }
  assert (ES : step F w (CMux k c (a0 :: arms)) = Ok (w', s)).
  { cbn [step]. unfold do_mux, get_node. rewrite N0. cbn [of_opt rbind]. exact E. }
  destruct (step_ext F _ _ _ _ ES WFw) as [_ (a0' & rest & t & EQ & Ht & NN)]. injection EQ as <- <-. rewrite Ht0 in Ht. injection Ht as <-.
  eapply wp_call; [exact S|exact ES|exact I|discriminate|]. split; [|split].
  - eapply node_fr; [exact S|exact ES|discriminate|exact I|exact NN| |exact I| |intros c' arms' EQ; injection EQ as <- _; exact (proj1 (proj2 C))].
    + intros b Hb. rewrite elem_of_cons in Hb. destruct Hb as [->|Hb]; [exact (arg_nohole _ _ _ _ _ _ (proj1 C))|]. destruct (AR b Hb) as (y & A). exact (arg_nohole _ _ _ _ _ _ A).
    + intros ET. destruct (TT ET) as (t & FT & LL). split; [exact PR|]. split; [|destruct LL as [LL|LL]; [left; cbn in *; lia|right; exact LL]]. intros ts lat X. inversion X as [|? t1 ? l E1 X']. subst. cbn. split; [inversion X'; discriminate|].
      assert (t = t0) as -> by (inversion FT as [|? ? Q _]; congruence). clear - X' FT. revert X' FT. generalize (a0 :: arms). intros q X' FT. induction X' as [|? ? ? ? E1 X' IH]; [constructor|]. inversion FT as [|? ? Q FT']. subst. constructor; [congruence|exact (IH FT')].
  - destruct (arms_types _ _ _ _ _ _ F2) as (fs & LF & V). destruct (a_val _ _ _ _ _ _ (proj1 C)) as (fc & VC).
    eapply (node_holds F e T h w _ w' s k _ _ _ W _ (fun i => nth (Z.to_nat (xc i)) fs (fun _ => t0) i)); [exact S|exact ES|discriminate|exact NN|discriminate|exact UT0|exact HW|].
    intros i Hi. destruct (VC i Hi) as (_ & KC & RC). pose proof NN as (Fr & (nd & Hr & Er & Ht & _) & Hin & Hl).
    assert (J : (Z.to_nat (xc i) < length (a0 :: arms))%nat) by lia. set (j := Z.to_nat (xc i)) in *.
    destruct (lookup_lt_is_Some_2 _ _ J) as (a & Ha). destruct (lookup_lt_is_Some_2 fs j) as (f & Hf); [rewrite LF; exact J|]. destruct (Forall2_lookup_l _ _ _ _ _ F2 Ha) as (y & Hy & _).
    destruct (V j a f y Ha Hf Hy i Hi) as (U & K & R).
    rewrite (nth_lookup_Some _ _ _ _ Hf), (nth_lookup_Some _ _ _ _ Hy). split; [exact U|]. split; [|exact R].
    assert (OLD : forall m z, m ∈ c :: a0 :: arms -> kval (hw e) w m i z -> kval (hw e) w' m i z).
    { intros m z Hm. apply (step_old F _ _ _ _ _ _ _ _ ES WFw); [discriminate|exact (Hl m Hm)]. }
    eapply (kv_mux _ _ s nd c (a0 :: arms) a i (fc i, xc i)); [exact Hr|exact Er|unfold operands; rewrite Hin, imap_src; reflexivity|exact Hi|apply OLD; [constructor|exact KC]|exact Ha|apply OLD; [right; eapply elem_of_list_lookup_2; exact Ha|exact K]|].
    intros b Hb. destruct (AR b Hb) as (yb & Ab). destruct (a_val _ _ _ _ _ _ Ab) as (fb & Vb). destruct (Vb i Hi) as (_ & Kb & _). exists (fb i, yb i). apply OLD; [right; exact Hb|exact Kb].
  - intros a Ha. injection Ha as <-. rewrite Ht0. destruct NN as (_ & (nd & Hr & _ & Htr & _) & _). unfold type_of. rewrite Hr. exact Htr.
Qed.
End Mux.
