(** Types of variables (proofs). *)
From Coq Require Import ZArith Bool Lia.
From stdpp Require Import gmap list.
From Verif Require Import Types Word Value Graph GraphSpec BuilderProofs BuilderProofs2 TypingSpec.
Local Open Scope Z_scope.

Lemma typing_app o t args more : typing o t args -> typing o t (args ++ more).
Proof.
  destruct o; cbn; auto.
  - intros (r & ->). exists (r ++ more). reflexivity.
  - intros (c & r & ->). exists c, (r ++ more). reflexivity.
  - intros (a & b & r & -> & H). exists a, b, (r ++ more). auto.
  - intros (r & ->). exists (r ++ more). reflexivity.
  - intros (a & r & ->). exists a, (r ++ more). reflexivity.
  - intros (r & ->). exists (r ++ more). reflexivity.
  - intros (r & ->). exists (r ++ more). reflexivity.
  - intros (a & r & -> & H). exists a, (r ++ more). auto.
  - intros (a & b & r & -> & H). exists a, b, (r ++ more). auto.
Qed.
Lemma type_of_mono w w' r a t : preserved w w' r -> type_of w a = Some t -> type_of w' a = Some t.
Proof.
  intros (P1 & _ & P3 & _). unfold type_of. destruct (w_nodes w !! a) as [nd|] eqn:E; [|discriminate].
  destruct (P1 a nd E) as (nd' & -> & (_ & <- & _)). apply P3.
Qed.
Lemma type_of_some w a : consistent w -> is_Some (w_nodes w !! a) -> exists t, type_of w a = Some t.
Proof. intros C (nd & H). destruct (cs_type w C a nd H) as (t & Ht). exists t. unfold type_of. rewrite H. exact Ht. Qed.
Lemma chans_operands r args : map c_src (imap (fun i a => mkChan a r i false) args) = args.
Proof.
  assert (G : forall k, map c_src (imap (fun i a => mkChan a r (k + i) false) args) = args).
  { induction args as [|a args IH]; intro k; [reflexivity|]. cbn. f_equal. rewrite <- (IH (S k)) at 2. f_equal. apply imap_ext. intros. unfold compose. f_equal. lia. }
  apply (G 0%nat).
Qed.

Section Step.
Variable TG : opk -> dftype -> list dftype -> Prop.
Hypothesis TGt : forall o t args, typing o t args -> TG o t args.
Hypothesis TGa : forall o t args more, TG o t args -> TG o t (args ++ more).
Variables (w w' : world) (r : nat).
Hypothesis CW : consistent w.
Hypothesis T : typed_by TG w.
Hypothesis P : preserved w w' r.

Lemma old_typed n nd t : n <> r -> w_nodes w' !! n = Some nd -> w_types w' !! n_ty nd = Some t ->
  exists args, Forall2 (fun a ta => type_of w' a = Some ta) (operands w' n) args /\ TG (n_op nd) t args.
Proof.
  intros Hr Hn Ht. assert (Pr := P). destruct P as (P1 & P2 & P3 & P4). destruct (P4 n ltac:(eauto) Hr) as (nd0 & H0).
  destruct (P1 n nd0 H0) as (nd' & Hn' & (O & Ty & _)). rewrite Hn in Hn'. injection Hn' as <-.
  destruct (cs_type w CW n nd0 H0) as (t0 & Ht0). assert (t0 = t) as ->.
  { apply P3 in Ht0. rewrite Ty in Ht0. congruence. }
  destruct (T n nd0 t H0 Ht0) as (args & A1 & A2). exists args. rewrite <- O. split; [|exact A2].
  unfold operands. rewrite (P2 n ltac:(eauto) Hr). eapply Forall2_impl; [exact A1|]. intros a ta. apply type_of_mono with (1 := Pr).
Qed.

Lemma new_typed k o ty vk nm args : new_node w w' r k o ty vk nm args ->
  (forall ts, Forall2 (fun a ta => type_of w a = Some ta) args ts -> typing o ty ts) -> typed_by TG w'.
Proof.
  intros (N & (nd0 & Hr & Ho & Hty & _) & I & L) HT n nd t Hn Ht. destruct (decide (n = r)) as [->|Nr]; [|apply old_typed; assumption].
  rewrite Hr in Hn. injection Hn as <-. rewrite Hty in Ht. injection Ht as <-.
  assert (exists ts, Forall2 (fun a ta => type_of w a = Some ta) args ts) as (ts & Hts).
  { clear - L CW. induction args as [|a l IH]; [exists []; constructor|]. destruct IH as (ts & IH); [intros; apply L; right; assumption|].
    destruct (type_of_some w a CW (L a ltac:(left))) as (t & Ht). exists (t :: ts). constructor; assumption. }
  exists ts. rewrite Ho. split; [|apply TGt, HT; exact Hts]. unfold operands. rewrite I, chans_operands.
  eapply Forall2_impl; [exact Hts|]. intros a ta. apply type_of_mono with (1 := P).
Qed.
Lemma const_typed t v : const_result w w' r t v -> typed_by TG w'.
Proof.
  intros ((nd0 & Hr & _ & Ho & Hty) & [->|(N & I & _)]); [exact T|].
  intros n nd t' Hn Ht. destruct (decide (n = r)) as [->|Nr]; [|apply old_typed; assumption].
  rewrite Hr in Hn. injection Hn as <-. exists []. split; [unfold operands; rewrite I; constructor|]. rewrite Ho. apply TGt. exact Logic.I.
Qed.
Lemma same_typed : w_nodes w' = w_nodes w -> w_chans w' = w_chans w -> typed_by TG w'.
Proof.
  intros N C n nd t Hn Ht. rewrite N in Hn. destruct (cs_type w CW n nd Hn) as (t0 & Ht0). assert (t0 = t) as ->.
  { destruct P as (_ & _ & P3 & _). apply P3 in Ht0. congruence. }
  destruct (T n nd t Hn Ht0) as (args & A1 & A2). exists args. split; [|exact A2].
  unfold operands, in_chans. rewrite N, C. fold (in_chans w n). fold (operands w n).
  eapply Forall2_impl; [exact A1|]. intros a ta. apply type_of_mono with (1 := P).
Qed.

Lemma step_typed F c : call_post F w c w' r -> typed_by TG w'.
Proof.
  intro E. destruct c; cbn in E.
  - destruct E as (_ & _ & N & C). apply same_typed; assumption.
  - destruct E as (_ & _ & N & C). apply same_typed; assumption.
  - destruct E as (t & _ & N). eapply new_typed; [exact N|]. intros; exact Logic.I.
  - destruct E as (t & _ & N). eapply new_typed; [exact N|]. intros; exact Logic.I.
  - destruct E as (t & _ & N). eapply new_typed; [exact N|]. intros; exact Logic.I.
  - destruct E as (t & _ & N). eapply const_typed. exact N.
  - destruct E as [(ta & tb & va & vb & v & _ & _ & _ & N)|(ta & Ha & _ & N)]; [eapply const_typed; exact N|].
    eapply new_typed; [exact N|]. intros ts Hts. inversion Hts as [|? t1 ? l1 H1 H2]; subst. inversion H2 as [|? t2 ? l2 H3 H4]; subst.
    rewrite Ha in H1. injection H1 as <-. exists ta, t2, l2. auto.
  - destruct E as [(ta & va & v & _ & _ & N)|(ta & Ha & _ & N)]; [eapply const_typed; exact N|].
    eapply new_typed; [exact N|]. intros ts Hts. inversion Hts as [|? t1 ? l1 H1 H2]; subst. rewrite Ha in H1. injection H1 as <-. exists l1. reflexivity.
  - destruct E as [(ta & va & v & _ & N & _)|(ta & Ha & _ & N)]; [eapply const_typed; exact N|].
    eapply new_typed; [exact N|]. intros ts Hts. inversion Hts as [|? t1 ? l1 H1 H2]; subst. rewrite Ha in H1. injection H1 as <-.
    destruct left; exists l1; reflexivity.
  - destruct E as (ta & Ha & Hb & N). eapply new_typed; [exact N|]. intros ts Hts. inversion Hts as [|? t1 ? l1 H1 H2]; subst.
    rewrite Ha in H1. injection H1 as <-. exists ta, l1. split; [reflexivity|].
    pose proof (Z.mod_pos_bound first 65536 ltac:(lia)). pose proof (Z.mod_pos_bound second 65536 ltac:(lia)).
    split; [lia|]. split; [exact Hb|]. unfold mkRaw, u16. f_equal. f_equal. lia.
  - destruct E as (ta & tb & Ha & Hb & N). eapply new_typed; [exact N|]. intros ts Hts.
    inversion Hts as [|? t1 ? l1 H1 H2]; subst. inversion H2 as [|? t2 ? l2 H3 H4]; subst.
    rewrite Ha in H1. injection H1 as <-. rewrite Hb in H3. injection H3 as <-. exists ta, tb, l2. auto.
  - destruct E as (t & Ht & [(_ & -> & _)|N]); [exact T|]. eapply new_typed; [exact N|]. intros ts Hts.
    inversion Hts as [|? t1 ? l1 H1 H2]; subst. exists t1, l1. reflexivity.
  - destruct E as (a0 & rest & t & -> & Ha & N). eapply new_typed; [exact N|]. intros ts Hts.
    inversion Hts as [|? t1 ? l1 H1 H2]; subst. inversion H2 as [|? t2 ? l2 H3 H4]; subst.
    rewrite Ha in H3. injection H3 as <-. exists t1, l2. reflexivity.
  - destruct E as (t & nd & Ha & _ & _ & N). eapply new_typed; [exact N|]. intros ts Hts.
    inversion Hts as [|? t1 ? l1 H1 H2]; subst. rewrite Ha in H1. injection H1 as <-. exists l1. reflexivity.
  - destruct E as (Er & La & Lb & I & LV). intros n nd t Hn Ht. destruct (decide (n = r)) as [->|Nr]; [|apply old_typed; assumption]. rewrite Er in Hn |- *.
    assert (Pr := P). destruct P as (P1 & P2 & P3 & P4). destruct La as (nd0 & H0).
    destruct (P1 a nd0 H0) as (nd' & Hn' & (O & Ty & _)). rewrite Hn in Hn'. injection Hn' as <-.
    destruct (cs_type w CW a nd0 H0) as (t0 & Ht0). assert (t0 = t) as -> by (apply P3 in Ht0; rewrite Ty in Ht0; congruence).
    destruct (T a nd0 t H0 Ht0) as (args & A1 & A2). destruct (type_of_some w b CW Lb) as (tb & Htb).
    exists (args ++ [tb]). split; [|rewrite <- O; apply TGa; exact A2].
    unfold operands. rewrite I, map_app. apply Forall2_app.
    + eapply Forall2_impl; [exact A1|]. intros x tx. apply type_of_mono with (1 := Pr).
    + constructor; [|constructor]. apply type_of_mono with (1 := Pr). exact Htb.
Qed.
End Step.

Lemma run_typed_by (TG : opk -> dftype -> list dftype -> Prop) F : (forall o t args, typing o t args -> TG o t args) -> (forall o t args more, TG o t args -> TG o t (args ++ more)) ->
  forall h w w', run F w h = Ok w' -> WF w -> typed_by TG w -> typed_by TG w'.
Proof.
  intros TGt TGa. induction h as [|c h IH]; intros w w' R W T; cbn in R; [injection R as <-; exact T|].
  destruct (step F w c) as [[w1 r]| | |] eqn:S; try discriminate R. cbn in R.
  destruct (step_ext F _ _ _ _ S W) as [[W1 P] Q]. eapply IH; [exact R|exact W1|].
  eapply step_typed; [exact TGt|exact TGa|apply W|exact T|exact P|exact Q].
Qed.
Lemma run_typed F h w w' : run F w h = Ok w' -> WF w -> well_typed w -> well_typed w'.
Proof. apply run_typed_by; [auto|apply typing_app]. Qed.
Lemma typing_kinds o t args : typing o t args -> kind_typing o t args.
Proof. intro H. exists args. auto. Qed.
Lemma kind_typing_app o t args more : kind_typing o t args -> kind_typing o t (args ++ more).
Proof. intros (args' & E & H). exists (args' ++ more). split; [rewrite !map_app, E; reflexivity|apply typing_app; exact H]. Qed.
Lemma kind_typing_kinds o t args args' : map kind args = map kind args' -> kind_typing o t args -> kind_typing o t args'.
Proof. intros E (a & E' & H). exists a. split; [congruence|exact H]. Qed.
Lemma run_kind_typed F h w w' : run F w h = Ok w' -> WF w -> kind_typed w -> kind_typed w'.
Proof. apply run_typed_by; [apply typing_kinds|apply kind_typing_app]. Qed.
Lemma init_typed : well_typed init_world.
Proof. intros n nd t H. cbn in H. rewrite lookup_empty in H. discriminate. Qed.
Lemma init_kind_typed : kind_typed init_world.
Proof. intros n nd t H. cbn in H. rewrite lookup_empty in H. discriminate. Qed.

Lemma kind_signed a b : kind a = kind b -> is_signed a = is_signed b.
Proof. destruct a, b; cbn; intro H; try discriminate H; injection H; intros; subst; reflexivity. Qed.
Lemma kind_float a b : kind a = kind b -> is_float a = is_float b.
Proof. destruct a, b; cbn; intro H; try discriminate H; reflexivity. Qed.
