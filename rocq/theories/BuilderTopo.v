(** Consequences of the builder invariant: unique constants, check(), feed-forward
    kernels are acyclic, reachable, and sort successfully. *)
From Coq Require Import ZArith Bool String Lia Relations.
From stdpp Require Import gmap list.
From Verif Require Import Types TypesProofs Word Value Graph GraphSpec BuilderProofs BuilderProofs2
     TopSort TopSortProofs KernelSort.

Section B.
Variable F : fltops.

Lemma run_app h1 : forall h2 w, run F w (h1 ++ h2) = rbind (run F w h1) (fun w' => run F w' h2).
Proof.
  induction h1 as [|c h1 IH]; intros h2 w; cbn [app run]; [reflexivity|].
  destruct (step F w c) as [[w1 r]| | |]; cbn; auto.
Qed.

(** *** constants *)
Definition const_unique (w : world) : Prop :=
  forall n m t v, const_of w n t v -> const_of w m t v -> n = m.

Lemma preserved_const w w' r n t v : preserved w w' r -> const_of w n t v -> const_of w' n t v.
Proof.
  intros (P1 & P2 & P3 & P4) (nd & Hn & Hv & Ho & Ht).
  destruct (P1 _ _ Hn) as (nd' & Hn' & (A & B & D & E & G)). exists nd'.
  split; [exact Hn'|]. split; [congruence|]. split; [congruence|]. rewrite <- B. auto.
Qed.

Lemma preserved_const_back w w' r n t v : consistent w -> preserved w w' r -> n <> r ->
  const_of w' n t v -> const_of w n t v.
Proof.
  intros C (P1 & P2 & P3 & P4) Hne (nd' & Hn & Hv & Ho & Ht).
  destruct (P4 n) as [nd Hnd]; [eauto|auto|].
  destruct (P1 _ _ Hnd) as (x & Hx & (A & B & D & _)). rewrite Hn in Hx. injection Hx as <-.
  exists nd. split; [auto|]. split; [congruence|]. split; [congruence|].
  destruct (cs_type _ C _ _ Hnd) as [ty Hty]. pose proof (P3 _ _ Hty). congruence.
Qed.

Lemma new_node_not_const w w' r k o ty vk name args t v :
  new_node w w' r k o ty vk name args -> vk <> VConst -> ~ const_of w' r t v.
Proof.
  intros (_ & (nd & Hn & _ & _ & Hv & _) & _) Hne (nd' & Hn' & Hv' & _). congruence.
Qed.

(** what a call can do to the node it returns *)
Lemma step_cases w c w' r : step F w c = Ok (w', r) -> WF w ->
  (w_nodes w' = w_nodes w /\ w_chans w' = w_chans w /\ (forall t ty, w_types w !! t = Some ty -> w_types w' !! t = Some ty))
  \/ (exists k o ty vk name args, new_node w w' r k o ty vk name args /\ vk <> VConst /\
       (o = NONE -> exists s i, c = CNewVar k s i) /\
       (o = NONE \/ o = IN \/ o = OUT \/ args <> []) )
  \/ (exists t v, const_result w w' r t v)
  \/ (exists b, c = CConnect r b).
Proof.
  intros H W. destruct (step_ext F _ _ _ _ H W) as [[W' P] Q].
  destruct c; cbn [call_post] in Q.
  - destruct Q as (_ & _ & A & B). left. split; [auto|]. split; [auto|]. apply P.
  - destruct Q as (_ & _ & A & B). left. split; [auto|]. split; [auto|]. apply P.
  - destruct Q as (t & _ & Q). right. left. do 6 eexists. split; [exact Q|]. split; [destruct scalar; discriminate|]. split; [discriminate|auto].
  - destruct Q as (t & _ & Q). right. left. do 6 eexists. split; [exact Q|]. split; [destruct scalar; discriminate|]. split; [discriminate|auto].
  - destruct Q as (t & _ & Q). right. left. do 6 eexists. split; [exact Q|]. split; [destruct scalar; discriminate|]. split; [eauto|auto].
  - destruct Q as (t & _ & Q). right. right. left. eauto.
  - destruct Q as [(ta & tb & va & vb & v & _ & _ & _ & Q)|(ta & _ & _ & Q)].
    + right. right. left. eauto.
    + right. left. do 6 eexists. split; [exact Q|]. split; [discriminate|]. split; [discriminate|]. right. right. right. discriminate.
  - destruct Q as [(ta & va & v & _ & _ & Q)|(ta & _ & _ & Q)].
    + right. right. left. eauto.
    + right. left. do 6 eexists. split; [exact Q|]. split; [discriminate|]. split; [discriminate|]. right. right. right. discriminate.
  - destruct Q as [(ta & va & v & _ & Q & _)|(ta & _ & _ & Q)].
    + right. right. left. eauto.
    + right. left. do 6 eexists. split; [exact Q|]. split; [discriminate|]. split; [destruct left; discriminate|]. right. right. right. discriminate.
  - destruct Q as (ta & _ & _ & Q). right. left. do 6 eexists. split; [exact Q|]. split; [discriminate|]. split; [discriminate|]. right. right. right. discriminate.
  - destruct Q as (ta & tb & _ & _ & Q). right. left. do 6 eexists. split; [exact Q|]. split; [discriminate|]. split; [discriminate|]. right. right. right. discriminate.
  - destruct Q as (t & _ & [(_ & -> & _)|Q]).
    + left. auto.
    + right. left. do 6 eexists. split; [exact Q|]. split; [discriminate|]. split; [discriminate|]. right. right. right. discriminate.
  - destruct Q as (a0 & rest & t & -> & _ & Q). right. left. do 6 eexists. split; [exact Q|]. split; [discriminate|]. split; [discriminate|]. right. right. right. discriminate.
  - destruct Q as (t & nd & _ & _ & _ & Q). right. left. do 6 eexists. split; [exact Q|]. split; [discriminate|]. split; [discriminate|]. right. right. right. discriminate.
  - destruct Q as (-> & _). right. right. right. eauto.
Qed.

Lemma step_const_unique w c w' r :
  step F w c = Ok (w', r) -> WF w -> const_unique w -> const_unique w'.
Proof.
  intros H W U. destruct (step_ext F _ _ _ _ H W) as [[W' P] _].
  assert (Hback : forall n t v, const_of w' n t v -> const_of w n t v \/
            (n = r /\ forall m, ~ const_of w m t v)).
  { intros n t v Hc. destruct (step_cases _ _ _ _ H W) as [(A & B & D)|[(k & o & ty & vk & name & args & Q & Hvk & _)|[(t' & v' & Q)|(b & ->)]]].
    - left. destruct Hc as (nd & Hn & Hv & Ho & Ht). rewrite A in Hn. exists nd. repeat split; auto.
      destruct (cs_type _ (proj1 W) _ _ Hn) as [ty Hty]. pose proof (D _ _ Hty). congruence.
    - destruct (decide (n = r)) as [->|Hne]; [exfalso; eapply new_node_not_const; eauto|].
      left. eapply preserved_const_back; eauto. apply W.
    - destruct (decide (n = r)) as [->|Hne]; [|left; eapply preserved_const_back; eauto; apply W].
      destruct Q as (Q & [->|(_ & _ & Hno)]); [left; exact Hc|right]. split; [reflexivity|].
      destruct Hc as (nd & Hn & Hv & Ho & Ht). destruct Q as (nd2 & Hn2 & Hv2 & Ho2 & Ht2).
      replace t with t' by congruence. replace v with v' by congruence. exact Hno.
    - left. cbn [step] in H. ropen H. injection Hy as <-. unfold do_connect in Hx. ropen Hx.
      apply add_chan_inv in Hy as [Hac _].
      pose proof (add_chan_nodes_heads _ _ _ _ _ _ Hac) as ([Hh Hh'] & E1 & _).
      destruct Hc as (nd & Hn & Hv & Ho & Ht). destruct (Hh' _ _ Hn) as (nd0 & Hn0 & (A & B & D & _)).
      exists nd0. rewrite <- E1. repeat split; auto; congruence. }
  intros n m t v Hn Hm. destruct (Hback _ _ _ Hn) as [A|[En A]], (Hback _ _ _ Hm) as [B|[Em B]].
  - eapply U; eauto.
  - exfalso. eapply B; eauto.
  - exfalso. eapply A; eauto.
  - congruence.
Qed.

Lemma run_const_unique : forall h w w', run F w h = Ok w' -> WF w -> const_unique w -> const_unique w'.
Proof.
  induction h as [|c h IH]; intros w w' H W U; cbn [run] in H.
  - injection H as <-. exact U.
  - ropen H. destruct x as [w1 r]. eapply IH; eauto; [eapply step_ext; eauto|eapply step_const_unique; eauto].
Qed.

Lemma run_const_persist : forall h w w' n t v, run F w h = Ok w' -> WF w -> const_of w n t v -> const_of w' n t v.
Proof.
  induction h as [|c h IH]; intros w w' n t v H W Hc; cbn [run] in H.
  - injection H as <-. exact Hc.
  - ropen H. destruct x as [w1 r]. destruct (step_ext F _ _ _ _ Hx W) as [[W1 P] _].
    eapply IH; eauto. eapply preserved_const; eauto.
Qed.

Lemma run_types_persist : forall h w w' i t, run F w h = Ok w' -> WF w -> w_types w !! i = Some t -> w_types w' !! i = Some t.
Proof.
  induction h as [|c h IH]; intros w w' i t H W Hc; cbn [run] in H.
  - injection H as <-. exact Hc.
  - ropen H. destruct x as [w1 r]. destruct (step_ext F _ _ _ _ Hx W) as [[W1 P] _].
    eapply IH; eauto. destruct P as (_ & _ & P & _). auto.
Qed.

Lemma init_const_unique : const_unique init_world.
Proof. intros n m t v (nd & H & _). cbn in H. rewrite lookup_empty in H. discriminate. Qed.

Theorem const_sharing h1 w1 ty1 v1 w2 r1 h2 w3 ty2 v2 w4 r2 t1 t2 :
  run F init_world h1 = Ok w1 ->
  step F w1 (CConst ty1 v1) = Ok (w2, r1) ->
  run F w2 h2 = Ok w3 ->
  step F w3 (CConst ty2 v2) = Ok (w4, r2) ->
  w_types w4 !! ty1 = Some t1 -> w_types w4 !! ty2 = Some t2 ->
  const_of w4 r1 t1 (v1 mod 2 ^ 64)%Z /\ const_of w4 r2 t2 (v2 mod 2 ^ 64)%Z /\
  (r1 = r2 <-> t1 = t2 /\ (v1 mod 2 ^ 64 = v2 mod 2 ^ 64)%Z).
Proof.
  intros R1 S1 R2 S2 T1 T2.
  assert (W1 : WF w1) by (eapply run_WF; eauto using init_WF).
  destruct (step_ext F _ _ _ _ S1 W1) as [[W2 P2] (t1' & Ht1 & (Q1 & _))].
  assert (W3 : WF w3) by (eapply run_WF; eauto).
  destruct (step_ext F _ _ _ _ S2 W3) as [[W4 P4] (t2' & Ht2 & (Q2 & _))].
  assert (U4 : const_unique w4).
  { eapply step_const_unique; eauto. eapply run_const_unique; [exact R2|exact W2|].
    eapply step_const_unique; eauto. eapply run_const_unique; eauto using init_WF, init_const_unique. }
  assert (t1' = t1).
  { assert (w_types w4 !! ty1 = Some t1'); [|congruence].
    apply P4. eapply run_types_persist; eauto. apply P2. exact Ht1. }
  assert (t2' = t2).
  { assert (w_types w4 !! ty2 = Some t2'); [|congruence]. apply P4. exact Ht2. }
  subst t1' t2'.
  assert (Q1' : const_of w4 r1 t1 (v1 mod 2 ^ 64)%Z).
  { eapply preserved_const; eauto. eapply run_const_persist; eauto. }
  split; [exact Q1'|]. split; [exact Q2|]. split.
  - intros ->. destruct Q1' as (nd & Hn & _ & Ho & Ht), Q2 as (nd' & Hn' & _ & Ho' & Ht').
    rewrite Hn in Hn'. injection Hn' as <-. split; congruence.
  - intros [-> E]. rewrite E in Q1'. eauto.
Qed.

(** *** check() *)
Definition has_placeholder (w : world) (k : nat) : Prop :=
  exists n nd, w_nodes w !! n = Some nd /\ n_meta nd = k /\ n_op nd = NONE.

Lemma step_placeholder w c w' r k : step F w c = Ok (w', r) -> WF w ->
  (has_placeholder w' k <-> has_placeholder w k \/ exists s i, c = CNewVar k s i).
Proof.
  intros H W. destruct (step_ext F _ _ _ _ H W) as [[W' P] Q].
  destruct P as (P1 & P2 & P3 & P4).
  assert (Hfwd : has_placeholder w k -> has_placeholder w' k).
  { intros (n & nd & Hn & Hm & Ho). destruct (P1 _ _ Hn) as (nd' & Hn' & (A & _ & _ & _ & B)).
    exists n, nd'. split; [auto|]. split; congruence. }
  split.
  - intros (n & nd' & Hn & Hm & Ho).
    assert (Hold : is_Some (w_nodes w !! n) -> has_placeholder w k).
    { intros [nd Hnd]. destruct (P1 _ _ Hnd) as (x & Hx & (A & _ & _ & _ & B)).
      exists n, nd. split; [auto|]. split; congruence. }
    destruct (decide (n = r)) as [->|Hne]; [|left; auto].
    destruct (step_cases _ _ _ _ H W) as [(A & B & D)|[(k' & o & ty & vk & name & args & N & Hvk & Hcn & _)|[(t' & v' & N)|(b & ->)]]].
    + left. apply Hold. rewrite <- A. eauto.
    + destruct N as (_ & (nd & Hnd & Ho' & _ & _ & _ & Hk) & _). right.
      assert (o = NONE) by congruence. replace k with k' by congruence. auto.
    + exfalso. destruct N as ((nd & Hnd & _ & Ho' & _) & _). congruence.
    + left. apply Hold. cbn [call_post] in Q. destruct Q as (_ & Q & _). exact Q.
  - intros [Hp|(s & i & ->)]; [auto|]. cbn [call_post] in Q. destruct Q as (t & _ & (_ & (nd & Hnd & Ho & _ & _ & _ & Hk) & _)).
    exists r, nd. auto.
Qed.

Lemma run_placeholder k : forall h w w', run F w h = Ok w' -> WF w ->
  (has_placeholder w' k <-> has_placeholder w k \/ exists s i, In (CNewVar k s i) h).
Proof.
  induction h as [|c h IH]; intros w w' H W; cbn [run] in H.
  - injection H as <-. cbn. split; [auto|]. intros [Hp|(s & i & [])]; auto.
  - ropen H. destruct x as [w1 r]. rewrite (IH _ _ Hy); [|eapply step_ext; eauto].
    rewrite (step_placeholder _ _ _ _ k Hx W). cbn [In]. split.
    + intros [[Hp|(s & i & ->)]|(s & i & Hi)]; eauto 6.
    + intros [Hp|(s & i & [->|Hi])]; eauto 6.
Qed.

Theorem check_correct h w k b :
  run F init_world h = Ok w -> check w k = Ok b ->
  (b = true <-> forall s i, ~ In (CNewVar k s i) h).
Proof.
  intros R H. assert (W : WF w) by (eapply run_WF; eauto using init_WF).
  unfold check in H. ropen H. apply of_opt_UB in Hx. injection Hy as <-.
  assert (E : has_placeholder w k <-> exists s i, In (CNewVar k s i) h).
  { rewrite (run_placeholder k _ _ _ R init_WF). split; [|auto].
    intros [(n & nd & Hn & _)|Hi]; [cbn in Hn; rewrite lookup_empty in Hn; discriminate|exact Hi]. }
  split.
  - intros Hf s i Hi. assert (Hp : has_placeholder w k) by (apply E; eauto).
    destruct Hp as (n & nd & Hn & Hm & Ho). rewrite forallb_forall in Hf.
    destruct (cs_owned _ (proj1 W) _ _ Hn) as (g & Hg & Hin).
    rewrite Hm in Hg. rewrite Hx in Hg. injection Hg as <-.
    specialize (Hf n). rewrite Hn, Ho in Hf. apply elem_of_list_In in Hin. specialize (Hf Hin). discriminate.
  - intros Hno. apply forallb_forall. intros n Hin. apply elem_of_list_In in Hin.
    destruct (cs_member _ (proj1 W) _ _ _ Hx Hin) as (nd & Hn & Hm). rewrite Hn.
    destruct (n_op nd) eqn:Eo; auto. exfalso.
    assert (Hp : has_placeholder w k) by (exists n, nd; auto). apply E in Hp as (s & i & Hi). eapply Hno; eauto.
Qed.

(** *** feed-forward kernels *)
Lemma in_chans_spec w n ch : consistent w ->
  (ch ∈ in_chans w n <-> c_tgt ch = n /\ exists c, w_chans w !! c = Some ch).
Proof.
  intros C. unfold in_chans. split.
  - destruct (w_nodes w !! n) as [nd|] eqn:En; [|intros H; apply elem_of_nil in H as []].
    intros H. apply elem_of_list_omap in H as (c & Hc & Hch).
    destruct (cs_ins _ C _ _ _ En Hc) as (ch' & E & Ht). rewrite Hch in E. injection E as <-. eauto.
  - intros [<- [c Hc]]. destruct (cs_tgt _ C _ _ Hc) as (nd & Hn & Hin). rewrite Hn.
    apply elem_of_list_omap. eauto.
Qed.
Lemma out_chans_spec w n ch : consistent w ->
  (ch ∈ out_chans w n <-> c_src ch = n /\ exists c, w_chans w !! c = Some ch).
Proof.
  intros C. unfold out_chans. split.
  - destruct (w_nodes w !! n) as [nd|] eqn:En; [|intros H; apply elem_of_nil in H as []].
    intros H. apply elem_of_list_omap in H as (c & Hc & Hch).
    destruct (cs_outs _ C _ _ _ En Hc) as (ch' & E & Ht). rewrite Hch in E. injection E as <-. eauto.
  - intros [<- [c Hc]]. destruct (cs_src _ C _ _ Hc) as (nd & Hn & Hin). rewrite Hn.
    apply elem_of_list_omap. eauto.
Qed.

(** "[b] reads [a]" seen from both ends *)
Lemma readers_operands w a b : consistent w -> (b ∈ readers w a <-> a ∈ operands w b).
Proof.
  intros C. unfold readers, operands. split; intros H; apply elem_of_list_fmap in H as (ch & -> & H).
  - apply out_chans_spec in H as [<- Hc]; [|auto]. apply elem_of_list_fmap. exists ch. split; [auto|].
    apply in_chans_spec; auto.
  - apply in_chans_spec in H as [<- Hc]; [|auto]. apply elem_of_list_fmap. exists ch. split; [auto|].
    apply out_chans_spec; auto.
Qed.

Lemma operands_live w n a : consistent w -> a ∈ operands w n -> is_Some (w_nodes w !! a) /\ is_Some (w_nodes w !! n).
Proof.
  intros C H. split.
  - apply elem_of_list_fmap in H as (ch & -> & H). apply in_chans_spec in H as [_ [c Hc]]; [|auto].
    destruct (cs_src _ C _ _ Hc) as (nd & Hn & _). eauto.
  - unfold operands, in_chans in H. destruct (w_nodes w !! n); [eauto|]. apply elem_of_nil in H as [].
Qed.

Lemma targets_readers w n : targets w n = readers w n.
Proof.
  unfold targets, readers, out_chans. destruct (w_nodes w !! n) as [nd|]; [|reflexivity].
  induction (n_outs nd) as [|c l IH]; [reflexivity|]. cbn. destruct (w_chans w !! c); cbn; congruence.
Qed.

Definition ranked (w : world) : Prop :=
  exists rank : nat -> nat, forall a b, a ∈ operands w b -> rank a < rank b.

Definition maxl (f : nat -> nat) (l : list nat) : nat := foldr (fun a m => Nat.max (f a) m) 0 l.
Lemma maxl_ge f l a : a ∈ l -> f a <= maxl f l.
Proof.
  induction l as [|x l IH]; intros H; [apply elem_of_nil in H as []|].
  change (maxl f (x :: l)) with (Nat.max (f x) (maxl f l)).
  apply elem_of_cons in H as [->|H]; [lia|]. specialize (IH H). lia.
Qed.

Lemma ranked_update w w' r :
  consistent w -> preserved w w' r -> ranked w ->
  (forall n, r ∉ operands w n) -> r ∉ operands w' r -> ranked w'.
Proof.
  intros C (P1 & P2 & P3 & P4) [rank Hr] Hun Hself.
  exists (fun n => if decide (n = r) then S (maxl rank (operands w' r)) else rank n).
  intros a b Hab. destruct (decide (b = r)) as [->|Hb].
  - destruct (decide (a = r)) as [->|Ha]; [congruence|]. apply maxl_ge with (f := rank) in Hab. lia.
  - assert (Hb' : is_Some (w_nodes w !! b)).
    { apply P4; [|auto]. unfold operands, in_chans in Hab. destruct (w_nodes w' !! b); [eauto|apply elem_of_nil in Hab as []]. }
    assert (Hab' : a ∈ operands w b) by (unfold operands in *; rewrite <- P2; auto).
    destruct (decide (a = r)) as [->|Ha]; [exfalso; eapply Hun; eauto|auto].
Qed.

Lemma new_not_operand w r : consistent w -> w_nodes w !! r = None -> forall n, r ∉ operands w n.
Proof. intros C Hr n H. apply operands_live in H as [[nd H] _]; auto. congruence. Qed.

(** invariant: ranked, and inputs/constants are undriven *)
Definition srcs_clean (w : world) : Prop :=
  forall n nd, w_nodes w !! n = Some nd -> (n_op nd = IN \/ exists v, n_op nd = CONST v) -> operands w n = [].

Lemma step_ff w c w' r : step F w c = Ok (w', r) -> WF w -> ok_call w c ->
  ranked w -> srcs_clean w -> ranked w' /\ srcs_clean w'.
Proof.
  intros H W Hok R S. destruct (step_ext F _ _ _ _ H W) as [[W' P] Q].
  pose proof (proj1 W) as C.
  assert (Sclean : forall n nd', w_nodes w' !! n = Some nd' -> n <> r -> (n_op nd' = IN \/ exists v, n_op nd' = CONST v) -> operands w' n = []).
  { intros n nd' Hn Hne Ho. destruct P as (P1 & P2 & P3 & P4). destruct (P4 n) as [nd Hnd]; [eauto|auto|].
    destruct (P1 _ _ Hnd) as (x & Hx & (A & _)). rewrite Hn in Hx. injection Hx as <-.
    unfold operands. rewrite P2; eauto. eapply S; eauto. rewrite A. exact Ho. }
  destruct (step_cases _ _ _ _ H W) as [(A & B & D)|[(k & o & ty & vk & name & args & N & Hvk & _ & Hshape)|[(t & v & N)|(b & ->)]]].
  - assert (E : forall n, operands w' n = operands w n).
    { intros n. unfold operands, in_chans. now rewrite A, B. }
    split.
    + destruct R as [rank R]. exists rank. intros a b. rewrite E. apply R.
    + intros n nd. rewrite A, E. apply S.
  - destruct N as (N1 & (nd & Hnd & No & _) & N3 & N4).
    assert (Eo : operands w' r = args).
    { unfold operands. rewrite N3. apply list_eq. intros i. rewrite list_lookup_fmap, list_lookup_imap. now destruct (args !! i). }
    split.
    + eapply ranked_update; eauto using new_not_operand. rewrite Eo. intros Hin. destruct (N4 _ Hin). congruence.
    + intros n nd' Hn Ho. destruct (decide (n = r)) as [->|Hne]; [|eauto].
      rewrite Hnd in Hn. injection Hn as <-. rewrite No in Ho.
      pose proof (proj2 W' _ _ Hnd) as (j & d & Ha & Hsh). rewrite No in Ha. rewrite N3 in Hsh.
      fold (chans_of r args) in Hsh. rewrite map_chans_of in Hsh.
      assert (j = 0) by (destruct Ho as [->|[v ->]]; exact Ha). subst j. cbn in Hsh.
      rewrite Eo. destruct args as [|a args]; [reflexivity|]. destruct d; cbn in Hsh; discriminate.
  - destruct N as (Nc & [->|(Nn & Nin & _)]); [auto|].
    assert (Eo : operands w' r = []) by (unfold operands; now rewrite Nin).
    split.
    + eapply ranked_update; eauto using new_not_operand. rewrite Eo. apply not_elem_of_nil.
    + intros n nd' Hn Ho. destruct (decide (n = r)) as [->|Hne]; eauto.
  - cbn [call_post ok_call] in Q, Hok. destruct Q as (_ & _ & Hb & Hin & _).
    destruct Hok as (Hne & Hop & Hrd & (nd & Hnd & Hopk)).
    assert (Eo : operands w' r = [b]).
    { unfold operands in *. rewrite Hin, map_app. rewrite Hop. reflexivity. }
    split.
    + eapply ranked_update; eauto.
      * intros n Hn. apply readers_operands in Hn; [|auto]. rewrite Hrd in Hn. apply elem_of_nil in Hn as [].
      * rewrite Eo. intros Hx. apply elem_of_list_singleton in Hx. congruence.
    + intros n nd' Hn Ho. destruct (decide (n = r)) as [->|Hnr]; [|eauto].
      exfalso. destruct P as (P1 & _). destruct (P1 _ _ Hnd) as (x & Hx & (A & _)).
      rewrite Hn in Hx. injection Hx as <-. rewrite <- A in Ho.
      destruct Ho as [E|[v E]], Hopk as [E'|E']; congruence.
Qed.

Lemma run_ff : forall h w w', run F w h = Ok w' -> disciplined F w h -> WF w ->
  ranked w -> srcs_clean w -> ranked w' /\ srcs_clean w'.
Proof.
  induction h as [|c h IH]; intros w w' H D W R S; cbn [run disciplined] in H, D.
  - injection H as <-. auto.
  - ropen H. destruct x as [w1 r]. rewrite Hx in D. destruct D as [Hok D].
    destruct (step_ff _ _ _ _ Hx W Hok R S). eapply IH; eauto. eapply step_ext; eauto.
Qed.

Lemma init_ranked : ranked init_world.
Proof. exists (fun _ => 0). intros a b H. unfold operands, in_chans in H. cbn in H. rewrite lookup_empty in H. apply elem_of_nil in H as []. Qed.
Lemma init_srcs_clean : srcs_clean init_world.
Proof. intros n nd H. cbn in H. rewrite lookup_empty in H. discriminate. Qed.

Definition reads (w : world) (a b : nat) : Prop := a ∈ operands w b.

Lemma ranked_acyclic w : ranked w -> forall n, ~ clos_trans nat (reads w) n n.
Proof.
  intros [rank Hr].
  assert (G : forall a b, clos_trans nat (reads w) a b -> rank a < rank b).
  { intros a b Hab. induction Hab as [a b Hab|a b c _ IH1 _ IH2]; [apply Hr; exact Hab|lia]. }
  intros n Hn. specialize (G _ _ Hn). lia.
Qed.
Theorem feedforward_acyclic h w :
  run F init_world h = Ok w -> disciplined F init_world h ->
  forall n, ~ clos_trans nat (reads w) n n.
Proof. intros R D. apply ranked_acyclic, (run_ff _ _ _ R D init_WF init_ranked init_srcs_clean). Qed.

Lemma reach_from_start w k g :
  WF w -> ranked w -> complete w k -> only_kernel w k -> w_kern w !! k = Some g ->
  forall n, n ∈ g_nodes g -> n ∈ g_starts g \/ exists s, s ∈ g_starts g /\ clos_trans nat (reads w) s n.
Proof.
  intros [C Sh] [rank Hr] Hc Hok Hg.
  assert (G : forall m n, rank n < m -> n ∈ g_nodes g -> n ∈ g_starts g \/ exists s, s ∈ g_starts g /\ clos_trans nat (reads w) s n).
  { induction m as [|m IH]; intros n Hlt Hn; [lia|].
    destruct (cs_member _ C _ _ _ Hg Hn) as (nd & Hnd & Hm).
    assert (Hcases : n ∈ g_starts g \/ exists a, a ∈ operands w n).
    { destruct (Hc _ _ Hnd Hm) as [Hno Hout].
      assert (Hex : operands w n <> [] -> exists a, a ∈ operands w n).
      { destruct (operands w n) as [|a l]; [congruence|]. intros _. exists a. left. }
      destruct (Sh _ _ Hnd) as (j & d & Ha & Hsh).
      assert (Hj : 1 <= j -> operands w n <> []).
      { intros Hj E. unfold operands in E. apply fmap_nil_inv in E. rewrite E in Hsh.
        destruct j; [lia|]. cbn in Hsh. discriminate. }
      destruct (n_op nd) eqn:Eo; cbn in Ha; try (right; apply Hex, Hj; lia).
      - congruence.
      - left. apply (cs_starts _ C _ _ _ Hg). split; [auto|]. exists nd. auto.
      - right. apply Hex. auto.
      - left. apply (cs_starts _ C _ _ _ Hg). split; [auto|]. exists nd. eauto. }
    destruct Hcases as [Hs|[a Ha]]; [auto|]. right.
    assert (Han : a ∈ g_nodes g).
    { destruct (operands_live _ _ _ C Ha) as [[na Hna] _]. destruct (cs_owned _ C _ _ Hna) as (g' & Hg' & Hin).
      rewrite (Hok _ _ Hna) in Hg'. congruence. }
    pose proof (Hr _ _ Ha). destruct (IH a) as [Hs|(s & Hs & Hp)]; [lia|auto| |].
    - exists a. split; [auto|]. constructor. exact Ha.
    - exists s. split; [auto|]. eapply t_trans; [exact Hp|constructor; exact Ha]. }
  intros n Hn. eapply G; eauto.
Qed.

(** the kernel sorts: every node once, operands before users *)
Theorem ranked_sorts w k g :
  WF w -> ranked w -> srcs_clean w ->
  w_kern w !! k = Some g -> complete w k -> only_kernel w k ->
  forall hash, (forall l, Permutation (hash l) l) ->
  exists r, sort_by hash w k = Some (TSOk r) /\ Permutation r (g_nodes g) /\
    forall i j a b, r !! i = Some a -> r !! j = Some b -> a ∈ operands w b -> i < j.
Proof.
  intros W Rk Scl Hg Hc Hok hash PH. pose proof (proj1 W) as C.
  pose proof (ranked_acyclic _ Rk) as Acy. specialize (PH (g_starts g)).
  unfold sort_by. rewrite Hg. set (st := hash (g_starts g)) in *. clearbody st.
  assert (Hedge : forall a b, edge (targets w) a b <-> reads w a b).
  { intros a b. unfold edge, reads. rewrite targets_readers, <- elem_of_list_In. apply readers_operands. exact C. }
  assert (Hpath : forall a b, path (targets w) a b <-> clos_trans nat (reads w) a b).
  { intros a b. split; intros H; induction H as [a b H|a b c _ IH1 _ IH2];
      try (constructor; apply Hedge; exact H); eapply t_trans; eauto. }
  assert (Hin : forall a b, reads w a b -> b ∈ g_nodes g).
  { intros a b Hab. destruct (operands_live _ _ _ C Hab) as [_ [nb Hnb]].
    destruct (cs_owned _ C _ _ Hnb) as (g' & Hg' & Hin). rewrite (Hok _ _ Hnb) in Hg'. congruence. }
  assert (Hclosed : forall a b, In a (g_nodes g) -> edge (targets w) a b -> In b (g_nodes g)).
  { intros a b _ Hab. apply Hedge in Hab. apply elem_of_list_In. eauto. }
  assert (Hst : forall s, In s st -> In s (g_nodes g)).
  { intros s Hs. apply elem_of_list_In. apply elem_of_list_In in Hs. rewrite PH in Hs. now apply (cs_starts _ C _ _ _ Hg) in Hs. }
  assert (Hnds : List.NoDup st) by (apply NoDup_ListNoDup; rewrite PH; eapply cs_nd_starts; eauto).
  assert (Hndn : List.NoDup (g_nodes g)) by (apply NoDup_ListNoDup; eapply cs_nd_nodes; eauto).
  destruct (top_sort_ok_iff (targets w) (g_nodes g) st Hclosed Hst Hnds Hndn) as [_ Hok2].
  destruct Hok2 as [r Hr].
  { intros x Hx. apply elem_of_list_In in Hx.
    destruct (reach_from_start w k g W Rk Hc Hok Hg x Hx) as [Hs|(s & Hs & Hp)].
    - left. apply elem_of_list_In. now rewrite PH.
    - right. exists s. split; [apply elem_of_list_In; now rewrite PH|now apply Hpath]. }
  exists r. rewrite Hr. split; [reflexivity|].
  destruct (top_sort_ok_perm (targets w) (g_nodes g) st Hclosed Hst Hnds r Hr) as (Pm & Topo & _).
  split; [exact Pm|].
  assert (Hndr : NoDup r) by (rewrite Pm; eapply cs_nd_nodes; eauto).
  intros i j a b Hi Hj Hab.
  assert (Hb : In b (drop (S i) r)).
  { eapply (Topo) with (a := take i r) (x := a) (t := b).
    - intros n Hn. apply (Acy n). now apply Hpath.
    - intros x s Hs Hx. apply Hedge in Hx. apply elem_of_list_In in Hs. rewrite PH in Hs.
      apply (cs_starts _ C _ _ _ Hg) in Hs as [_ (nd & Hnd & Ho)].
      unfold reads in Hx. rewrite (Scl _ _ Hnd Ho) in Hx. apply elem_of_nil in Hx as [].
    - rewrite <- (take_drop_middle r i a Hi) at 1. reflexivity.
    - apply Hedge. exact Hab. }
  apply elem_of_list_In in Hb. apply elem_of_list_lookup in Hb as [m Hm]. rewrite lookup_drop in Hm.
  assert (j = S i + m) by (eapply (NoDup_lookup r); eauto). lia.
Qed.
Theorem feedforward_sorts h w k g :
  run F init_world h = Ok w -> disciplined F init_world h ->
  w_kern w !! k = Some g -> complete w k -> only_kernel w k ->
  forall hash, (forall l, Permutation (hash l) l) ->
  exists r, sort_by hash w k = Some (TSOk r) /\ Permutation r (g_nodes g) /\
    forall i j a b, r !! i = Some a -> r !! j = Some b -> a ∈ operands w b -> i < j.
Proof.
  intros R D. destruct (run_ff _ _ _ R D init_WF init_ranked init_srcs_clean) as [Rk Scl].
  apply ranked_sorts; [exact (run_WF F _ _ _ R init_WF)|exact Rk|exact Scl].
Qed.

(** histories that create a single kernel *)
Definition is_knew (c : cmd) : bool := match c with KNew => true | _ => false end.

Lemma step_only_kernel w c w' r k : step F w c = Ok (w', r) -> WF w ->
  is_knew c = false -> (forall j, is_Some (w_kern w !! j) -> j = k) ->
  (forall j, is_Some (w_kern w' !! j) -> j = k).
Proof.
  intros H W Hc Hk.
  assert (Hmk : forall w1 k1 o ty args, mk_op w1 k1 o ty args = Ok (w', r) ->
     (forall j, is_Some (w_kern w1 !! j) -> j = k) -> is_Some (w_types w1 !! ty) -> (forall v, o <> CONST v) -> consistent w1 ->
     forall j, is_Some (w_kern w' !! j) -> j = k).
  { intros w1 k1 o ty args Hm Hk1 Hty Ho C1 j Hj. apply mk_op_spec in Hm; auto. apply Hk1. apply (mp_kdom _ _ _ _ _ _ _ _ _ Hm). exact Hj. }
  assert (Han : forall k1 o ty vk name w1 n, add_node w k1 o ty vk name = Ok (w1, n) -> forall j, is_Some (w_kern w1 !! j) -> j = k).
  { intros k1 o ty vk name w1 n Ha j Hj. apply add_node_inv in Ha as (g & Hg & -> & ->). cbn in Hj.
    apply Hk. destruct (decide (j = k1)) as [->|Hne]; [eauto|]. rewrite lookup_insert_ne in Hj by auto. exact Hj. }
  assert (Hcc : forall ty v, create_or_use_const w ty v = Ok (w', r) -> forall j, is_Some (w_kern w' !! j) -> j = k).
  { intros ty v Hcr. unfold create_or_use_const in Hcr. ropen Hcr. ropen Hy. ropen Hy0.
    destruct (List.find _ _); [injection Hy as <- <-; exact Hk|]. eapply Han; eauto. }
  pose proof (proj1 W) as C. pose proof (cs_type _ C) as Hty.
  assert (Hat : forall t, consistent (fst (add_type w t))) by (intros t; apply (add_type_WF w t W)).
  assert (Hnt : forall t, is_Some (w_types (fst (add_type w t)) !! length (w_types w))).
  { intros t. cbn. rewrite lookup_app_r, Nat.sub_diag by lia. eauto. }
  destruct c; cbn [step is_knew] in H, Hc; try discriminate.
  - injection H as <- <-. exact Hk.
  - unfold do_io in H. ropen H. eapply Han; eauto.
  - unfold do_io in H. ropen H. eapply Han; eauto.
  - unfold do_io in H. ropen H. eapply Han; eauto.
  - eauto.
  - unfold do_bin in H. ropen H. ropen Hy. apply get_node_ok in Hx, Hx0.
    destruct (const_value x), (const_value x0).
    1: { ropen Hy0. ropen Hy. eauto. }
    all: destruct (is_comp o);
      [eapply (Hmk (fst (add_type w mkBool))); [exact Hy0|exact Hk|apply Hnt|discriminate|apply Hat]
      |eapply Hmk; [exact Hy0|exact Hk|eapply Hty; eauto|discriminate|exact C]].
  - unfold do_un in H. ropen H. apply get_node_ok in Hx. destruct (const_value x).
    + ropen Hy. ropen Hy0. eauto.
    + eapply Hmk; [exact Hy|exact Hk|eapply Hty; eauto|discriminate|exact C].
  - unfold do_shift in H. ropen H. apply get_node_ok in Hx. destruct (const_value x).
    + ropen Hy. eauto.
    + eapply Hmk; [exact Hy|exact Hk|eapply Hty; eauto| |exact C]. intros v1; destruct left; discriminate.
  - unfold do_slice in H. ropen H. ropen Hy. destruct (_ <=? _)%Z; [discriminate|].
    eapply (Hmk (fst (add_type w _))); [exact Hy0|exact Hk|apply Hnt|discriminate|apply Hat].
  - unfold do_cat in H. ropen H. ropen Hy. ropen Hy0. ropen Hy.
    eapply (Hmk (fst (add_type w _))); [exact Hy0|exact Hk|apply Hnt|discriminate|apply Hat].
  - unfold do_cast in H. ropen H. ropen Hy. apply get_node_ok in Hx. apply get_type_ok in Hx0.
    destruct (Nat.eqb ty (n_ty x)); [injection Hy0 as <- <-; exact Hk|].
    eapply Hmk; [exact Hy0|exact Hk|eauto|discriminate|exact C].
  - unfold do_mux in H. destruct args; [discriminate|]. ropen H. apply get_node_ok in Hx.
    eapply Hmk; [exact Hy|exact Hk|eapply Hty; eauto|discriminate|exact C].
  - unfold do_offset in H. ropen H. apply get_node_ok in Hx. destruct (n_vk x); try discriminate.
    eapply Hmk; [exact Hy|exact Hk|eapply Hty; eauto|discriminate|exact C].
  - ropen H. injection Hy as <- <-. unfold do_connect in Hx. ropen Hx. apply add_chan_inv in Hy as [Hac _].
    apply add_chan_nodes_heads in Hac as (_ & _ & _ & -> & _). exact Hk.
Qed.

Lemma run_only_kernel k : forall h w w', run F w h = Ok w' -> WF w ->
  forallb (fun c => negb (is_knew c)) h = true -> (forall j, is_Some (w_kern w !! j) -> j = k) ->
  (forall j, is_Some (w_kern w' !! j) -> j = k).
Proof.
  induction h as [|c h IH]; intros w w' H W Hc Hk; cbn [run forallb] in H, Hc.
  - injection H as <-. exact Hk.
  - ropen H. destruct x as [w1 r]. apply andb_true_iff in Hc as [Hc1 Hc2]. apply negb_true_iff in Hc1.
    eapply IH; eauto; [eapply step_ext; eauto|]. eapply step_only_kernel; eauto.
Qed.

Theorem single_kernel_owns h w :
  run F init_world (KNew :: h) = Ok w -> forallb (fun c => negb (is_knew c)) h = true ->
  only_kernel w 0 /\ is_Some (w_kern w !! 0).
Proof.
  intros R Hc. pose proof (run_WF F _ _ _ R init_WF) as W.
  cbn [run] in R. ropen R. destruct x as [w1 r]. cbn [step] in Hx. injection Hx as <- <-.
  assert (Hk : forall j, is_Some (w_kern w !! j) -> j = 0).
  { eapply run_only_kernel; eauto.
    - eapply (step_ext F init_world KNew); [reflexivity|apply init_WF].
    - intros j. cbn. intros Hj. destruct (decide (j = 0)); [auto|]. rewrite lookup_insert_ne in Hj by auto.
      rewrite lookup_empty in Hj. destruct Hj as [? Hj]; discriminate. }
  split.
  - intros n nd Hn. destruct (cs_owned _ (proj1 W) _ _ Hn) as (g & Hg & _). apply Hk. eauto.
  - assert (T : forall h w w', run F w h = Ok w' -> w_top w = Some 0 -> WF w -> w_top w' = Some 0).
    { clear. induction h as [|c h IH]; intros w w' H T W; cbn [run] in H; [injection H as <-; exact T|].
      ropen H. destruct x as [w1 r]. eapply IH; eauto; [|eapply step_ext; eauto].
      pose proof (proj1 W) as C. pose proof (cs_type _ C) as Hty.
      assert (Hmk : forall w1 k1 o ty args w2, mk_op w1 k1 o ty args = Ok (w2, r) ->
        w_top w1 = Some 0 -> is_Some (w_types w1 !! ty) -> (forall v, o <> CONST v) -> consistent w1 -> w_top w2 = Some 0).
      { intros wa k1 o ty args wb Hm Hk1 Ht Ho C1. apply mk_op_spec in Hm; auto. rewrite (mp_top _ _ _ _ _ _ _ _ _ Hm). exact Hk1. }
      assert (Hcc : forall ty v w2, create_or_use_const w ty v = Ok (w2, r) -> w_top w2 = Some 0).
      { intros ty v w2 Hcr. unfold create_or_use_const in Hcr. ropen Hcr. ropen Hy0. ropen Hy1.
        destruct (List.find _ _); [injection Hy0 as <- <-; exact T|]. apply add_node_inv in Hy0 as (g & _ & _ & ->). exact T. }
      assert (Hat : forall t, consistent (fst (add_type w t))) by (intros t; apply (add_type_WF w t W)).
      assert (Hnt : forall t, is_Some (w_types (fst (add_type w t)) !! length (w_types w))).
      { intros t. cbn. rewrite lookup_app_r, Nat.sub_diag by lia. eauto. }
      assert (Hio : forall k o s name ty w2, do_io w k o s name ty = Ok (w2, r) -> w_top w2 = Some 0).
      { intros k o s name ty w2 Hi. unfold do_io in Hi. ropen Hi. apply add_node_inv in Hy0 as (g & _ & _ & ->). exact T. }
      clear Hy. destruct c; cbn [step] in Hx; eauto.
      - injection Hx as <- <-. cbn. rewrite T. destruct (w_stack w) eqn:Es; [|reflexivity].
        rewrite (cs_stack _ C Es) in T. discriminate.
      - injection Hx as <- <-. exact T.
      - unfold do_bin in Hx. ropen Hx. ropen Hy. apply get_node_ok in Hx0, Hx.
        destruct (const_value x), (const_value x0).
        1: { ropen Hy0. ropen Hy. eauto. }
        all: destruct (is_comp o);
          [eapply (Hmk (fst (add_type w mkBool))); [exact Hy0|exact T|apply Hnt|discriminate|apply Hat]
          |eapply Hmk; [exact Hy0|exact T|eapply Hty; eauto|discriminate|exact C]].
      - unfold do_un in Hx. ropen Hx. apply get_node_ok in Hx0. destruct (const_value x).
        + ropen Hy. ropen Hy0. eauto.
        + eapply Hmk; [exact Hy|exact T|eapply Hty; eauto|discriminate|exact C].
      - unfold do_shift in Hx. ropen Hx. apply get_node_ok in Hx0. destruct (const_value x).
        + ropen Hy. eauto.
        + eapply Hmk; [exact Hy|exact T|eapply Hty; eauto| |exact C]. intros v1; destruct left; discriminate.
      - unfold do_slice in Hx. ropen Hx. ropen Hy. destruct (_ <=? _)%Z; [discriminate|].
        eapply (Hmk (fst (add_type w _))); [exact Hy0|exact T|apply Hnt|discriminate|apply Hat].
      - unfold do_cat in Hx. ropen Hx. ropen Hy. ropen Hy0. ropen Hy.
        eapply (Hmk (fst (add_type w _))); [exact Hy0|exact T|apply Hnt|discriminate|apply Hat].
      - unfold do_cast in Hx. ropen Hx. ropen Hy. apply get_node_ok in Hx0. apply get_type_ok in Hx.
        destruct (Nat.eqb ty (n_ty x)); [injection Hy0 as <- <-; exact T|].
        eapply Hmk; [exact Hy0|exact T|eauto|discriminate|exact C].
      - unfold do_mux in Hx. destruct args; [discriminate|]. ropen Hx. apply get_node_ok in Hx0.
        eapply Hmk; [exact Hy|exact T|eapply Hty; eauto|discriminate|exact C].
      - unfold do_offset in Hx. ropen Hx. apply get_node_ok in Hx0. destruct (n_vk x); try discriminate.
        eapply Hmk; [exact Hy|exact T|eapply Hty; eauto|discriminate|exact C].
      - ropen Hx. injection Hy as <- <-. unfold do_connect in Hx0. ropen Hx0. apply add_chan_inv in Hy as [Hac _].
        apply add_chan_nodes_heads in Hac as (_ & _ & -> & _). exact T. }
    apply (cs_top _ (proj1 W)). eapply T; eauto. eapply (step_ext F init_world KNew); [reflexivity|apply init_WF].
Qed.

End B.
