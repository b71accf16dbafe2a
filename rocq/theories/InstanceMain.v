(** * Sub-kernel instances: the whole call (proofs). *)
From Coq Require Import ZArith Bool String Lia.
From stdpp Require Import gmap list.
From Verif Require Import Types Word Value Graph GraphSpec BuilderProofs BuilderProofs2 BuilderTopo StreamSpec DfcirBuild KernelValues Instance InstanceSpec InstanceProofs InstanceBind InstanceLoop.

Definition mine (p : nat) (l : list nat) (m : nat) (nd : node) : node := if decide (m ∈ l) then set_meta nd p else nd.
Lemma foldr_meta p : forall l (M : gmap nat node) m,
  foldr (fun n M => alter (fun nd => set_meta nd p) n M) M l !! m = mine p l m <$> M !! m.
Proof.
  induction l as [|a l IH]; intros M m; cbn [foldr].
  - destruct (M !! m); reflexivity.
  - destruct (decide (m = a)) as [->|N].
    + rewrite lookup_alter, IH. destruct (M !! a) as [x|]; [|reflexivity]. cbn. f_equal. unfold mine. rewrite (decide_True (P := a ∈ a :: l)) by constructor. destruct (decide _); reflexivity.
    + rewrite lookup_alter_ne, IH by auto. destruct (M !! m) as [x|]; [|reflexivity]. cbn. f_equal. unfold mine. destruct (decide (m ∈ l)) as [H|H].
      * rewrite decide_True by (right; exact H). reflexivity.
      * rewrite decide_False; [reflexivity|]. intro X. apply elem_of_cons in X as [X|X]; auto.
Qed.

Section Transfer.
Variables (w : world) (p k : nat).
Hypothesis (W : WF w) (Npk : p <> k) (Kp : is_Some (w_kern w !! p)) (Kk : is_Some (w_kern w !! k)) (T : w_top w <> Some k)
  (St : tail (w_stack w) <> []) (NI : forall n, has_op w n IN -> owner w n <> k) (N : named w).

Lemma transfer_ok : exists w', transfer w p k = Ok w' /\ WF (leave w' k) /\ named (leave w' k) /\
  (forall m, w_nodes (leave w' k) !! m = (fun nd => if decide (n_meta nd = k) then set_meta nd p else nd) <$> w_nodes w !! m) /\
  (forall m, in_chans (leave w' k) m = in_chans w m) /\
  w_types (leave w' k) = w_types w /\ w_top (leave w' k) = w_top w /\ w_stack (leave w' k) = tail (w_stack w) /\ w_next (leave w' k) = w_next w /\
  w_kern (leave w' k) !! k = None /\ (forall k', k' <> k -> names (leave w' k) k' = names w k' /\ (is_Some (w_kern (leave w' k) !! k') <-> is_Some (w_kern w !! k'))).
Proof.
  destruct W as [C Sh]. destruct Kp as [gp Hp]. destruct Kk as [gk Hk].
  unfold transfer. rewrite Hp, Hk. cbn [of_opt rbind]. eexists. split; [reflexivity|].
  set (consts := List.filter _ (g_starts gk)).
  assert (NC : forall n nd, w_nodes w !! n = Some nd -> n_meta nd = k -> ~ (exists v, n_op nd = CONST v)).
  { intros n nd Hn Em Hv. apply (cs_const _ C n nd Hn) in Hv. pose proof (cs_const_top _ C n nd Hn Hv) as X. rewrite Em in X. exact (T X). }
  assert (Ec : consts = []).
  { unfold consts. destruct (List.filter _ (g_starts gk)) as [|a l] eqn:E; [reflexivity|]. exfalso.
    assert (X : In a (a :: l)) by (left; reflexivity). rewrite <- E in X. apply List.filter_In in X as [X Y]. apply elem_of_list_In in X. apply (cs_starts _ C k gk a Hk) in X as [X _].
    destruct (cs_member _ C k gk a Hk X) as (nd & Hn & Em). rewrite Hn in Y. apply (NC a nd Hn Em). destruct (n_op nd); try discriminate. eauto. }
  rewrite Ec. cbn [app]. set (g' := mkGraph (g_nodes gk ++ g_nodes gp) (g_starts gp) (g_names gp)).
  match goal with |- context [leave ?x k] => set (w' := leave x k) end.
  assert (IN : forall m nd, w_nodes w !! m = Some nd -> (m ∈ g_nodes gk <-> n_meta nd = k)).
  { intros m nd Hm. split.
    - intro X. destruct (cs_member _ C k gk m Hk X) as (y & Hy & Em). congruence.
    - intro X. destruct (cs_owned _ C m nd Hm) as (g & Hg & H). rewrite X, Hk in Hg. injection Hg as <-. exact H. }
  assert (NN : forall m, w_nodes w' !! m = (fun nd => if decide (n_meta nd = k) then set_meta nd p else nd) <$> w_nodes w !! m).
  { intro m. cbn [w' leave set_top set_stack w_nodes set_kern set_nodes]. rewrite foldr_meta. destruct (w_nodes w !! m) as [nd|] eqn:Hm; [|reflexivity]. cbn. f_equal. unfold mine.
    destruct (decide (m ∈ g_nodes gk)) as [H|H]; destruct (decide (n_meta nd = k)) as [H'|H']; [reflexivity| | |reflexivity]; exfalso.
    - apply H', (IN m nd Hm), H.
    - apply H, (IN m nd Hm), H'. }
  assert (CH : w_chans w' = w_chans w) by reflexivity.
  assert (KK : w_kern w' = delete k (<[p := g']> (w_kern w))) by reflexivity.
  assert (TT : w_types w' = w_types w) by reflexivity.
  assert (TP : w_top w' = w_top w).
  { unfold w', leave, set_top, set_stack, set_kern, set_nodes. cbn [w_top w_stack]. destruct (tail (w_stack w)) as [|a l] eqn:E; [exfalso; exact (St eq_refl)|]. destruct (w_top w) as [t|]; [|reflexivity].
    destruct (Nat.eqb_spec t k) as [->|]; [exfalso; exact (T eq_refl)|reflexivity]. }
  assert (SK : w_stack w' = tail (w_stack w)) by reflexivity.
  assert (NX : w_next w' = w_next w) by reflexivity.
  set (f := fun nd => if decide (n_meta nd = k) then set_meta nd p else nd). 
  assert (FH : forall nd, n_op (f nd) = n_op nd /\ n_ty (f nd) = n_ty nd /\ n_vk (f nd) = n_vk nd /\ n_name (f nd) = n_name nd /\ n_ins (f nd) = n_ins nd /\ n_outs (f nd) = n_outs nd).
  { intro nd. unfold f. destruct (decide _); repeat split. }
  assert (FM : forall nd, n_meta (f nd) = if decide (n_meta nd = k) then p else n_meta nd) by (intro nd; unfold f; destruct (decide _); reflexivity).
  assert (FB : forall m x, w_nodes w' !! m = Some x -> exists nd, w_nodes w !! m = Some nd /\ x = f nd).
  { intros m x H. rewrite NN in H. destruct (w_nodes w !! m) as [nd|]; [|discriminate]. injection H as <-. eauto. }
  assert (FW : forall m nd, w_nodes w !! m = Some nd -> w_nodes w' !! m = Some (f nd)) by (intros m nd H; rewrite NN, H; reflexivity).
  assert (KL : forall j g, w_kern w' !! j = Some g -> j <> k /\ (j = p /\ g = g' \/ j <> p /\ w_kern w !! j = Some g)).
  { intros j g H. rewrite KK in H. apply lookup_delete_Some in H as [Nj H]. split; [auto|]. destruct (decide (j = p)) as [->|Np]; [rewrite lookup_insert in H; left; split; congruence|rewrite lookup_insert_ne in H by auto; auto]. }
  assert (ICH : forall m, in_chans w' m = in_chans w m).
  { intro m. unfold in_chans. rewrite CH, NN. destruct (w_nodes w !! m) as [nd|]; [|reflexivity]. cbn. destruct (FH nd) as (_ & _ & _ & _ & E & _). unfold f in E. rewrite E. reflexivity. }
  assert (C' : consistent w').
  { destruct C as [c1 c2 c3 c4 c5 c6 c7 c8 c9 c10 c11 c12 c13 c14 c15 c16 c17 c18 c19]. constructor.
    - intros c ch H. rewrite CH in H. destruct (c1 c ch H) as (nd & Hn & X). exists (f nd). split; [apply FW, Hn|]. destruct (FH nd) as (_ & _ & _ & _ & _ & ->). exact X.
    - intros c ch H. rewrite CH in H. destruct (c2 c ch H) as (nd & Hn & X). exists (f nd). split; [apply FW, Hn|]. destruct (FH nd) as (_ & _ & _ & _ & -> & _). exact X.
    - intros n x c H X. rewrite CH. apply FB in H as (nd & Hn & ->). destruct (FH nd) as (_ & _ & _ & _ & _ & E). rewrite E in X. eauto.
    - intros n x c H X. rewrite CH. apply FB in H as (nd & Hn & ->). destruct (FH nd) as (_ & _ & _ & _ & E & _). rewrite E in X. eauto.
    - intros n x H. apply FB in H as (nd & Hn & ->). destruct (FH nd) as (_ & _ & _ & _ & -> & _). eauto.
    - intros n x H. apply FB in H as (nd & Hn & ->). destruct (FH nd) as (_ & _ & _ & _ & _ & ->). eauto.
    - intros j g n H X. apply KL in H as [Nj [[-> ->]|[Np H]]].
      + cbn in X. apply elem_of_app in X as [X|X].
        * destruct (c7 k gk n Hk X) as (nd & Hn & Em). exists (f nd). split; [apply FW, Hn|]. rewrite FM, decide_True by exact Em. reflexivity.
        * destruct (c7 p gp n Hp X) as (nd & Hn & Em). exists (f nd). split; [apply FW, Hn|]. rewrite FM, decide_False by congruence. exact Em.
      + destruct (c7 j g n H X) as (nd & Hn & Em). exists (f nd). split; [apply FW, Hn|]. rewrite FM, decide_False by congruence. exact Em.
    - intros n x H. apply FB in H as (nd & Hn & ->). destruct (c8 n nd Hn) as (g & Hg & X). rewrite FM, KK. destruct (decide (n_meta nd = k)) as [E|E].
      + exists g'. rewrite lookup_delete_ne, lookup_insert by auto. split; [reflexivity|]. cbn. apply elem_of_app. left. rewrite E, Hk in Hg. congruence.
      + destruct (decide (n_meta nd = p)) as [E'|E'].
        * exists g'. rewrite lookup_delete_ne, E', lookup_insert by auto. split; [reflexivity|]. cbn. apply elem_of_app. right. rewrite E', Hp in Hg. congruence.
        * exists g. rewrite lookup_delete_ne, lookup_insert_ne by auto. auto.
    - intros j g H. apply KL in H as [Nj [[-> ->]|[Np H]]]; [|eauto]. cbn. apply NoDup_app. split; [eauto|]. split; [|eauto].
      intros n X Y. destruct (c7 k gk n Hk X) as (nd & Hn & Em). destruct (c7 p gp n Hp Y) as (nd' & Hn' & Em'). congruence.
    - intros j g n H. apply KL in H as [Nj [[-> ->]|[Np H]]].
      + cbn. rewrite (c10 p gp n Hp). split.
        * intros (X & nd & Hn & D). split; [apply elem_of_app; auto|]. exists (f nd). split; [apply FW, Hn|]. destruct (FH nd) as (-> & _). exact D.
        * intros (X & x & Hx & D). apply FB in Hx as (nd & Hn & ->). destruct (FH nd) as (E & _). rewrite E in D. apply elem_of_app in X as [X|X].
          -- exfalso. apply (IN n nd Hn) in X. destruct D as [D|D]; [|exact (NC n nd Hn X D)]. apply (NI n); [exists nd; auto|]. unfold owner. rewrite Hn. exact X.
          -- split; [exact X|]. eauto.
      + rewrite (c10 j g n H). split.
        * intros (X & nd & Hn & D). split; [exact X|]. exists (f nd). split; [apply FW, Hn|]. destruct (FH nd) as (-> & _). exact D.
        * intros (X & x & Hx & D). apply FB in Hx as (nd & Hn & ->). destruct (FH nd) as (E & _). rewrite E in D. eauto.
    - intros j g H. apply KL in H as [Nj [[-> ->]|[Np H]]]; cbn; eauto.
    - intros n x H. apply FB in H as (nd & Hn & ->). rewrite TT. destruct (FH nd) as (_ & -> & _). eauto.
    - intros n x H. apply FB in H as (nd & Hn & ->). destruct (FH nd) as (-> & _ & -> & _). eauto.
    - intros n x H X. apply FB in H as (nd & Hn & ->). destruct (FH nd) as (_ & _ & E & _). rewrite E in X. rewrite TP, FM, decide_False; [eauto|]. intro Em. apply (NC n nd Hn Em). apply (c13 n nd Hn), X.
    - intros n (x & H). apply FB in H as (nd & Hn & ->). rewrite NX. eauto.
    - intros c H. rewrite CH in H. rewrite NX. eauto.
    - intros j (g & H). apply KL in H as [Nj [[-> ->]|[Np H]]]; rewrite NX; eauto.
    - intros j H. rewrite TP in H. destruct (c18 j H) as (g & Hg). rewrite KK, lookup_delete_ne by congruence. destruct (decide (j = p)) as [->|]; [rewrite lookup_insert; eauto|rewrite lookup_insert_ne by auto; eauto].
    - rewrite SK. intro X. destruct (St X). }
  split; [split; [exact C'|]|].
  { intros n x H. apply FB in H as (nd & Hn & ->). destruct (FH nd) as (-> & _). rewrite ICH. exact (Sh n nd Hn). }
  assert (NM : forall k', k' <> k -> names w' k' = names w k').
  { intros k' Nk. unfold names. rewrite KK, lookup_delete_ne by auto. destruct (decide (k' = p)) as [->|]; [rewrite lookup_insert, Hp; reflexivity|rewrite lookup_insert_ne by auto; reflexivity]. }
  split.
  { intros k' s n H. destruct (decide (k' = k)) as [->|Nk]; [unfold names in H; rewrite KK, lookup_delete in H; inversion H|].
    rewrite NM in H by exact Nk. destruct (N k' s n H) as (nd & Hn & En & Em & Eo). exists (f nd). split; [apply FW, Hn|]. destruct (FH nd) as (-> & _ & _ & -> & _). rewrite FM, decide_False by congruence. auto. }
  split; [exact NN|]. split; [exact ICH|]. split; [exact TT|]. split; [exact TP|]. split; [exact SK|]. split; [exact NX|].
  split; [rewrite KK; apply lookup_delete|]. intros k' Nk. split; [apply NM, Nk|].
  rewrite KK, lookup_delete_ne by auto. rewrite lookup_insert_is_Some'. split; [intros [<-|X]; eauto|auto].
Qed.
End Transfer.

Lemma lval_rules {V} (I : interp V) L w : rules I L w (lval I L w).
Proof.
  constructor.
  - intros a b i x HL H R HR. exact (ru_link _ _ _ _ HR _ _ _ _ HL (H R HR)).
  - intros n nd i H1 H2 H3 H4 H5 R HR. exact (ru_stream _ _ _ _ HR n nd i H1 H2 H3 H4 H5).
  - intros n nd i H1 H2 H3 H4 R HR. exact (ru_scalar _ _ _ _ HR n nd i H1 H2 H3 H4).
  - intros n nd t c i H1 H2 H3 R HR. exact (ru_const _ _ _ _ HR n nd t c i H1 H2 H3).
  - intros n nd q a i x H1 H2 H3 H4 R HR. exact (ru_offset _ _ _ _ HR n nd q a i x H1 H2 H3 (H4 R HR)).
  - intros n nd a i x H1 H2 H3 H4 R HR. exact (ru_out _ _ _ _ HR n nd a i x H1 H2 H3 (H4 R HR)).
  - intros n nd c arms a i xc x H1 H2 H3 H4 H5 H6 H7 H8 R HR. apply (ru_mux _ _ _ _ HR n nd c arms a i xc x H1 H2 H3 H4 (H5 R HR) H6 (H7 R HR)).
    intros b Hb. destruct (H8 b Hb) as (y & Hy). exists y. exact (Hy R HR).
  - intros n nd t i xs x H1 H2 H3 H4 H5 H6 R HR. apply (ru_op _ _ _ _ HR n nd t i xs x H1 H2 H3 H4); [|exact H6].
    clear -H5 HR. induction H5 as [|a y l ys Hy _ IH]; constructor; [exact (Hy R HR)|exact IH].
Qed.

(** values in a set of nodes closed under operands carry over to the linked semantics *)
Lemma kval_lval {V} (I I' : interp V) L w (G : nat -> Prop) :
  i_op I' = i_op I -> i_idx I' = i_idx I -> i_const I' = i_const I ->
  (forall n nd a, G n -> w_nodes w !! n = Some nd -> (forall c, n_op nd <> CONST c) -> a ∈ operands w n -> G a) ->
  (forall n nd i, G n -> w_nodes w !! n = Some nd -> n_op nd = IN -> n_vk nd = VStream -> (0 <= i)%Z -> lval I L w n i (i_stream I' (n_name nd) i)) ->
  (forall n nd i, G n -> w_nodes w !! n = Some nd -> n_op nd = IN -> n_vk nd <> VStream -> lval I L w n i (i_scalar I' (n_name nd))) ->
  forall n i x, kval I' w n i x -> G n -> lval I L w n i x.
Proof.
  intros E1 E2 E3 HC HS HL. pose proof (lval_rules I L w) as HR. apply (kval_ind' w I' (fun n i x => G n -> lval I L w n i x)).
  - intros n nd i H Ho Hv Hi Gn. eauto.
  - intros n nd i H Ho Hv Gn. eauto.
  - intros n nd t c i H Ho Ht Gn. rewrite E3. exact (ru_const _ _ _ _ HR n nd t c i H Ho Ht).
  - intros n nd q a i x H Ho Ha IH Gn. apply (ru_offset _ _ _ _ HR n nd q a i x H Ho Ha). apply IH, (HC n nd a Gn H); [congruence|]. rewrite Ha. constructor.
  - intros n nd a i x H Ho Ha IH Gn. apply (ru_out _ _ _ _ HR n nd a i x H Ho Ha). apply IH, (HC n nd a Gn H); [congruence|]. rewrite Ha. constructor.
  - intros n nd c arms a i xc x H Ho Ha Hi IHc La IHa Ka Arms Gn.
    assert (GA : forall b, b ∈ c :: arms -> G b) by (intros b Hb; apply (HC n nd b Gn H); [congruence|]; rewrite Ha; exact Hb). rewrite E2 in La.
    apply (ru_mux _ _ _ _ HR n nd c arms a i xc x H Ho Ha Hi); [apply IHc, GA; constructor|exact La|apply IHa, GA; right; eapply elem_of_list_lookup_2; exact La|].
    intros b Hb. destruct (Arms b Hb) as (y & Y). exists y. apply Y, GA. right. exact Hb.
  - intros n nd t i xs x H Ho Ht Hi F2 E Gn. rewrite E1 in E. apply (ru_op _ _ _ _ HR n nd t i xs x H Ho Ht Hi); [|exact E].
    assert (GA : forall b, b ∈ operands w n -> G b) by (intros b Hb; apply (HC n nd b Gn H); [intros c Ec; rewrite Ec in Ho; exact Ho|exact Hb]). clear -F2 GA.
    induction F2 as [|a y l ys Hy F2 IH]; constructor; [apply Hy, GA; constructor|apply IH; intros b Hb; apply GA; right; exact Hb].
Qed.

Section Main.
Variables (w : world) (p k : nat) (bs : list (nat * string)).
Hypothesis (W : WF w) (N : named w) (Lo : local w) (IO : instance_ok w p k bs).

Let BO : bindings_ok w p k bs := io_bindings _ _ _ _ IO.
Lemma const_owner n : is_const w n -> owner w n <> k.
Proof. intros (nd & Hn & Hv) E. pose proof (cs_const_top _ (proj1 W) n nd Hn Hv) as T. unfold owner in E. rewrite Hn in E. rewrite E in T. exact (io_top _ _ _ _ IO T). Qed.
Lemma port_unique s n n' : port w k s n -> port w k s n' -> n = n'.
Proof. unfold port. congruence. Qed.
Lemma each v s n : (v, s) ∈ bs -> port w k s n -> binding_ok w p k v s n.
Proof. intros H P. destruct (bo_each _ _ _ _ BO v s H) as (n' & B). assert (n = n') as -> by (destruct B as [B|B]; eapply port_unique; eauto; apply B). exact B. Qed.
Lemma port_owner s n : port w k s n -> owner w n = k.
Proof. intro P. destruct (named_port _ _ _ _ N P) as (nd & Hn & _ & E & _). unfold owner. rewrite Hn. exact E. Qed.
Lemma binding_owner v s : (v, s) ∈ bs -> owner w v = p.
Proof. intros H. destruct (bo_each _ _ _ _ BO v s H) as (n' & [(_ & _ & _ & _ & E)|(_ & _ & _ & _ & E & _)]); exact E. Qed.
Lemma main_drivers : drivers_free w k bs.
Proof.
  intros v s n v' s' n' d H H' P Ho On P' Ho' ->. assert (Hd : v' ∈ operands w n) by (rewrite On; constructor).
  destruct (Lo n v' Hd) as [(nd & Hn & Hv)|E].
  - pose proof (each v' s' n' H' P') as [(_ & X & _)|(_ & _ & _ & _ & _ & X & _)]; [pose proof (has_op_det _ _ _ _ X Ho'); discriminate|].
    apply (cs_const _ (proj1 W) v' nd Hn) in Hv as (c & Ec). destruct X as [X|X]; pose proof (has_op_det _ _ _ _ X (ex_intro _ nd (conj Hn Ec))); discriminate.
  - rewrite (binding_owner v' s' H'), (port_owner s n P) in E. exact (bo_diff _ _ _ _ BO E).
Qed.
Lemma link_owner a b : link w k bs a b -> owner w a = k /\ owner w b = p \/ owner w a = p /\ owner w b = k.
Proof.
  intros (v & s & n & H & P & [(X & -> & ->)|(X & -> & ->)]); [left|right]; rewrite (binding_owner v s H), (port_owner s n P); auto.
Qed.
Lemma link_not_in a b : link w k bs a b -> has_op w a IN -> owner w a = k.
Proof.
  intros (v & s & n & H & P & [(X & -> & ->)|(X & -> & ->)]) Ho; [exact (port_owner s n P)|]. exfalso.
  destruct (each v s n H P) as [(_ & Y & _)|(_ & _ & _ & _ & _ & [Y|Y] & _)]; [pose proof (has_op_det _ _ _ _ X Y)|pose proof (has_op_det _ _ _ _ Ho Y)|pose proof (has_op_det _ _ _ _ Ho Y)]; discriminate.
Qed.
(** where a name in the merged graph may point: the two kernels, or a constant *)
Lemma leads_owner m m' : leads w (link w k bs) m m' -> is_const w m \/ owner w m = p \/ owner w m = k -> is_const w m' \/ owner w m' = p \/ owner w m' = k.
Proof.
  induction 1 as [|a b c HL _ IH|a b c Ho Ob _ IH]; intro X; [exact X| |].
  - apply IH. destruct (link_owner a b HL) as [[_ ->]|[_ ->]]; auto.
  - apply IH. assert (Hb : b ∈ operands w a) by (rewrite Ob; constructor). destruct (Lo a b Hb) as [Y|Y]; [auto|]. rewrite Y. destruct X as [(nd & Hn & Hv)|X]; [|auto].
    apply (cs_const _ (proj1 W) a nd Hn) in Hv as (c' & Ec). pose proof (has_op_det _ _ _ _ Ho (ex_intro _ nd (conj Hn Ec))). discriminate.
Qed.
Lemma removed_what m : removed w k bs m -> (owner w m = p \/ owner w m = k) /\ (has_op w m IN \/ has_op w m OUT \/ has_op w m NONE).
Proof.
  intros (v & s & n & H & P & [->|(-> & X & Y)]).
  - split; [right; exact (port_owner s n P)|]. destruct (each v s n H P) as [(_ & Y & _)|(_ & Y & _)]; auto.
  - split; [left; exact (binding_owner v s H)|auto].
Qed.
Lemma const_kept m : is_const w m -> ~ removed w k bs m.
Proof.
  intros (nd & Hn & Hv) R. apply (cs_const _ (proj1 W) m nd Hn) in Hv as (c & Ec). destruct (removed_what m R) as [_ [X|[X|X]]]; pose proof (has_op_det _ _ _ _ X (ex_intro _ nd (conj Hn Ec))); discriminate.
Qed.

(** the result of the call *)
Record instanced (w' : world) (rs : list nat) (σ : nat -> nat) : Prop := {
  in_run : do_instance w p k bs = Ok (w', rs);
  in_WF : WF w'; in_named : named w'; in_local : local w';
  in_types : w_types w' = w_types w; in_top : w_top w' = w_top w; in_stack : w_stack w' = tail (w_stack w); in_next : w_next w' = w_next w;
  in_kern : forall k', is_Some (w_kern w' !! k') <-> is_Some (w_kern w !! k') /\ k' <> k;
  in_names : forall k', k' <> k -> names w' k' = names w k';
  in_back : forall m x, w_nodes w' !! m = Some x -> exists y, w_nodes w !! m = Some y /\ ~ removed w k bs m /\
     n_op x = n_op y /\ n_ty x = n_ty y /\ n_vk x = n_vk y /\ n_name x = n_name y /\ n_meta x = (if decide (n_meta y = k) then p else n_meta y);
  in_keep : forall m y, w_nodes w !! m = Some y -> ~ removed w k bs m -> exists x, w_nodes w' !! m = Some x /\
     n_op x = n_op y /\ n_ty x = n_ty y /\ n_vk x = n_vk y /\ n_name x = n_name y /\ n_meta x = (if decide (n_meta y = k) then p else n_meta y);
  in_id : forall m, ~ removed w k bs m -> σ m = m;
  in_leads : forall m, leads w (link w k bs) m (σ m);
  in_live : forall m, is_Some (w_nodes w !! m) -> is_Some (w_nodes w' !! σ m);
  in_op : forall m, ~ removed w k bs m -> ~ (exists b, link w k bs m b /\ has_op w m OUT) -> operands w' m = map σ (operands w m);
  in_out : forall m b d, link w k bs m b -> has_op w m OUT -> operands w b = [d] -> operands w' m = [σ d];
  in_shp : forall m, ~ removed w k bs m -> shp w' m = shp w m \/ has_op w m OUT /\ shp w' m = [(0, true)];
  in_type : types_match w k bs -> forall m, is_Some (w_nodes w !! m) -> ~ (exists v s, (v, s) ∈ bs /\ port w k s m /\ has_op w m OUT) -> kind_at w' (σ m) = kind_at w m;
  in_ret : length rs = length bs /\ (ordered w k bs -> forall j v s, bs !! j = Some (v, s) -> rs !! j = Some (σ v));
  in_lval : forall V (I : interp V) m i x, lval I (link w k bs) w m i x -> kval I w' (σ m) i x
}.

Lemma instance_runs : exists w' rs σ, instanced w' rs σ.
Proof.
  destruct (bind_all_ok p k bs w W N BO main_drivers) as (w1 & rs & σ & [B1 B2 B3 B4 B5 B6 B7 B8 B9 B10 B11 B12 Bsh Bty B13]).
  destruct B4 as (K1 & K2 & K3 & K4 & K5 & K6).
  assert (HO : forall m o, has_op w1 m o -> has_op w m o) by (intros m o (x & Hx & E); destruct (K1 m x Hx) as (y & Hy & (E1 & _) & _); exists y; split; [exact Hy|congruence]).
  assert (NI : forall n, has_op w1 n IN -> owner w1 n <> k).
  { intros n (x & Hx & Ex) E. destruct (K1 n x Hx) as (y & Hy & (E1 & _ & _ & _ & E5) & G). apply G. unfold owner in E. rewrite Hx in E.
    destruct (io_inputs _ _ _ _ IO n) as (v & s & H & P); [exists y; split; [exact Hy|congruence]|unfold owner; rewrite Hy; congruence|]. exists v, s, n. auto. }
  destruct (io_stack _ _ _ _ IO) as (st & Est & Nst).
  destruct (transfer_ok w1 p k B2 (bo_diff _ _ _ _ BO)) as (w2 & T1 & T2 & T3 & T4 & T5 & T6 & T7 & T8 & T9 & T10 & T11); auto.
  { apply B6, (io_parent _ _ _ _ IO). } { apply B6, (io_child _ _ _ _ IO). } { rewrite K4. apply (io_top _ _ _ _ IO). } { rewrite K5, Est. exact Nst. }
  set (w' := leave w2 k) in *.
  assert (OPS : forall m, operands w' m = operands w1 m) by (intro m; unfold operands; rewrite T5; reflexivity).
  assert (BK : forall m x, w_nodes w' !! m = Some x -> exists y, w_nodes w !! m = Some y /\ ~ removed w k bs m /\
     n_op x = n_op y /\ n_ty x = n_ty y /\ n_vk x = n_vk y /\ n_name x = n_name y /\ n_meta x = (if decide (n_meta y = k) then p else n_meta y)).
  { intros m x H. rewrite T4 in H. destruct (w_nodes w1 !! m) as [z|] eqn:Hz; [|discriminate]. destruct (K1 m z Hz) as (y & Hy & (E1 & E2 & E3 & E4 & E5) & G). exists y. injection H as <-.
    rewrite <- E5. split; [exact Hy|]. split; [exact G|]. rewrite E1, E2, E3, E4, E5. destruct (decide _); repeat split; congruence. }
  assert (FW : forall m y, w_nodes w !! m = Some y -> ~ removed w k bs m -> exists x, w_nodes w' !! m = Some x /\
     n_op x = n_op y /\ n_ty x = n_ty y /\ n_vk x = n_vk y /\ n_name x = n_name y /\ n_meta x = (if decide (n_meta y = k) then p else n_meta y)).
  { intros m y H G. destruct (K2 m y H G) as (z & Hz & (E1 & E2 & E3 & E4 & E5)). rewrite T4, Hz. cbn. eexists. split; [reflexivity|]. rewrite E1, E2, E3, E4, E5. destruct (decide _); repeat split; congruence. }
  assert (LV : forall m, is_Some (w_nodes w !! m) -> is_Some (w_nodes w' !! σ m)).
  { intros m H. destruct (B9 m H) as (z & Hz). rewrite T4, Hz. cbn. eauto. }
  assert (OW : forall m, is_Some (w_nodes w' !! m) -> owner w' m = if decide (owner w m = k) then p else owner w m).
  { intros m (x & Hx). destruct (BK m x Hx) as (y & Hy & _ & _ & _ & _ & _ & E). unfold owner. rewrite Hx, Hy. exact E. }
  assert (CO : forall m, is_Some (w_nodes w' !! m) -> is_const w m -> is_const w' m).
  { intros m (x & Hx) (y & Hy & E). destruct (BK m x Hx) as (y' & Hy' & _ & _ & _ & E3 & _). exists x. split; [exact Hx|]. congruence. }
  assert (LC : local w').
  { intros m a Ha. destruct (operands_live w' m a (proj1 T2) Ha) as [La Lm]. pose proof Lm as (xm & Hxm). destruct (BK m xm Hxm) as (ym & Hym & Gm & Eo & _).
    assert (Q : forall b c, owner w b = owner w m \/ ((owner w b = p \/ owner w b = k) /\ (owner w m = p \/ owner w m = k)) -> c ∈ operands w b -> a = σ c -> is_const w' a \/ owner w' a = owner w' m).
    { intros b c Hb Hc ->. destruct (operands_live w b c (proj1 W) Hc) as [Lc _]. destruct (Lo b c Hc) as [X|X].
      - left. apply CO; [exact La|]. rewrite (B7 c (const_kept c X)). exact X.
      - destruct (decide (owner w m = p \/ owner w m = k)) as [D|D].
        + assert (Y : is_const w c \/ owner w c = p \/ owner w c = k) by (right; rewrite X; destruct Hb as [->|[Y _]]; assumption).
          destruct (leads_owner c (σ c) (B8 c) Y) as [Z|Z]; [left; apply CO; assumption|]. right. rewrite (OW _ La), (OW _ Lm).
          assert (PK : forall z, z = p \/ z = k -> (if decide (z = k) then p else z) = p) by (intros z [->| ->]; destruct (decide _); congruence). rewrite (PK _ Z), (PK _ D). reflexivity.
        + destruct Hb as [Hb|[_ Y]]; [|contradiction]. assert (Gc : ~ removed w k bs c) by (intro R; apply D; destruct (removed_what c R) as [Y _]; rewrite <- Hb, <- X; exact Y).
          rewrite (B7 c Gc) in *. right. rewrite (OW _ La), (OW _ Lm), X, Hb. reflexivity. }
    rewrite OPS in Ha.
    assert (DEC : (exists b, link w k bs m b /\ has_op w m OUT) \/ ~ (exists b, link w k bs m b /\ has_op w m OUT)).
    { destruct (decide (m ∈ map fst bs)) as [E|E].
      - apply elem_of_list_fmap in E as ((v & s) & Ev & H). cbn in Ev. subst v. destruct (bo_each _ _ _ _ BO m s H) as (n & B0). assert (P : port w k s n) by (destruct B0 as [B0|B0]; apply B0). destruct (each m s n H P) as [(_ & X & _)|(_ & X & _ & _ & _ & [Y|Y] & _)].
        + right. intros (b & (v' & s' & n' & H' & P' & [(X' & E1 & _)|(X' & E1 & _)]) & Ho); [subst m; pose proof (has_op_det _ _ _ _ X' Ho); discriminate|]. subst v'.
          destruct (elem_of_list_lookup_1 _ _ H') as [j Hj]. destruct (elem_of_list_lookup_1 _ _ H) as [i Hi]. destruct (decide (i = j)) as [->|Nij].
          * rewrite Hi in Hj. injection Hj as ->. assert (n = n') by (eapply port_unique; eauto). subst n'. pose proof (has_op_det _ _ _ _ X X'). discriminate.
          * refine (bo_targets _ _ _ _ BO j i m s' m s Hj Hi (not_eq_sym Nij) _ eq_refl). eauto.
        + right. intros (b & _ & Ho). pose proof (has_op_det _ _ _ _ Ho Y). discriminate.
        + left. exists n. split; [|exact Y]. exists m, s, n. split; [exact H|]. split; [exact P|]. right. auto.
      - right. intros (b & (v' & s' & n' & H' & P' & [(X' & E1 & _)|(X' & E1 & _)]) & Ho); [subst m; pose proof (has_op_det _ _ _ _ X' Ho); discriminate|].
        apply E. apply elem_of_list_fmap. exists (v', s'). auto. }
    destruct DEC as [(b & Lb & Hb)|NT].
    - assert (exists d, operands w b = [d]) as (d & Od).
      { destruct Lb as (v & s & n & H & P & [(X & -> & ->)|(X & -> & ->)]); [pose proof (has_op_det _ _ _ _ X Hb); discriminate|].
        destruct (each v s n H P) as [(_ & Y & _)|(_ & _ & Y & _)]; [pose proof (has_op_det _ _ _ _ X Y); discriminate|exact Y]. }
      rewrite (B12 m b d Lb Hb Od) in Ha. apply elem_of_list_singleton in Ha. apply (Q b d); [|rewrite Od; constructor|exact Ha].
      destruct (link_owner m b Lb) as [[-> ->]|[-> ->]]; auto.
    - rewrite (B11 m Gm NT) in Ha. apply elem_of_list_fmap in Ha as (c & -> & Hc). apply (Q m c); auto. }
  exists w', rs, σ. constructor; auto; try congruence.
  - unfold do_instance. rewrite B1. cbn. rewrite T1. reflexivity.
  - intro k'. destruct (decide (k' = k)) as [->|Nk].
    + rewrite T10. split; [intros [? ?]; discriminate|intros [_ X]; contradiction].
    + rewrite (proj2 (T11 k' Nk)), B6. tauto.
  - intros k' Nk. rewrite (proj1 (T11 k' Nk)). apply B5, Nk.
  - intros m G NT. rewrite OPS. apply B11; assumption.
  - intros m b d H1 H2 H3. rewrite OPS. eapply B12; eauto.
  - intros m G. unfold shp at 1. rewrite T5. fold (shp w1 m). destruct (Bsh m G) as [X|[X Y]]; [left; exact X|]. right. split; [exact X|]. unfold shp. rewrite T5. exact Y.
  - intros TM m Lm NO. rewrite <- (Bty TM m Lm NO). unfold kind_at, type_of. rewrite T6, T4. destruct (w_nodes w1 !! σ m) as [z|]; [|reflexivity]. cbn. destruct (decide _); reflexivity.
  - intros V I m i x H. apply (H (fun m i x => kval I w' (σ m) i x)).
    apply (B10 V I (kval I w')).
    assert (ty : forall n t, type_of w1 n = Some t -> type_of w' n = Some t).
    { intros n t. unfold type_of. rewrite T6, T4. destruct (w_nodes w1 !! n) as [z|]; [|discriminate]. cbn. destruct (decide _); auto. }
    assert (nd' : forall n nd, w_nodes w1 !! n = Some nd -> exists x, w_nodes w' !! n = Some x /\ n_op x = n_op nd /\ n_vk x = n_vk nd /\ n_name x = n_name nd).
    { intros n nd Hn. rewrite T4, Hn. cbn. eexists. split; [reflexivity|]. destruct (decide _); repeat split. }
    constructor.
    + intros a b j y X. destruct X.
    + intros n nd j Hn Ho Hv _ Hj. destruct (nd' n nd Hn) as (y & Hy & E1 & E2 & <-). apply kv_stream; congruence || assumption.
    + intros n nd j Hn Ho Hv _. destruct (nd' n nd Hn) as (y & Hy & E1 & E2 & <-). apply kv_scalar; congruence || assumption.
    + intros n nd t c j Hn Ho Ht. destruct (nd' n nd Hn) as (y & Hy & E1 & E2 & E3). eapply kv_const; [exact Hy|congruence|apply ty; exact Ht].
    + intros n nd q a j y Hn Ho Oa Ra. destruct (nd' n nd Hn) as (z & Hz & E1 & E2 & E3). eapply kv_offset; [exact Hz|rewrite E1; exact Ho|rewrite OPS; exact Oa|exact Ra].
    + intros n nd a j y Hn Ho Oa Ra. destruct (nd' n nd Hn) as (z & Hz & E1 & E2 & E3). eapply kv_out; [exact Hz|rewrite E1; exact Ho|rewrite OPS; exact Oa|exact Ra].
    + intros n nd c arms a j xc y Hn Ho Oa Hj Rc La Ra Rb. destruct (nd' n nd Hn) as (z & Hz & E1 & E2 & E3). eapply kv_mux; [exact Hz|rewrite E1; exact Ho|rewrite OPS; exact Oa|exact Hj|exact Rc|exact La|exact Ra|exact Rb].
    + intros n nd t j xs y Hn Ho Ht Hj F2 E. destruct (nd' n nd Hn) as (z & Hz & E1 & E2 & E3). eapply kv_op; [exact Hz|rewrite E1; exact Ho|apply ty; exact Ht|exact Hj|rewrite OPS; exact F2|rewrite E1; exact E].
Qed.

(** values of the other kernels, and of the sub-kernel *)
Lemma outer_lval {V} (I : interp V) m i x : owner w m <> k -> kval I w m i x -> lval I (link w k bs) w m i x.
Proof.
  intros Om K. revert K Om. apply (kval_lval I I (link w k bs) w (fun m => owner w m <> k)); auto.
  - intros n nd a On _ _ Ha. destruct (Lo n a Ha) as [X| ->]; [exact (const_owner a X)|exact On].
  - intros n nd j On Hn Ho Hv Hj. apply (ru_stream _ _ _ _ (lval_rules I (link w k bs) w) n nd j Hn Ho Hv); [|exact Hj]. intros b Lb. apply On. apply (link_not_in n b Lb). exists nd. auto.
  - intros n nd j On Hn Ho Hv. apply (ru_scalar _ _ _ _ (lval_rules I (link w k bs) w) n nd j Hn Ho Hv). intros b Lb. apply On. apply (link_not_in n b Lb). exists nd. auto.
Qed.
Lemma inner_lval {V} (I I' : interp V) m i x : feeds w k bs I I' -> owner w m = k \/ is_const w m -> kval I' w m i x -> lval I (link w k bs) w m i x.
Proof.
  intros (E1 & E2 & E3 & Fd) Om K. revert K Om. apply (kval_lval I I' (link w k bs) w (fun m => owner w m = k \/ is_const w m)); auto.
  - intros n nd a On Hn Nc Ha. destruct (Lo n a Ha) as [X|X]; [auto|]. rewrite X. destruct On as [On|(nd' & Hn' & Hv)]; [auto|].
    exfalso. rewrite Hn in Hn'. injection Hn' as <-. apply (cs_const _ (proj1 W) n nd Hn) in Hv as (c & Ec). exact (Nc c Ec).
  - intros n nd j On Hn Ho Hv Hj. destruct On as [On|(nd' & Hn' & Hv')]; [|exfalso; apply (cs_const _ (proj1 W) n nd' Hn') in Hv' as (c & Ec); congruence].
    destruct (io_inputs _ _ _ _ IO n) as (v & s & H & P); [exists nd; auto|exact On|]. destruct (named_port _ _ _ _ N P) as (y & Hy & <- & _). rewrite Hn in Hy. injection Hy as <-.
    apply (ru_link _ _ _ _ (lval_rules I (link w k bs) w) n v); [exists v, (n_name nd), n; split; [exact H|]; split; [exact P|]; left; split; [exists nd; auto|auto]|].
    apply outer_lval; [rewrite (binding_owner v _ H); exact (bo_diff _ _ _ _ BO)|]. apply (Fd v (n_name nd) n nd H P Hn Ho); assumption.
  - intros n nd j On Hn Ho Hv. destruct On as [On|(nd' & Hn' & Hv')]; [|exfalso; apply (cs_const _ (proj1 W) n nd' Hn') in Hv' as (c & Ec); congruence].
    destruct (io_inputs _ _ _ _ IO n) as (v & s & H & P); [exists nd; auto|exact On|]. destruct (named_port _ _ _ _ N P) as (y & Hy & <- & _). rewrite Hn in Hy. injection Hy as <-.
    apply (ru_link _ _ _ _ (lval_rules I (link w k bs) w) n v); [exists v, (n_name nd), n; split; [exact H|]; split; [exact P|]; left; split; [exists nd; auto|auto]|].
    apply outer_lval; [rewrite (binding_owner v _ H); exact (bo_diff _ _ _ _ BO)|]. apply (Fd v (n_name nd) n nd H P Hn Ho); assumption.
Qed.
End Main.
