(** * What code that constructs a kernel leaves alone (proofs). *)
From Coq Require Import ZArith Bool String Lia.
From stdpp Require Import gmap list.
From Verif Require Import Types Word Value OpSpec Graph GraphSpec TypesProofs BuilderProofs BuilderProofs2 BuilderTopo GraphFacts StreamSpec Dfcir DfcirBuild
     Verilog Stubs Naming Firrtl Lower RtlSpec KernelSpec KernelValues Instance InstanceSpec InstanceLoop InstanceMain InstanceStep InstanceFlow LifeProofs ProgTyping SliceFacts Prog.
Local Open Scope Z_scope.

(** variables that have no driver yet *)
Definition hole (w : world) (n : nat) : Prop := has_op w n NONE \/ has_op w n OUT /\ operands w n = [].

(** [w'] is [w] with more variables; of the old ones only those in [X] (which had no driver)
    may have got one; of the new ones only those in [X] are inputs or without driver *)
Record gr (X : list nat) (w w' : world) : Prop := {
  g_live : forall n nd, w_nodes w !! n = Some nd -> exists nd', w_nodes w' !! n = Some nd' /\ same_head nd nd';
  g_ops : forall n, is_Some (w_nodes w !! n) -> n ∉ X -> operands w' n = operands w n;
  g_old : forall n, n ∈ X -> is_Some (w_nodes w !! n) -> hole w n;
  g_types : forall t ty, w_types w !! t = Some ty -> w_types w' !! t = Some ty;
  g_new : forall n, w_nodes w !! n = None -> n ∉ X -> ~ has_op w' n IN /\ ~ hole w' n;
  g_unread : forall n, hole w n -> n ∉ X -> readers w n = [] -> readers w' n = []
}.

Section Gr.
Lemma same_head_refl nd : same_head nd nd.
Proof. repeat split. Qed.
Lemma same_head_trans a b c : same_head a b -> same_head b c -> same_head a c.
Proof. intros (A1 & A2 & A3 & A4 & A5) (B1 & B2 & B3 & B4 & B5). repeat split; congruence. Qed.
Lemma op_old X w w' n o : gr X w w' -> is_Some (w_nodes w !! n) -> (has_op w' n o <-> has_op w n o).
Proof.
  intros G (nd & H). destruct (g_live _ _ _ G n nd H) as (nd' & H' & E & _). split; intros (x & Hx & Ex).
  - rewrite H' in Hx. injection Hx as <-. exists nd. split; [exact H|congruence].
  - rewrite H in Hx. injection Hx as <-. exists nd'. split; [exact H'|congruence].
Qed.
Lemma hole_old X w w' n : gr X w w' -> is_Some (w_nodes w !! n) -> n ∉ X -> (hole w' n <-> hole w n).
Proof. intros G L N. unfold hole. rewrite !(op_old X w w' n _ G L), (g_ops _ _ _ G n L N). tauto. Qed.
Lemma hole_back X w w' n : gr X w w' -> is_Some (w_nodes w !! n) -> hole w' n -> hole w n.
Proof.
  intros G L H. destruct (decide (n ∈ X)) as [I|I]; [exact (g_old _ _ _ G n I L)|]. apply (hole_old X w w' n G L I), H.
Qed.
Lemma gr_refl w : gr [] w w.
Proof.
  constructor; auto.
  - intros n nd H. exists nd. split; [exact H|apply same_head_refl].
  - intros n H. inversion H.
  - intros n H _. split; [intros (x & Hx & _); congruence|]. intros [(x & Hx & _)|[(x & Hx & _) _]]; congruence.
Qed.
Lemma gr_live X w w' n : gr X w w' -> is_Some (w_nodes w !! n) -> is_Some (w_nodes w' !! n).
Proof. intros G (nd & H). destruct (g_live _ _ _ G n nd H) as (nd' & H' & _). eauto. Qed.
Lemma gr_trans X Y w1 w2 w3 : gr X w1 w2 -> gr Y w2 w3 -> gr (X ++ Y) w1 w3.
Proof.
  intros A B. constructor.
  - intros n nd H. destruct (g_live _ _ _ A n nd H) as (nd1 & H1 & S1). destruct (g_live _ _ _ B n nd1 H1) as (nd2 & H2 & S2). exists nd2. split; [exact H2|exact (same_head_trans _ _ _ S1 S2)].
  - intros n L N. rewrite not_elem_of_app in N. destruct N as [N1 N2]. rewrite (g_ops _ _ _ B n (gr_live _ _ _ _ A L) N2). apply (g_ops _ _ _ A n L N1).
  - intros n H L. destruct (decide (n ∈ X)) as [I|I]; [exact (g_old _ _ _ A n I L)|]. apply elem_of_app in H as [H|H]; [contradiction|].
    apply (hole_old X w1 w2 n A L I). apply (g_old _ _ _ B n H), (gr_live _ _ _ _ A L).
  - intros t ty H. apply (g_types _ _ _ B), (g_types _ _ _ A), H.
  - intros n H N. rewrite not_elem_of_app in N. destruct N as [N1 N2]. destruct (w_nodes w2 !! n) as [nd|] eqn:E2; [|exact (g_new _ _ _ B n E2 N2)].
    destruct (g_new _ _ _ A n H N1) as [Q1 Q2]. split.
    + rewrite (op_old Y w2 w3 n IN B); [exact Q1|eauto].
    + rewrite (hole_old Y w2 w3 n B); [exact Q2|eauto|exact N2].
  - intros n Hh N R. rewrite not_elem_of_app in N. destruct N as [N1 N2]. assert (L : is_Some (w_nodes w1 !! n)) by (destruct Hh as [(x & Hx & _)|[(x & Hx & _) _]]; eauto).
    apply (g_unread _ _ _ B n); [apply (hole_old X w1 w2 n A L N1), Hh|exact N2|]. exact (g_unread _ _ _ A n Hh N1 R).
Qed.
(** variables of [X] that did not exist before and are complete afterwards need not be mentioned *)
Lemma gr_weaken X Y w w' : gr X w w' -> (forall n, n ∈ X -> n ∈ Y) -> (forall n, n ∈ Y -> is_Some (w_nodes w !! n) -> hole w n) -> gr Y w w'.
Proof.
  intros G S O. constructor; try apply G.
  - intros n L N. apply (g_ops _ _ _ G n L). auto.
  - exact O.
  - intros n H N. apply (g_new _ _ _ G n H). auto.
  - intros n H N R. apply (g_unread _ _ _ G n H); auto.
Qed.
Lemma gr_close X Y w w' : gr X w w' -> (forall n, n ∈ Y -> n ∈ X) -> (forall n, n ∈ X -> n ∉ Y -> w_nodes w !! n = None /\ ~ has_op w' n IN /\ ~ hole w' n) -> gr Y w w'.
Proof.
  intros G S O. assert (K : forall n, is_Some (w_nodes w !! n) -> n ∉ Y -> n ∉ X) by (intros n (x & H) N I; destruct (O n I N) as [E _]; congruence).
  constructor; try apply G.
  - intros n L N. apply (g_ops _ _ _ G n L (K n L N)).
  - intros n I. apply (g_old _ _ _ G n (S n I)).
  - intros n H N. destruct (decide (n ∈ X)) as [I|I]; [apply (O n I N)|]. apply (g_new _ _ _ G n H I).
  - intros n H N R. apply (g_unread _ _ _ G n H); [|exact R]. apply K; [|exact N]. destruct H as [(x & Hx & _)|[(x & Hx & _) _]]; eauto.
Qed.

Lemma gr_type X w w' n t : gr X w w' -> type_of w n = Some t -> type_of w' n = Some t.
Proof.
  intros G. unfold type_of. destruct (w_nodes w !! n) as [nd|] eqn:E; [|discriminate]. destruct (g_live _ _ _ G n nd E) as (nd' & E' & _ & Et & _). rewrite E', <- Et. apply (g_types _ _ _ G).
Qed.
Lemma gr_owner X w w' n : gr X w w' -> is_Some (w_nodes w !! n) -> owner w' n = owner w n.
Proof. intros G (nd & E). destruct (g_live _ _ _ G n nd E) as (nd' & E' & _ & _ & _ & _ & Em). unfold owner. rewrite E, E'. auto. Qed.
Lemma gr_const X w w' n t c : gr X w w' -> const_of w n t c -> const_of w' n t c.
Proof.
  intros G (nd & E & Ev & Eo & Et). destruct (g_live _ _ _ G n nd E) as (nd' & E' & E1 & E2 & E3 & _). exists nd'. split; [exact E'|]. split; [congruence|]. split; [congruence|]. rewrite <- E2. apply (g_types _ _ _ G), Et.
Qed.
(** values stay *)
Lemma gr_kval {V} (I : interp V) X w w' n i x : gr X w w' -> kval I w n i x -> kval I w' n i x.
Proof.
  intro G. assert (OP : forall m o, has_op w m o -> ~ hole w m -> operands w' m = operands w m).
  { intros m o (nd & H & _) NH. apply (g_ops _ _ _ G m); [eauto|]. intro Ix. apply NH, (g_old _ _ _ G m Ix). eauto. }
  revert n i x. apply (kval_ind' w I (fun n i x => kval I w' n i x)).
  - intros n nd i H Ho Hv Hi. destruct (g_live _ _ _ G n nd H) as (nd' & H' & E1 & E2 & E3 & E4 & E5). rewrite E4. apply kv_stream; congruence || auto.
  - intros n nd i H Ho Hv. destruct (g_live _ _ _ G n nd H) as (nd' & H' & E1 & E2 & E3 & E4 & E5). rewrite E4. apply kv_scalar; congruence || auto.
  - intros n nd t c i H Ho Ht. destruct (g_live _ _ _ G n nd H) as (nd' & H' & E1 & _). eapply kv_const; [exact H'|congruence|exact (gr_type _ _ _ _ _ G Ht)].
  - intros n nd k a i x H Ho Ha IH. destruct (g_live _ _ _ G n nd H) as (nd' & H' & E1 & _).
    assert (NH : ~ hole w n) by (intros [(y & Hy & Ey)|[(y & Hy & Ey) _]]; congruence).
    eapply kv_offset; [exact H'|rewrite <- E1; exact Ho|rewrite (OP n _ (ex_intro _ nd (conj H eq_refl)) NH); exact Ha|exact IH].
  - intros n nd a i x H Ho Ha IH. destruct (g_live _ _ _ G n nd H) as (nd' & H' & E1 & _).
    assert (NH : ~ hole w n) by (intros [(y & Hy & Ey)|[(y & Hy & Ey) Z]]; congruence).
    eapply kv_out; [exact H'|rewrite <- E1; exact Ho|rewrite (OP n _ (ex_intro _ nd (conj H eq_refl)) NH); exact Ha|exact IH].
  - intros n nd c arms a i xc x H Ho Ha Hi IHc La IHa Ka Arms. destruct (g_live _ _ _ G n nd H) as (nd' & H' & E1 & _).
    assert (NH : ~ hole w n) by (intros [(y & Hy & Ey)|[(y & Hy & Ey) _]]; congruence).
    eapply kv_mux; [exact H'|rewrite <- E1; exact Ho|rewrite (OP n _ (ex_intro _ nd (conj H eq_refl)) NH); exact Ha|exact Hi|exact IHc|exact La|exact IHa|exact Arms].
  - intros n nd t i xs x H Ho Ht Hi F2 E. destruct (g_live _ _ _ G n nd H) as (nd' & H' & E1 & _).
    assert (NH : ~ hole w n) by (intros [(y & Hy & Ey)|[(y & Hy & Ey) _]]; rewrite H in Hy; injection Hy as <-; rewrite Ey in Ho; exact Ho).
    eapply kv_op; [exact H'|rewrite <- E1; exact Ho|exact (gr_type _ _ _ _ _ G Ht)|exact Hi|rewrite (OP n _ (ex_intro _ nd (conj H eq_refl)) NH); exact F2|rewrite <- E1; exact E].
Qed.
End Gr.

(** ** One call *)
Lemma gr_types_only w w' : w_nodes w' = w_nodes w -> w_chans w' = w_chans w -> (forall t ty, w_types w !! t = Some ty -> w_types w' !! t = Some ty) -> gr [] w w'.
Proof.
  intros E1 E2 E3. assert (EO : forall n, operands w' n = operands w n) by (intro n; unfold operands, in_chans; rewrite E1, E2; reflexivity).
  assert (ER : forall n, readers w' n = readers w n) by (intro n; unfold readers, out_chans; rewrite E1, E2; reflexivity).
  constructor; auto.
  - intros n nd H. rewrite E1. exists nd. split; [exact H|apply same_head_refl].
  - intros n H. inversion H.
  - intros n H _. split; [intros (x & Hx & _); congruence|]. intros [(x & Hx & _)|[(x & Hx & _) _]]; congruence.
  - intros n H _ R. rewrite ER. exact R.
Qed.
Lemma gr_node X w w' r k o t vk nm args : WF w -> WF w' -> preserved w w' r -> new_node w w' r k o t vk nm args -> (forall a, a ∈ args -> ~ hole w a) ->
  (o = IN \/ o = OUT \/ o = NONE -> r ∈ X) -> (forall n, n ∈ X -> n = r) -> gr X w w'.
Proof.
  intros W W' (P1 & P2 & P3 & P4) NN NA HX XR. pose proof NN as (Fr & (nd & Hr & Er & _) & Hin & Hl).
  assert (Old : forall n, is_Some (w_nodes w !! n) -> operands w' n = operands w n) by (intros n (y & H); unfold operands; rewrite P2; [reflexivity|eauto|congruence]).
  constructor; auto.
  - intros n I (y & H). rewrite (XR n I) in H. congruence.
  - intros n H N. destruct (decide (n = r)) as [->|Nr].
    + split; [intros (y & Hy & Ey)|intros [(y & Hy & Ey)|[(y & Hy & Ey) _]]]; rewrite Hr in Hy; injection Hy as <-; apply N, HX; rewrite <- Er; auto.
    + assert (Q : w_nodes w' !! n = None) by (destruct (w_nodes w' !! n) eqn:E; [destruct (P4 n ltac:(eauto) Nr) as (y & Hy); congruence|reflexivity]).
      split; [intros (y & Hy & Ey)|intros [(y & Hy & Ey)|[(y & Hy & Ey) _]]]; congruence.
  - intros n H N R. assert (Z : forall m, m ∈ readers w' n -> False).
    { intros m Hm. apply (readers_operands w' n m (proj1 W')) in Hm. destruct (decide (m = r)) as [->|Nm].
      - unfold operands in Hm. rewrite Hin, imap_src in Hm. exact (NA n Hm H).
      - destruct (operands_live w' m n (proj1 W') Hm) as [_ L]. rewrite (Old m (P4 m L Nm)) in Hm. apply (readers_operands w n m (proj1 W)) in Hm. rewrite R in Hm. inversion Hm. }
    destruct (readers w' n) as [|m l] eqn:E; [reflexivity|]. exfalso. apply (Z m). constructor.
Qed.
Lemma gr_constr w w' r t v : WF w -> WF w' -> preserved w w' r -> const_result w w' r t v -> gr [] w w'.
Proof.
  intros W W' (P1 & P2 & P3 & P4) (CO & [->|(Fr & Hin & _)]); [apply gr_refl|]. destruct CO as (nd & Hr & Ev & Er & _).
  assert (Old : forall n, is_Some (w_nodes w !! n) -> operands w' n = operands w n) by (intros n (y & H); unfold operands; rewrite P2; [reflexivity|eauto|congruence]).
  constructor; auto.
  - intros n I. inversion I.
  - intros n H N. destruct (decide (n = r)) as [->|Nr].
    + split; [intros (y & Hy & Ey)|intros [(y & Hy & Ey)|[(y & Hy & Ey) _]]]; rewrite Hr in Hy; injection Hy as <-; congruence.
    + assert (Q : w_nodes w' !! n = None) by (destruct (w_nodes w' !! n) eqn:E; [destruct (P4 n ltac:(eauto) Nr) as (y & Hy); congruence|reflexivity]).
      split; [intros (y & Hy & Ey)|intros [(y & Hy & Ey)|[(y & Hy & Ey) _]]]; congruence.
  - intros n H N R. assert (Z : forall m, m ∈ readers w' n -> False).
    { intros m Hm. apply (readers_operands w' n m (proj1 W')) in Hm. destruct (decide (m = r)) as [->|Nm].
      - unfold operands in Hm. rewrite Hin in Hm. inversion Hm.
      - destruct (operands_live w' m n (proj1 W') Hm) as [_ L]. rewrite (Old m (P4 m L Nm)) in Hm. apply (readers_operands w n m (proj1 W)) in Hm. rewrite R in Hm. inversion Hm. }
    destruct (readers w' n) as [|m l] eqn:E; [reflexivity|]. exfalso. apply (Z m). constructor.
Qed.
Lemma gr_conn F w w' a b : WF w -> step F w (CConnect a b) = Ok (w', a) -> hole w a -> ~ hole w b -> gr [a] w w'.
Proof.
  intros W S HA HB. destruct (step_ext F _ _ _ _ S W) as [[W' (P1 & P2 & P3 & P4)] (_ & La & Lb & Hin & LL)].
  constructor; auto.
  - intros n L N. unfold operands. rewrite P2; [reflexivity|exact L|]. intros ->. apply N. constructor.
  - intros n I _. apply elem_of_list_singleton in I as ->. exact HA.
  - intros n H N. assert (Q : w_nodes w' !! n = None) by (destruct (w_nodes w' !! n) eqn:E; [destruct (proj1 (LL n) ltac:(eauto)) as (y & Hy); congruence|reflexivity]).
    split; [intros (y & Hy & Ey)|intros [(y & Hy & Ey)|[(y & Hy & Ey) _]]]; congruence.
  - intros n H N R. assert (Z : forall m, m ∈ readers w' n -> False).
    { intros m Hm. apply (readers_operands w' n m (proj1 W')) in Hm. destruct (operands_live w' m n (proj1 W') Hm) as [_ L]. destruct (decide (m = a)) as [->|Nm].
      - unfold operands in Hm. rewrite Hin, map_app in Hm. apply elem_of_app in Hm as [Hm|Hm].
        + apply (readers_operands w n a (proj1 W)) in Hm. rewrite R in Hm. inversion Hm.
        + apply elem_of_list_singleton in Hm. cbn in Hm. subst n. contradiction.
      - assert (E : operands w' m = operands w m) by (unfold operands; rewrite P2; [reflexivity|apply LL, L|exact Nm]). rewrite E in Hm.
        apply (readers_operands w n m (proj1 W)) in Hm. rewrite R in Hm. inversion Hm. }
    destruct (readers w' n) as [|m l] eqn:E; [reflexivity|]. exfalso. apply (Z m). constructor.
Qed.
Lemma step_names F w c w' r : step F w c = Ok (w', r) -> WF w -> match c with CInput _ _ _ _ | COutput _ _ _ _ => False | _ => True end -> forall j, names w' j = names w j.
Proof.
  intros H W NC j.
  assert (KO : forall ty v w' n, create_or_use_const w ty v = Ok (w', n) -> names w' j = names w j).
  { intros ty v w1 n X. unfold create_or_use_const in X. openall X. destruct (List.find _ _); [injection X as <- _; reflexivity|].
    rewrite (names_add_node _ _ _ _ _ _ _ _ X), decide_False by tauto. reflexivity. }
  assert (MO : forall k o ty args w' n, mk_op w k o ty args = Ok (w', n) -> names w' j = names w j) by (intros; eapply names_mk_op; eassumption).
  assert (MT : forall t k o ty args w' n, mk_op (fst (add_type w t)) k o ty args = Ok (w', n) -> names w' j = names w j) by (intros t k o ty args w1 n X; rewrite (names_mk_op _ _ _ _ _ _ _ X); reflexivity).
  destruct c; cbn [step] in H; try contradiction NC.
  - injection H as <- _. unfold names. cbn. destruct (decide (j = w_next w)) as [->|Nk]; [|rewrite lookup_insert_ne by auto; reflexivity].
    rewrite lookup_insert. destruct (w_kern w !! w_next w) as [g|] eqn:E; [|reflexivity]. pose proof (cs_fresh_k _ (proj1 W) (w_next w) ltac:(eauto)). lia.
  - injection H as <- _. reflexivity.
  - unfold do_io in H. openall H. rewrite (names_add_node _ _ _ _ _ _ _ _ H), decide_False by tauto. reflexivity.
  - eapply KO. eassumption.
  - unfold do_bin in H. apply rbind_ok in H as (na & Ha & H). apply rbind_ok in H as (nb & Hb & H).
    assert (MK : forall k, (if is_comp o then let (w1, tb) := add_type w mkBool in mk_op w1 k (BIN o) tb [a; b] else mk_op w k (BIN o) (n_ty na) [a; b]) = Ok (w', r) -> names w' j = names w j).
    { intros k X. destruct (is_comp o); [exact (MT mkBool _ _ _ _ _ _ X)|eapply MO; eassumption]. }
    destruct (const_value na) as [va|]; [destruct (const_value nb) as [vb|]|]; [|exact (MK _ H)..].
    openall H. eapply KO; eassumption.
  - unfold do_un in H. openall H. destruct (const_value _); [openall H; eapply KO; eassumption|eapply MO; eassumption].
  - unfold do_shift in H. openall H. destruct (const_value _); [openall H; eapply KO; eassumption|eapply MO; eassumption].
  - unfold do_slice in H. openall H. destruct (_ <=? _)%Z; [discriminate|]. eapply MT. exact H.
  - unfold do_cat in H. openall H. eapply MT. exact H.
  - unfold do_cast in H. openall H. destruct (Nat.eqb _ _); [injection H as <- _; reflexivity|]. eapply MO; eassumption.
  - unfold do_mux in H. destruct args; [discriminate|]. openall H. eapply MO; eassumption.
  - unfold do_offset in H. openall H. destruct (n_vk _); try discriminate. eapply MO; eassumption.
  - openall H. injection H as <- _. unfold do_connect in *. match goal with X : rbind _ _ = _ |- _ => openall X; unfold names; rewrite (add_chan_kern _ _ _ _ _ _ _ X); reflexivity end.
Qed.

(** ** Tidy kernels: the flow supports every operation *)
(** a stream variable that stays one when its kernel becomes part of another: the only port
    that the library binds to a constant is [left] of Galois8Mul *)
Definition ctl (w : world) (n : nat) : Prop :=
  exists nd, w_nodes w !! n = Some nd /\ n_vk nd = VStream /\ (n_op nd = IN -> n_name nd <> "left"%string).
Definition tidy (w : world) : Prop :=
  forall n nd, w_nodes w !! n = Some nd ->
    (exists t, type_of w n = Some t /\ proper t /\
       forall ts lat, Forall2 (fun a ta => type_of w a = Some ta) (operands w n) ts -> op_fits (n_op nd) t ts lat) /\
    ((length (operands w n) <= 128)%nat \/ forall a, a ∈ tl (operands w n) -> is_constant_node w a) /\
    (forall k, n_op nd <> OFFSET k) /\ (n_op nd = OUT -> readers w n = []) /\
    match n_op nd with UN _ => False | MUX => forall c arms, operands w n = c :: arms -> ctl w c | _ => True end.

(** ** States *)
Section States.
Variable F : fltops.
(** a state reached by proper calls; [T]: no sub-kernels *)
Record st (T : bool) (h : list icmd) (w : world) : Prop := {
  s_run : irun F init_world h = Ok w;
  s_disc : idisciplined F init_world h;
  s_types : made_types h;
  s_calls : T = true -> bindings_typed F init_world h
}.
Lemma irun_snoc : forall h w0 w c w' rs, irun F w0 h = Ok w -> istep F w c = Ok (w', rs) -> irun F w0 (h ++ [c]) = Ok w'.
Proof.
  induction h as [|c0 h IH]; intros w0 w c w' rs R S; cbn [irun app] in *; [injection R as ->; cbn; rewrite S; reflexivity|].
  ropen R. destruct x as [w1 r1]. rewrite Hx. cbn [rbind]. exact (IH _ _ _ _ _ Hy S).
Qed.
Lemma disc_snoc : forall h w0 w c, irun F w0 h = Ok w -> idisciplined F w0 h -> iok w c -> idisciplined F w0 (h ++ [c]).
Proof.
  induction h as [|c0 h IH]; intros w0 w c R D I; cbn [irun idisciplined app] in *.
  - injection R as ->. split; [exact I|]. destruct (istep F w c) as [[? ?]| | |]; exact Logic.I.
  - ropen R. destruct x as [w1 r1]. rewrite Hx in D |- *. destruct D as [D1 D2]. split; [exact D1|]. exact (IH _ _ _ Hy D2 I).
Qed.
Lemma typed_snoc : forall h w0 w c, irun F w0 h = Ok w -> bindings_typed F w0 h -> (match c with IInst _ k bs => types_match w k bs | _ => True end) -> bindings_typed F w0 (h ++ [c]).
Proof.
  induction h as [|c0 h IH]; intros w0 w c R D I; cbn [irun bindings_typed app] in *.
  - injection R as ->. split; [exact I|]. destruct (istep F w c) as [[? ?]| | |]; exact Logic.I.
  - ropen R. destruct x as [w1 r1]. rewrite Hx in D |- *. destruct D as [D1 D2]. split; [exact D1|]. exact (IH _ _ _ Hy D2 I).
Qed.
Lemma st_sound T h w : st T h w -> sound w /\ forward w.
Proof. intros [R D _ _]. exact (irun_forward F h _ _ R D init_sound init_forward). Qed.
Lemma st_WF T h w : st T h w -> WF w.
Proof. intro S. apply (st_sound T h w S). Qed.
Lemma st_stacked T h w : st T h w -> stacked w.
Proof. intros [R D _ _]. destruct (elab_stack F h w) as [A _]; [split; [exact R|apply disciplined_instances, D]|exact A]. Qed.
Lemma st_call T h w c w' r : st T h w -> step F w c = Ok (w', r) -> ok_call w c -> (forall t, c = CType t -> wf_type t) -> st T (h ++ [ICall c]) w'.
Proof.
  intros [R D M B] S O W. assert (E : istep F w (ICall c) = Ok (w', [r])) by (cbn; rewrite S; reflexivity). constructor.
  - exact (irun_snoc _ _ _ _ _ _ R E).
  - exact (disc_snoc _ _ _ (ICall c) R D O).
  - intros t Ht. apply elem_of_app in Ht as [Ht|Ht]; [exact (M t Ht)|]. apply elem_of_list_singleton in Ht. injection Ht as Ht. exact (W t (eq_sym Ht)).
  - intro ET. apply (typed_snoc _ _ _ (ICall c) R (B ET)). exact I.
Qed.

(** ** Weakest preconditions *)
Definition wp {A} (T : bool) (h : list icmd) (w : world) (p : prog A) (Q : world -> A -> Prop) : Prop :=
  exists w' a tr, exec F w p = Ok (w', a, tr) /\ st T (h ++ tr) w' /\ Q w' a.
Lemma wp_ret {A} T h w (a : A) (Q : world -> A -> Prop) : st T h w -> Q w a -> wp T h w (Ret a) Q.
Proof. intros S H. exists w, a, []. rewrite app_nil_r. auto. Qed.
Lemma exec_bind {A B} (p : prog A) (f : A -> prog B) : forall w w1 a tr, exec F w p = Ok (w1, a, tr) ->
  exec F w (pbind p f) = match exec F w1 (f a) with Ok (w2, b, tr2) => Ok (w2, b, tr ++ tr2) | Throw => Throw | Assert => Assert | UB => UB end.
Proof.
  induction p as [a0|c g IH|]; intros w w1 a tr E; cbn [exec pbind] in *; [| |discriminate E].
  - injection E as <- <- <-. destruct (exec F w (f a0)) as [[[? ?] ?]| | |]; reflexivity.
  - destruct (istep F w c) as [[w2 rs]| | |]; cbn [rbind] in *; try discriminate E.
    destruct (exec F w2 (g rs)) as [[[w3 a3] tr3]| | |] eqn:E3; try discriminate E. injection E as -> -> <-.
    rewrite (IH rs w2 w1 a tr3 E3). destruct (exec F w1 (f a)) as [[[? ?] ?]| | |]; reflexivity.
Qed.
Lemma wp_bind {A B} T h w (p : prog A) (f : A -> prog B) (Q : world -> B -> Prop) :
  wp T h w p (fun w' a => forall h', st T h' w' -> wp T h' w' (f a) Q) -> wp T h w (pbind p f) Q.
Proof.
  intros (w1 & a & tr & E & S & H). destruct (H _ S) as (w2 & b & tr2 & E2 & S2 & H2). exists w2, b, (tr ++ tr2).
  split; [rewrite (exec_bind p f w w1 a tr E), E2; reflexivity|]. split; [rewrite app_assoc; exact S2|exact H2].
Qed.
Lemma wp_conseq {A} T h w (p : prog A) (Q Q' : world -> A -> Prop) : wp T h w p Q -> (forall w' a, Q w' a -> Q' w' a) -> wp T h w p Q'.
Proof. intros (w1 & a & tr & E & S & H) C. exists w1, a, tr. auto. Qed.
Lemma wp_call T h w c w' r (Q : world -> nat -> Prop) : st T h w -> step F w c = Ok (w', r) -> ok_call w c -> (forall t, c = CType t -> wf_type t) -> Q w' r -> wp T h w (call c) Q.
Proof.
  intros S E O W H. exists w', r, [ICall c]. split; [cbn; rewrite E; reflexivity|]. split; [exact (st_call T h w c w' r S E O W)|exact H].
Qed.
Lemma wp_state {A} T h w (p : prog A) Q : wp T h w p Q -> exists h' w' a, st T h' w' /\ Q w' a.
Proof. intros (w1 & a & tr & E & S & H). eauto. Qed.
End States.
