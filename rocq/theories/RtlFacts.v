(** The three schedulers and the generated circuit (proofs), and a checker for [realizable]. *)
From Coq Require Import ZArith Bool String Lia.
From stdpp Require Import gmap list.
From Verif Require Import Instance InstanceSpec Types Word Value OpSpec Graph GraphSpec TypingSpec TypesProofs BuilderProofs2 BuilderTopo GraphFacts KernelSort TopSort Dfcir StreamSpec HwSpec HwProofs Verilog Stubs Naming StubsSpec
     Firrtl Lower Sched SchedFinal DfcirProofs SchedFacts Linear Pipeline PipelineSpec PipelineMain DfcirBuild KernelSpec KernelFlow ProgTyping LibraryFacts RtlSpec FirrtlProofs RtlProofs RtlFlow RtlRun.
Local Open Scope Z_scope.

Section Kernel.
Variables (F : fltops) (h : list icmd) (w : world) (order : list nat).
Hypothesis R : irun F init_world h = Ok w.
Hypothesis D : idisciplined F init_world h.
Context {kern : nat}.
Hypothesis K1 : only_kernel w kern.
Hypothesis C : complete w kern.
Hypothesis S : sorts w kern order.
Variable P : program.
Hypothesis EP : build w order = Ok P.
Hypothesis GT : good_types F h.

Lemma cfg_fits {rd} cfg lat : realizable_as rd w lat -> (forall b t, is_bitwise b = false -> pos_latency (config_latency cfg (DBin b) t) = pos_latency (lat (BIN b) t)) ->
  (forall t, pos_latency (config_latency cfg DCast t) = pos_latency (lat CAST t)) -> fits rd (apply_config cfg P).
Proof.
  intros RZ EL EC. assert (T := kernel_ptyped F h w order R D K1 C S P EP GT).
  assert (INV : forall r o k t l a, Def r o k t l a ∈ apply_config cfg P -> is_scheduled o = true -> l = config_latency cfg o t).
  { intros r o k t l a H Sc. unfold apply_config in H. apply elem_of_list_fmap in H as (st & E & H). destruct st; [|discriminate]. injection E as -> -> -> -> -> ->. rewrite Sc. reflexivity. }
  eapply (kernel_fits F h w order R D K1 C S P EP GT lat RZ).
  - apply cfg_ptyped, T.
  - intros v t. split; intros (o & k & l & a & H).
    + apply cfg_def_inv in H as (l' & H). exists o, k, l', a. exact H.
    + apply (cfg_def cfg) in H as (l' & H). exists o, k, l', a. exact H.
  - apply cfg_dests.
  - intros d s. apply cfg_con_inv.
  - intros r o k t l a. apply cfg_def_inv.
  - intros r b k t l a H BW. rewrite (INV _ _ _ _ _ _ H); [apply EL, BW|cbn; rewrite BW; reflexivity].
  - intros r k t l a H. rewrite (INV _ _ _ _ _ _ H eq_refl). apply EC.
Qed.
Lemma plain_fits {rd} : realizable_as rd w no_latency -> fits rd P.
Proof.
  intro RZ. assert (T := kernel_ptyped F h w order R D K1 C S P EP GT).
  assert (LM : forall r o k t l a, Def r o k t l a ∈ P -> l = -1).
  { destruct (flow_facts F h w order R D K1 C S) as (W & DR & ND & LV & TO & NP).
    destruct (build_spec w order W DR ND LV TO NP) as (P' & E' & ED & WP & CB & DD & DC). rewrite EP in E'. injection E' as <-.
    intros r o k t l a H. apply DD in H. apply H. }
  eapply (kernel_fits F h w order R D K1 C S P EP GT no_latency RZ); eauto; try reflexivity.
  - intros r b k t l a H _. rewrite (LM _ _ _ _ _ _ H). reflexivity.
  - intros r k t l a H. rewrite (LM _ _ _ _ _ _ H). reflexivity.
Qed.

(** everything about a scheduled program that the theorems need *)
Record goes (rd : reading) (Q : program) : Prop := {
  go_fits : fits rd Q;
  go_offs : no_offs Q;
  go_ins : forall r sc nm k t l a, Def r (DIn sc nm) k t l a ∈ Q -> exists l0 a0, Def r (DIn sc nm) k t l0 a0 ∈ P;
  go_dests : dests Q = dests P;
  go_outs : forall d t, has_ty P d t -> d ∈ dests P -> has_ty Q d t
}.
Lemma inserts_dests bs : forall P1 f P2, ptyped P1 -> (forall v, v ∈ defs P1 -> (v < f)%nat) -> insert_buffers P1 bs f = Some P2 -> dests P2 = dests P1.
Proof.
  induction bs as [|[c l] bs IH]; intros P1 f P2 T L E; cbn in E; [injection E as <-; reflexivity|].
  destruct (insert_buffer P1 c l f) as [P'|] eqn:E1; [|discriminate]. destruct (insert_ptyped _ _ _ _ _ T L E1) as (T' & L' & _).
  destruct (insert_shape _ _ _ _ _ T L E1) as (_ & DS & _). rewrite (IH _ _ _ T' L' E). exact DS.
Qed.
Lemma erases_dests P1 : ptyped P1 -> dests (erase_offsets P1) = dests P1.
Proof.
  unfold erase_offsets. generalize (offset_ids P1). intro ids. revert P1. induction ids as [|v ids IH]; intros P1 T; cbn; [reflexivity|].
  rewrite IH by (apply erase_ptyped; exact T). apply (erase_shape P1 v T).
Qed.
Lemma dest_type Q d t : ptyped P -> ptyped Q -> (forall r o k t l a, Def r o k t l a ∈ Q -> (exists l0 a0, Def r o k t l0 a0 ∈ P) \/ o = DLatency) ->
  d ∈ dests Q -> has_ty P d t -> has_ty Q d t.
Proof.
  intros T TQ OR Hd Ht. apply dests_elem in Hd as (s & Hd). destruct (pt_con _ TQ _ _ Hd) as [(sc & nm & k & t' & l & a & X) _].
  destruct (OR _ _ _ _ _ _ X) as [(l0 & a0 & Y)|Y]; [|discriminate].
  assert (Y' : has_ty P d t') by (exists (DOut sc nm), k, l0, a0; exact Y). rewrite (has_ty_fun _ _ _ _ (pt_defs _ T) Ht Y'). exists (DOut sc nm), k, l, a. exact X.
Qed.
Lemma buffered_goes {rd} cfg lat bs P2 : realizable_as rd w lat -> (forall b t, is_bitwise b = false -> pos_latency (config_latency cfg (DBin b) t) = pos_latency (lat (BIN b) t)) ->
  (forall t, pos_latency (config_latency cfg DCast t) = pos_latency (lat CAST t)) ->
  insert_buffers (apply_config cfg P) bs (fresh (apply_config cfg P)) = Some P2 ->
  goes rd (erase_offsets P2) /\ (no_offs P -> goes rd P2).
Proof.
  intros RZ EL EC E. assert (T := kernel_ptyped F h w order R D K1 C S P EP GT). assert (T1 := cfg_ptyped cfg P T).
  assert (F1 := cfg_fits cfg lat RZ EL EC). assert (F2 := inserts_fits _ _ _ _ F1 (fresh_lt _) E).
  assert (D2 : dests P2 = dests P) by (rewrite (inserts_dests _ _ _ _ T1 (fresh_lt _) E); apply cfg_dests).
  destruct (LatencyProofs.inserts_keep _ _ _ _ E) as [_ KB].
  assert (OR2 : forall r o k t l a, Def r o k t l a ∈ P2 -> (exists l0 a0, Def r o k t l0 a0 ∈ P) \/ o = DLatency).
  { intros r o k t l a H. apply KB in H as [(a' & H)|[_ H]]; [|auto]. apply cfg_def_inv in H as (l' & H). eauto. }
  assert (OR3 : forall r o k t l a, Def r o k t l a ∈ erase_offsets P2 -> exists a0, Def r o k t l a0 ∈ P2).
  { unfold erase_offsets. generalize (offset_ids P2). intro ids. clear -F2. pose proof (ft_typed _ F2) as T2. clear F2. revert P2 T2.
    induction ids as [|v ids IH]; intros P2 T2 r o k t l a H; [eauto|]. cbn in H. apply IH in H as (a0 & H); [|apply erase_ptyped; exact T2].
    destruct (erase_shape P2 v T2) as (S1 & _). destruct (S1 _ _ _ _ _ _ H) as (a1 & ts & H1 & _). eauto. }
  split; [|intro NO].
  - assert (F3 := erases_fits _ F2). assert (D3 : dests (erase_offsets P2) = dests P) by (rewrite erases_dests by (apply F2); exact D2). constructor.
    + exact F3.
    + apply erases_no_offs, F2.
    + intros r sc nm k t l a H. apply OR3 in H as (a0 & H). apply OR2 in H as [H|H]; [exact H|discriminate].
    + exact D3.
    + intros d t Ht Hd. eapply dest_type; [exact T|apply F3| |rewrite D3; exact Hd|exact Ht]. intros r o k t' l a H. apply OR3 in H as (a0 & H). eauto.
  - constructor.
    + exact F2.
    + eapply inserts_no_offs; [exact E|]. intros r d k t l a H. apply cfg_def_inv in H as (l' & H). eapply NO. exact H.
    + intros r sc nm k t l a H. apply OR2 in H as [H|H]; [exact H|discriminate].
    + exact D2.
    + intros d t Ht Hd. eapply dest_type; [exact T|apply F2|exact OR2|rewrite D2; exact Hd|exact Ht].
Qed.
Lemma asap_goes {rd} cfg perm Q L : realizable_as rd w (node_latency cfg) -> asap_pass cfg perm P = Some (Q, L) -> goes rd Q.
Proof.
  intros RZ E. unfold asap_pass in E. destruct (sgraph _) as [[ns cs]|]; [|discriminate]. destruct (asap ns cs) as [[[mm bs] mx]|]; [|discriminate].
  destruct (insert_buffers _ _ _) as [P2|] eqn:E2; [|discriminate]. injection E as <- _.
  destruct (buffered_goes cfg (node_latency cfg) (perm bs) P2 RZ) as [G _]; [| |exact E2|exact G]; reflexivity.
Qed.
Lemma linear_goes {rd} solve cfg perm Q L : realizable_as rd w (node_latency cfg) -> linear_pass solve cfg perm P = Some (Q, L) -> goes rd Q.
Proof.
  intros RZ E. unfold linear_pass in E. destruct (sgraph _) as [[ns cs]|]; [|discriminate]. destruct (lp_schedule _ _ _) as [bs|]; [|discriminate].
  destruct (insert_buffers _ _ _) as [P2|] eqn:E2; [|discriminate]. injection E as <- _.
  destruct (buffered_goes cfg (node_latency cfg) (perm bs) P2 RZ) as [G _]; [| |exact E2|exact G]; reflexivity.
Qed.
Lemma no_offsets : combinational w -> no_offs P.
Proof.
  intro CO. destruct (flow_facts F h w order R D K1 C S) as (W & DR & ND & LV & TO & NP).
  destruct (build_spec w order W DR ND LV TO NP) as (P' & E' & ED & WP & CB & DD & DC). rewrite EP in E'. injection E' as <-.
  intros r d k t l a H. apply DD in H as (_ & (nd & Hn & _ & Ht & T) & _). unfold translate_op in T.
  destruct (n_op nd) eqn:Eo; try discriminate T; try (destruct (operands w r) as [|? [|]]; discriminate T).
  exact (cb_off _ CO _ _ _ Hn Eo).
Qed.
Lemma comb_goes {rd} rnd eps n perm Q : combinational w -> realizable_as rd w no_latency -> comb_pass rnd eps n perm P = Some Q -> goes rd Q.
Proof.
  intros CO RZ E. unfold comb_pass in E. destruct (Z.eqb_spec n 0).
  - injection E as <-. constructor; auto.
    + apply plain_fits, RZ.
    + apply no_offsets, CO.
    + intros. eauto.
  - destruct (cgraph _) as [[ns cs]|]; [|discriminate]. destruct (comb_layers _ _) as [mm mx]. destruct (cascades _ _ _ _) as [ks|]; [|discriminate].
    destruct (comb_buffers _ _ _ _) as [bs|]; [|discriminate]. eapply buffered_goes; [exact RZ| | |exact E|apply no_offsets, CO]; reflexivity.
Qed.

Theorem goes_runs {rd} Q e : goes rd Q -> env_for w e -> exists sig, rtl Q e sig.
Proof.
  intros [G1 G2 G3 G4 G5] EF. eapply rtl_runs; [exact G1|exact G2|]. intros r sc nm k t l a H. apply G3 in H as (l0 & a0 & H).
  eapply (kernel_env F h w order R D K1 C S P EP e EF). exact H.
Qed.
Theorem goes_right {rd} Q : goes rd Q -> forall delay_of : nat -> Z,
  (forall V (I : interp V) sig, circuit I Q sig ->
      forall d nd i x, w_nodes w !! d = Some nd -> n_op nd = OUT -> 0 <= i -> kval I w d i x -> sig d (i + delay_of d) = x) ->
  forall e sig, rtl Q e sig -> forall d nd t i x, w_nodes w !! d = Some nd -> n_op nd = OUT -> type_of w d = Some t -> 0 <= i -> 0 <= i + delay_of d ->
    kval (hw_as rd e) w d i x -> sig d (i + delay_of d) = h_num x mod 2 ^ total_bits t.
Proof.
  intros [G1 G2 G3 G4 G5] dl H e sig RT d nd t i x Hn Ho Ht Hi Hj KV.
  assert (CI := rtl_circuit rd Q e sig (fits_ready _ G1) RT). specialize (H _ _ _ CI d nd i x Hn Ho Hi KV).
  assert (HP := kernel_dest F h w order R D K1 C S P EP d nd Hn Ho). assert (HQ := HP). rewrite <- G4 in HQ. apply dests_elem in HQ as (s & Hc).
  destruct (pt_con _ (ft_typed _ G1) _ _ Hc) as [_ (ts & Hs)].
  assert (TY : has_ty Q d t). { apply G5; [|exact HP]. destruct (kernel_has F h w order R D K1 C S P EP GT d t Ht) as (t' & H1 & _).
    destruct (kernel_node F h w order R D K1 C S P EP GT d t' H1) as (nd' & t2 & Hn' & Ht2 & _ & Et). rewrite Hn in Hn'. injection Hn' as <-.
    rewrite Ht in Ht2. injection Ht2 as <-. rewrite (Et ltac:(intros k X; rewrite X in Ho; discriminate Ho)). exact H1. }
  destruct (rtl_output rd Q e sig d s t ts (i + dl d) (fits_ready _ G1) RT Hc TY Hs Hj) as [X _]. rewrite X, H. reflexivity.
Qed.
End Kernel.

(** ** Checking [realizable] *)
Definition tyeqb (a b : dftype) : bool := bool_decide (a = b).
Definition op_fitsb (o : opk) (t : dftype) (ts : list dftype) (lat : Z) : bool :=
  match o, ts with
  | CONST _, [] => negb (is_float t) && match t with TRaw _ => false | _ => true end
  | OUT, [s] => eqb (is_signed s) (is_signed t) && (total_bits s <=? total_bits t)
  | MUX, c :: arms => negb (Nat.eqb (length arms) 0) && forallb (fun a => tyeqb (kind a) (kind t)) arms
  | BIN b, [t1; t2] =>
      let s1 := is_signed t1 in let s2 := is_signed t2 in
      let w1 := total_bits t1 in let w2 := total_bits t2 in
      if is_bitwise b then negb s1 && negb s2 && (w2 <=? w1)
      else if is_compare b then
        (negb s1 && negb s2) || (eqb s1 s2 && (w1 =? w2)) ||
        (match b with EQ | NEQ => true | _ => false end && ((s1 && negb s2 && (w2 <? w1)) || (negb s1 && s2 && (w1 <? w2))))
      else is_arith b && ((0 <? lat) || negb s1) && ((w1 <=? w2) || eqb s1 s2)
  | UN NOT, [_] => negb (is_signed t)
  | UN NEG, _ => false
  | CAST, [a] => (total_bits t <=? total_bits a) || (eqb (is_signed a) (is_signed t) && ((lat <=? 0) || negb (is_signed a)))
  | SHL n, [_] => (0 <=? n) && negb (is_signed t)
  | SHR n, [_] => 0 <=? n
  | CAT, [a; b] => eqb (is_signed a) (is_signed b) && (total_bits a + total_bits b <? 65536)
  | _, _ => true
  end.
Ltac bsplit H := repeat (rewrite ?andb_true_iff, ?orb_true_iff, ?negb_true_iff, ?eqb_true_iff, ?Z.leb_le, ?Z.ltb_lt, ?Z.eqb_eq in H).
Lemma op_fitsb_sound o t ts lat : op_fitsb o t ts lat = true -> op_fits o t ts lat.
Proof.
  intro H. destruct o as [ | k | | | z | | b | u | | n | n | l r | ]; try exact Logic.I; cbn in H |- *.
  - destruct ts as [|s []]; try exact Logic.I. bsplit H. tauto.
  - destruct ts; try exact Logic.I. bsplit H. destruct t; cbn in *; intuition discriminate.
  - destruct ts as [|c arms]; try exact Logic.I. bsplit H. destruct H as [H1 H2]. split; [intros ->; discriminate|].
    apply Forall_forall. intros x Hx. rewrite forallb_forall in H2. apply elem_of_list_In in Hx. specialize (H2 x Hx). apply bool_decide_eq_true in H2. exact H2.
  - destruct ts as [|t1 [|t2 []]]; try exact Logic.I. destruct (is_bitwise b); [bsplit H; tauto|]. destruct (is_compare b); [|bsplit H; tauto].
    bsplit H. destruct b; bsplit H; try tauto; intuition discriminate.
  - destruct u; [|destruct ts as [|? []]; discriminate H]. destruct ts as [|a []]; try exact Logic.I. bsplit H. exact H.
  - destruct ts as [|a []]; try exact Logic.I. bsplit H. tauto.
  - destruct ts as [|a []]; try exact Logic.I. bsplit H. tauto.
  - destruct ts as [|a []]; try exact Logic.I. bsplit H. exact H.
  - destruct ts as [|a [|b []]]; try exact Logic.I. bsplit H. tauto.
Qed.
Definition act_fitsb (o : opk) (t : dftype) (ts : list dftype) (lat : Z) : bool :=
  match o, ts with
  | BIN b, [t1; t2] => if is_bitwise b then op_fitsb o t ts lat else if is_compare b then true else is_arith b && ((0 <? lat) || negb (is_signed t1))
  | CAST, [a] => (total_bits t <=? total_bits a) || (lat <=? 0) || negb (is_signed t)
  | SHL n, [_] => (0 <=? n) && (negb (is_signed t) || (2 <=? total_bits t))
  | _, _ => op_fitsb o t ts lat
  end.
Lemma act_fitsb_sound o t ts lat : act_fitsb o t ts lat = true -> act_fits o t ts lat.
Proof.
  intro H. destruct o as [ | k | | | z | | b | u | | n | n | l r | ]; try (apply op_fitsb_sound; exact H); unfold act_fitsb, act_fits in *.
  - destruct ts as [|t1 [|t2 []]]; try exact Logic.I. destruct (is_bitwise b); [apply op_fitsb_sound; exact H|]. destruct (is_compare b); [exact Logic.I|]. bsplit H. tauto.
  - destruct ts as [|a []]; try exact Logic.I. bsplit H. tauto.
  - destruct ts as [|a []]; try exact Logic.I. bsplit H. tauto.
Qed.
Definition fitsb (rd : reading) := match rd with Intended => op_fitsb | Actual => act_fitsb end.
Lemma fitsb_sound rd o t ts lat : fitsb rd o t ts lat = true -> fits_as rd o t ts lat.
Proof. destruct rd; [apply op_fitsb_sound|apply act_fitsb_sound]. Qed.
Fixpoint typesb (w : world) (l : list nat) : option (list dftype) :=
  match l with
  | [] => Some []
  | n :: l => match type_of w n, typesb w l with Some t, Some ts => Some (t :: ts) | _, _ => None end
  end.
Definition realizableb_as (rd : reading) (lat : opk -> dftype -> Z) (w : world) : bool :=
  forallb (fun p : nat * node => let (n, nd) := p in
    match type_of w n, typesb w (operands w n) with
    | Some t, Some ts => (1 <=? p_width (port_type t)) && (p_width (port_type t) <? 65536) && fitsb rd (n_op nd) t ts (lat (n_op nd) t)
    | _, _ => false
    end && match n_op nd with OUT => match readers w n with [] => true | _ => false end | _ => true end) (map_to_list (w_nodes w)).
Lemma realizableb_as_sound rd lat w : realizableb_as rd lat w = true -> realizable_as rd w lat.
Proof.
  unfold realizableb_as. intro H. constructor.
  - intros n t Ht. pose proof Ht as Ht'. unfold type_of in Ht. destruct (w_nodes w !! n) as [nd|] eqn:Hn; [|discriminate]. pose proof (map_forallb w _ H n nd Hn) as X. cbn in X.
    rewrite Ht' in X. destruct (typesb w (operands w n)); [|discriminate]. bsplit X. unfold proper. lia.
  - intros n nd t ts Hn Ht F2. pose proof (map_forallb w _ H n nd Hn) as X. cbn in X. rewrite Ht in X.
    assert (E : typesb w (operands w n) = Some ts) by (clear -F2; induction F2 as [|a ta l tl E F2 IH]; [reflexivity|]; cbn; rewrite E, IH; reflexivity).
    rewrite E in X. bsplit X. apply fitsb_sound. tauto.
  - intros n nd Hn Ho. pose proof (map_forallb w _ H n nd Hn) as X. cbn in X. rewrite Ho in X. apply andb_true_iff in X as [_ X]. destruct (readers w n); [reflexivity|discriminate].
Qed.

Notation realizableb := (realizableb_as Intended).
Lemma realizableb_sound lat w : realizableb lat w = true -> realizable w lat.
Proof. apply realizableb_as_sound. Qed.

(** ** Evaluating a program *)
Fixpoint dev_as (rd : reading) (e : env) (P : program) (fuel : nat) (v : nat) (i : Z) : option hval :=
  match fuel with
  | O => None
  | S f =>
      match find (fun s => match s with Def r _ _ _ _ _ => Nat.eqb r v | Con _ _ => false end) P with
      | Some (Def r o _ t _ args) =>
          match o, args with
          | DIn false name, _ => if 0 <=? i then Some (e_stream e name i) else None
          | DIn true name, _ => Some (e_scalar e name)
          | DConst c, _ => Some (kind t, num (is_signed t) 64 c mod 2 ^ total_bits t)
          | DOffset d, [s] => dev_as rd e P f s (i + d)
          | DOut _ _, _ => match find (fun s => match s with Con d _ => Nat.eqb d v | _ => false end) P with
                           | Some (Con _ s) => dev_as rd e P f s i
                           | _ => None
                           end
          | _, _ => if is_oper o && (0 <=? i) then
                      match sequence (map (fun a => dev_as rd e P f a i) args) with Some xs => d_op (hw_as rd e) o t xs | None => None end
                    else None
          end
      | _ => None
      end
  end.
Lemma sequence_forall2 {A B} (f : A -> option B) l xs : sequence (map f l) = Some xs -> Forall2 (fun a x => f a = Some x) l xs.
Proof.
  revert xs. induction l as [|a l IH]; intros xs H; cbn in H; [injection H as <-; constructor|].
  destruct (f a) as [x|] eqn:E; [|discriminate]. destruct (sequence (map f l)) as [r|]; [|discriminate]. injection H as <-. constructor; auto.
Qed.
Lemma dev_as_sound rd e P f : forall v i x, dev_as rd e P f v i = Some x -> dval (hw_as rd e) P v i x.
Proof.
  induction f as [|f IH]; intros v i x H; [discriminate|]. cbn in H.
  destruct (find _ P) as [[r o k t l args|]|] eqn:E; try discriminate. apply find_some in E as [E1 E2]. apply Nat.eqb_eq in E2. subst r. apply elem_of_list_In in E1.
  assert (OP : is_oper o = true -> (if is_oper o && (0 <=? i) then match sequence (map (fun a => dev_as rd e P f a i) args) with Some xs => d_op (hw_as rd e) o t xs | None => None end else None) = Some x -> dval (hw_as rd e) P v i x).
  { intros Io G. rewrite Io in G. cbn in G. destruct (Z.leb_spec 0 i); [|discriminate]. destruct (sequence _) as [xs|] eqn:Es; [|discriminate].
    apply sequence_forall2 in Es. eapply dv_op; eauto. eapply Forall2_impl; [exact Es|]. cbn. intros a y Y. apply IH. exact Y. }
  destruct o as [sc nm|sc nm|c|d| | | | | | | | |]; try (apply OP; [reflexivity|exact H]).
  - destruct sc; [injection H as <-; replace (e_scalar e nm) with (i_scalar (hw_as rd e) nm) by (destruct rd; reflexivity); exact (dv_scalar (hw_as rd e) P v nm k t l args i E1)|]. destruct (Z.leb_spec 0 i); [|discriminate]. injection H as <-.
    replace (e_stream e nm i) with (i_stream (hw_as rd e) nm i) by (destruct rd; reflexivity). exact (dv_stream (hw_as rd e) P v nm k t l args i E1 ltac:(lia)).
  - destruct (find _ P) as [[|d s]|] eqn:E'; try discriminate. apply find_some in E' as [E3 E4]. apply Nat.eqb_eq in E4. subst d. apply elem_of_list_In in E3.
    eapply dv_out; [exact E1|exact E3|apply IH; exact H].
  - injection H as <-. replace (kind t, num (is_signed t) 64 c mod 2 ^ total_bits t) with (i_const (hw_as rd e) t c) by (destruct rd; reflexivity). exact (dv_const (hw_as rd e) P v c k t l args i E1).
  - destruct args as [|s []]; try discriminate H. eapply dv_offset; [exact E1|apply IH; exact H].
Qed.
Notation dev := (dev_as Intended).
Lemma dev_sound e P f : forall v i x, dev e P f v i = Some x -> dval (hw e) P v i x.
Proof. apply (dev_as_sound Intended). Qed.
