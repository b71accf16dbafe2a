(** The generated circuit can run (proofs). *)
From Coq Require Import ZArith Bool String Lia.
From stdpp Require Import gmap list.
From Verif Require Import Types Word Value OpSpec Graph GraphSpec TypingSpec TypingProofs TypesProofs Dfcir StreamSpec HwSpec HwProofs Verilog Stubs Naming StubsSpec StubsProofs StubsFacts Firrtl Lower
     Sched DfcirProofs ProgTyping LibraryFacts RtlSpec FirrtlProofs RtlProofs RtlFlow.
Local Open Scope Z_scope.

Lemma pow_pos w : 0 <= w -> 0 < 2 ^ w.
Proof. intro. apply Z.pow_pos_nonneg; lia. Qed.
Lemma mod_word w x : 0 <= w -> word w (x mod 2 ^ w).
Proof. intro H. apply Z.mod_pos_bound, pow_pos, H. Qed.

(** ** Values of primitives have the declared type *)
Lemma prim_word e o t ts lat xs y :
  base_name o = None -> is_oper o = true -> dtyping o t ts -> op_fits (match o with DMux => MUX | _ => opk_of o end) t ts lat ->
  proper t -> Forall2 arg_ok ts xs -> d_op (hw e) o t (zip (map kind ts) xs) = Some y -> word (p_width (port_type t)) (snd y).
Proof.
  intros BN OP DT FT PT A E. destruct (proper_port t PT) as [EP BW].
  destruct o as [sc nm|sc nm|c|f| |b|u| |n|n|l r| |]; try discriminate BN; try discriminate OP; cbn in DT.
  - destruct DT as (tc & arms' & ta & -> & _). cbn in FT. set (arms := arms' ++ [ta]) in *. destruct FT as [NE FA]. inversion A as [|? xc ? xs' HC HA]. subst. cbn in E. unfold mux_hw in E.
    destruct (_ <? _)%nat; [|discriminate]. change (foldr _ _ _) with (zip (map kind arms) xs') in E. destruct (zip_lookup_inv _ _ _ _ E) as (kj & xj & Ht & Hx & ->). apply map_lookup_inv in Ht as (tj & Ht & ->).
    assert (KJ : kind tj = kind t) by (rewrite Forall_forall in FA; apply FA; eapply elem_of_list_lookup_2; exact Ht).
    destruct (Forall2_lookup_l _ _ _ _ _ HA Ht) as (xj' & Hx' & _ & X). cbn. rewrite Hx in Hx'. injection Hx' as <-. rewrite <- (port_kind _ _ KJ). exact X.
  - destruct DT as (t1 & t2 & -> & ET). inversion A as [|? x ? ? H1 A']. subst. inversion A' as [|? z ? ? H2 A'']. subst. inversion A''. subst.
    cbn in E. destruct (_ && _); [discriminate|]. destruct (match b with DIV => _ | _ => false end); [discriminate|]. injection E as <-. rewrite EP. cbn. apply mod_word. lia.
  - destruct u; try discriminate BN. destruct DT as (a & -> & KA). inversion A as [|? x ? ? H1 A']. subst. inversion A'. subst. cbn in E. injection E as <-. destruct H1 as [_ X].
    rewrite (port_kind _ _ KA) in X. rewrite EP in X |- *. cbn in X |- *. unfold word in *. lia.
  - destruct DT as (a & -> & KA). inversion A as [|? x ? ? H1 A']. subst. inversion A'. subst. cbn in E. injection E as <-. rewrite EP. cbn. apply mod_word. lia.
  - destruct DT as (a & -> & KA). inversion A as [|? x ? ? H1 A']. subst. inversion A'. subst. cbn in E. injection E as <-. rewrite EP. cbn. apply mod_word. lia.
  - destruct DT as (a & -> & LR & LT & ET). inversion A as [|? x ? ? H1 A']. subst. inversion A'. subst. destruct H1 as [PA X1]. destruct (proper_port a PA) as [EA BA].
    cbn in E. injection E as <-. cbn. rewrite Z.mod_small with (b := 65536) by lia. apply mod_word. lia.
  - destruct DT as (a & b & -> & ET). cbn in FT. destruct FT as [SS SU]. inversion A as [|? x ? ? H1 A']. subst. inversion A' as [|? z ? ? H2 A'']. subst. inversion A''. subst.
    destruct H1 as [PA X1], H2 as [PB X2]. destruct (proper_port a PA) as [EA BA], (proper_port b PB) as [EB BB]. cbn in E. rewrite (proj1 (kind_proper b PB)) in E. injection E as <-.
    rewrite EA in X1. rewrite EB in X2. cbn in X1, X2 |- *. rewrite Z.mod_small by lia. unfold word in *. rewrite Z.pow_add_r by lia. nia.
Qed.
Lemma prim_undefined e o t ts lat xs ex :
  base_name o = None -> is_oper o = true -> dtyping o t ts -> op_fits (match o with DMux => MUX | _ => opk_of o end) t ts lat ->
  Forall2 arg_ok ts xs -> d_op (hw e) o t (zip (map kind ts) xs) = None -> lower o (map port_type ts) (port_type t) = Some ex ->
  feval (zip (map port_type ts) xs) ex = None.
Proof.
  intros BN OP DT FT A E LO.
  destruct o as [sc nm|sc nm|c|f| |b|u| |n|n|l r| |]; try discriminate BN; try discriminate OP; cbn in DT.
  - destruct DT as (tc & arms' & ta & -> & _). cbn in FT. set (arms := arms' ++ [ta]) in *. destruct FT as [NE FA]. inversion A as [|? xc ? xs' HC HA]. subst. clear A.
    cbn [map lower] in LO. injection LO as <-. cbn in E. unfold mux_hw in E. rewrite map_length.
    destruct HC as [PC XC]. destruct (proper_port tc PC) as [EC _]. rewrite EC in XC. cbn in XC.
    set (av := zip (map port_type arms) xs').
    assert (LA := Forall2_length _ _ _ HA).
    assert (LV : length av = length arms) by (unfold av; rewrite zip_with_length, map_length; lia).
    assert (LZ : length (zip (map kind arms) xs') = length arms) by (rewrite zip_with_length, map_length; lia).
    change (zip (map port_type (tc :: _)) (_ :: _)) with ((port_type tc, xc) :: av). rewrite EC. cbn [p_signed].
    rewrite <- LV. rewrite (mux_value _ _ _ (port_type t)); [| | |exact (proj1 XC)].
    + change (foldr _ _ _) with (zip (map kind arms) xs') in E. rewrite LZ in E. rewrite LV. destruct (Z.ltb_spec xc (Z.of_nat (length arms))); [|reflexivity].
      destruct (Nat.ltb_spec (Z.to_nat xc) (length arms)) as [LT|]; [|unfold word in XC; lia]. exfalso.
      destruct (zip (map kind arms) xs' !! (length arms - 1 - Z.to_nat xc)%nat) eqn:X; [discriminate|]. apply lookup_ge_None in X. lia.
    + destruct av; [cbn in LV; unfold arms in LV; rewrite app_length in LV; cbn in LV; lia|discriminate].
    + apply Forall_forall. intros q Hq. apply elem_of_list_lookup in Hq as (j & Hq). destruct (zip_lookup_inv _ _ _ _ Hq) as (p0 & x0 & Hp & _ & ->).
      cbn. apply map_lookup_inv in Hp as (tj & Hj & ->). rewrite Forall_forall in FA. apply port_kind, FA. eapply elem_of_list_lookup_2; exact Hj.
  - destruct DT as (t1 & t2 & -> & ET). inversion A as [|? x ? ? H1 A']. subst. inversion A' as [|? z ? ? H2 A'']. subst. inversion A''. subst.
    cbn in FT, E. destruct b; try discriminate BN; cbn in E; discriminate.
  - destruct u; try discriminate BN. destruct DT as (a & -> & KA). inversion A as [|? x ? ? H1 A']. subst. inversion A'. subst. discriminate E.
  - destruct DT as (a & -> & KA). inversion A as [|? x ? ? H1 A']. subst. inversion A'. subst. discriminate E.
  - destruct DT as (a & -> & KA). inversion A as [|? x ? ? H1 A']. subst. inversion A'. subst. discriminate E.
  - destruct DT as (a & -> & LR & LT & ET). inversion A as [|? x ? ? H1 A']. subst. inversion A'. subst. discriminate E.
  - destruct DT as (a & b & -> & ET). inversion A as [|? x ? ? H1 A']. subst. inversion A' as [|? z ? ? H2 A'']. subst. inversion A''. subst. discriminate E.
Qed.
Lemma prim_word_as r e o t ts lat xs y :
  base_name o = None -> is_oper o = true -> dtyping o t ts -> fits_as r (match o with DMux => MUX | _ => opk_of o end) t ts lat ->
  proper t -> Forall2 arg_ok ts xs -> d_op (hw_as r e) o t (zip (map kind ts) xs) = Some y -> word (p_width (port_type t)) (snd y).
Proof.
  intros BN OP DT FT PT A E. destruct r; [eapply prim_word; eassumption|].
  destruct o as [sc nm|sc nm|c|f| |b|u| |n|n|l r| |]; try discriminate BN; try discriminate OP;
    try (eapply (prim_word e _ t _ lat); [exact BN|exact OP|exact DT|exact FT|exact PT|exact A|exact E]).
  - assert (BB : is_bitwise b = true) by (destruct b; try discriminate BN; reflexivity). pose proof DT as DT0. cbn in DT. destruct DT as (t1 & t2 & -> & ET).
    inversion A as [|? x ? ? H1 A']. subst. inversion A' as [|? z ? ? H2 A'']. subst. inversion A''. subst. cbn in FT, E. rewrite BB in FT, E.
    eapply (prim_word e (DBin b) t _ lat); [exact BN|exact OP|exact DT0|cbn; rewrite BB; exact FT|exact PT|exact A|cbn; rewrite BB; exact E].
  - pose proof DT as DT0. destruct DT as (a & -> & KA). inversion A as [|? x ? ? H1 A']. subst. inversion A'. subst. cbn in FT, E. destruct FT as [N FS]. destruct (is_signed t) eqn:ST.
    + destruct FS as [|W2]; [discriminate|]. destruct H1 as [_ X1]. destruct (proper_port t PT) as [EP BW]. rewrite (port_kind _ _ KA), EP in X1. cbn in X1. injection E as <-. rewrite EP. cbn.
      unfold word in *. set (w := total_bits t) in *. set (m := 2 ^ (w - 1)). assert (Pm : 0 < m) by (apply pow_pos; lia). assert (E2 : 2 ^ w = 2 * m) by (unfold m; rewrite <- Z.pow_succ_r by lia; f_equal; lia).
      pose proof (Z.mod_pos_bound (x * 2 ^ n) m Pm). assert (0 <= x / m < 2) by (split; [apply Z.div_pos; lia|apply Z.div_lt_upper_bound; lia]). nia.
    + eapply (prim_word e (DShl n) t _ lat); [exact BN|exact OP|exact DT0|cbn; split; assumption|exact PT|exact A|exact E].
Qed.
Lemma prim_undefined_as r e o t ts lat xs ex :
  base_name o = None -> is_oper o = true -> dtyping o t ts -> fits_as r (match o with DMux => MUX | _ => opk_of o end) t ts lat ->
  Forall2 arg_ok ts xs -> d_op (hw_as r e) o t (zip (map kind ts) xs) = None -> lower o (map port_type ts) (port_type t) = Some ex ->
  feval (zip (map port_type ts) xs) ex = None.
Proof.
  intros BN OP DT FT A E LO. destruct r; [eapply prim_undefined; eassumption|].
  destruct o as [sc nm|sc nm|c|f| |b|u| |n|n|l r| |]; try discriminate BN; try discriminate OP;
    try (eapply (prim_undefined e _ t _ lat); [exact BN|exact OP|exact DT|exact FT|exact A|exact E|exact LO]).
  - assert (BB : is_bitwise b = true) by (destruct b; try discriminate BN; reflexivity). pose proof DT as DT0. cbn in DT. destruct DT as (t1 & t2 & -> & ET).
    inversion A as [|? x ? ? H1 A']. subst. inversion A' as [|? z ? ? H2 A'']. subst. inversion A''. subst. cbn in FT, E. rewrite BB in FT, E.
    eapply (prim_undefined e (DBin b) t _ lat); [exact BN|exact OP|exact DT0|cbn; rewrite BB; exact FT|exact A|cbn; rewrite BB; exact E|exact LO].
  - destruct DT as (a & -> & KA). inversion A as [|? x ? ? H1 A']. subst. inversion A'. subst. cbn in E. destruct (is_signed t); discriminate E.
Qed.
(** which primitive an operation is lowered to does not depend on the values *)
Lemma lower_some o t ts : base_name o = None -> is_oper o = true -> dtyping o t ts ->
  exists ex, lower o (map port_type ts) (port_type t) = Some ex.
Proof.
  intros BN OP DT. destruct o as [sc nm|sc nm|c|f| |b|u| |n|n|l r| |]; try discriminate BN; try discriminate OP; try (eexists; reflexivity).
  - cbn in DT. destruct DT as (c & arms & ta & -> & _). eexists. reflexivity.
  - destruct b; try discriminate BN; eexists; reflexivity.
  - destruct u; try discriminate BN; eexists; reflexivity.
Qed.
Lemma prim_total r (e : env) o t ts lat xs ex :
  base_name o = None -> is_oper o = true -> dtyping o t ts -> fits_as r (match o with DMux => MUX | _ => opk_of o end) t ts lat ->
  proper t -> Forall2 arg_ok ts xs -> lower o (map port_type ts) (port_type t) = Some ex ->
  match feval (zip (map port_type ts) xs) ex with Some (p, x) => p = port_type t /\ word (p_width (port_type t)) x | None => True end.
Proof.
  intros BN OP DT FT PT A LO. destruct (d_op (hw_as r e) o t (zip (map kind ts) xs)) as [y|] eqn:E.
  - destruct (prim_as r e o t ts lat xs y BN OP DT FT PT A E) as (ex' & LO' & EV & _). rewrite LO in LO'. injection LO' as <-. rewrite EV.
    split; [reflexivity|]. eapply prim_word_as; eassumption.
  - rewrite (prim_undefined_as r e o t ts lat xs ex BN OP DT FT A E LO). exact Logic.I.
Qed.

(** ** The output port of a library module carries patterns of its width *)
Lemma out_word m ins R s w ex : vrun m ins R -> v_decl m RES1 = Some (DNet s w) -> In (RES1, ex) (v_assign m) -> 0 <= w -> forall c, word w (vout R c).
Proof.
  intros (_ & AS & _) DC IN W c. destruct (AS c _ _ IN) as (s' & k & D' & V). rewrite DC in D'. injection D' as <- <-.
  unfold vassigned in V. destruct (vsize _ _); [|discriminate]. destruct (veval _ _ _ _ _); [|discriminate]. injection V as V. unfold vout. rewrite <- V. apply mod_word, W.
Qed.
Lemma lib_out o ts t lat m : covered o = true -> dtyping o t ts -> lib_module o ts t lat m ->
  exists s ex, v_decl m RES1 = Some (DNet s (p_width (port_type t))) /\ In (RES1, ex) (v_assign m).
Proof.
  intros CV DT LM. destruct (covered_gen o ts t lat CV DT) as (name & m' & E & G).
  destruct LM as (n & p & l & E' & G'). rewrite E in E'. injection E' as <- <- <-. rewrite G in G'. injection G' as <-.
  unfold gen_module in G. destruct (contains name BUF_MODULE).
  - injection G as <-. unfold fifo_module. eexists _, _. split; [reflexivity|left; reflexivity].
  - destruct (contains name CAST_MODULE).
    + destruct (map port_type ts) as [|a1 r] eqn:Em; [discriminate|]. injection G as <-. unfold cast_module. destruct (_ =? 0); (eexists _, _; split; [reflexivity|right; left; reflexivity]).
    + destruct (bin_op_of_name name); [|discriminate]. destruct (map port_type ts) as [|a1 [|a2 r]] eqn:Em; try discriminate. injection G as <-.
      unfold bin_module. destruct (_ =? 0); (eexists _, _; split; [reflexivity|]); cbn; auto 10.
Qed.
Lemma vrun_ext m ins ins' R : (forall t n, ins t n = ins' t n) -> vrun m ins R -> vrun m ins' R.
Proof. intros E (A & B). split; [|exact B]. intros t n H. rewrite <- E. apply A, H. Qed.

(** ** One statement *)
Definition upd (sig : nat -> Z -> Z) (r : nat) (f : Z -> Z) (v : nat) (c : Z) : Z := if Nat.eqb v r then f c else sig v c.
Lemma upd_same sig r f c : upd sig r f r c = f c.
Proof. unfold upd. rewrite Nat.eqb_refl. reflexivity. Qed.
Lemma upd_other sig r f v c : v <> r -> upd sig r f v c = sig v c.
Proof. intro H. unfold upd. apply Nat.eqb_neq in H. rewrite H. reflexivity. Qed.
Lemma fir_args_ext ts sig sig' : forall a c, (forall x, x ∈ a -> sig x c = sig' x c) -> fir_args ts sig a c = fir_args ts sig' a c.
Proof.
  unfold fir_args. induction ts as [|t ts IH]; intros [|x a] c H; try reflexivity. cbn. f_equal; [f_equal; apply H; left|]. apply IH. intros y Hy. apply H. right. exact Hy.
Qed.
Lemma inst_ports_ext sig sig' a : (forall x c, x ∈ a -> sig x c = sig' x c) -> forall t n, inst_ports sig a t n = inst_ports sig' a t n.
Proof.
  intros H t n. destruct n; cbn; try reflexivity; destruct a as [|x [|y a]]; try reflexivity; apply H; auto using elem_of_list_here, elem_of_list_further.
Qed.
(** a statement depends only on the wires it mentions *)
Lemma rtl_stmt_ext Q lib e sig sig' r o k t l a : (forall c, sig r c = sig' r c) -> (forall x c, x ∈ a -> sig x c = sig' x c) ->
  rtl_stmt Q lib e sig (Def r o k t l a) -> rtl_stmt Q lib e sig' (Def r o k t l a).
Proof.
  intros ER EA H.
  assert (GEN : (exists ts, val_types Q a = Some ts /\
      match module_name o ts t l with
      | Some name => exists m R, In (name, m) lib /\ vrun m (inst_ports sig a) R /\ forall c, sig r (Z.of_nat c) = vout R c
      | None => exists ex, lower o (map port_type ts) (port_type t) = Some ex /\ forall c, 0 <= c ->
                  match feval (fir_args ts sig a c) ex with Some (p, x) => p = port_type t /\ sig r c = x | None => True end
      end) -> exists ts, val_types Q a = Some ts /\
      match module_name o ts t l with
      | Some name => exists m R, In (name, m) lib /\ vrun m (inst_ports sig' a) R /\ forall c, sig' r (Z.of_nat c) = vout R c
      | None => exists ex, lower o (map port_type ts) (port_type t) = Some ex /\ forall c, 0 <= c ->
                  match feval (fir_args ts sig' a c) ex with Some (p, x) => p = port_type t /\ sig' r c = x | None => True end
      end).
  { intros (ts & VT & X). exists ts. split; [exact VT|]. destruct (module_name o ts t l).
    - destruct X as (m & R & I1 & I2 & I3). exists m, R. split; [exact I1|]. split; [eapply vrun_ext; [|exact I2]; apply inst_ports_ext; exact EA|]. intro c. rewrite <- ER. apply I3.
    - destruct X as (ex & L1 & L2). exists ex. split; [exact L1|]. intros c C. specialize (L2 c C). rewrite <- ER. erewrite <- fir_args_ext; [exact L2|]. intros x Hx. apply EA, Hx. }
  destruct o as [[|] nm|sc nm|c0|f0| |b|u| |n|n|l0 r0| |]; cbn in H |- *; try exact (GEN H); try exact H; intros c C; rewrite <- ER; auto.
Qed.

Section Run.
Variables (Q : program) (e : env).
Context {rd : reading}.
Hypothesis FT : fits rd Q.
Hypothesis NO : no_offs Q.
Hypothesis EV : forall r sc nm k t l a, Def r (DIn sc nm) k t l a ∈ Q ->
  if sc then of_type t (e_scalar e nm) else forall i, 0 <= i -> of_type t (e_stream e nm i).

Definition words (sig : nat -> Z -> Z) : Prop := forall v t c, has_ty Q v t -> 0 <= c -> word (p_width (port_type t)) (sig v c).
Local Notation lib := (gen_library (ext_modules Q)).

Lemma stmt_solvable sig r o k t l a : words sig -> Def r o k t l a ∈ Q -> r ∉ a ->
  exists f, (forall c, 0 <= c -> word (p_width (port_type t)) (f c)) /\ rtl_stmt Q lib e (upd sig r f) (Def r o k t l a).
Proof.
  intros WD H NA. pose proof (ft_typed _ FT) as T. assert (HT : has_ty Q r t) by (exists o, k, l, a; exact H).
  assert (PT := ft_proper _ FT _ _ HT). destruct (proper_port t PT) as [EP BW].
  destruct (pt_args _ T _ _ _ _ _ _ H) as (ts & F2 & DT). assert (OF := ft_ops _ FT _ _ _ _ _ _ _ H F2).
  assert (AO : forall c, 0 <= c -> Forall2 arg_ok ts (map (fun x => sig x c) a)).
  { intros c C. clear -F2 FT WD C. induction F2 as [|x t a ts X F2 IH]; [constructor|]. cbn. constructor; [|exact IH]. split; [eapply ft_proper; eassumption|eapply WD; eassumption]. }
  assert (EA : forall f x c, x ∈ a -> upd sig r f x c = sig x c) by (intros f x c Hx; apply upd_other; intros ->; contradiction).
  assert (GEN : is_oper o = true -> exists f, (forall c, 0 <= c -> word (p_width (port_type t)) (f c)) /\ exists ts, val_types Q a = Some ts /\
      match module_name o ts t l with
      | Some name => exists m R, In (name, m) lib /\ vrun m (inst_ports (upd sig r f) a) R /\ forall c, upd sig r f r (Z.of_nat c) = vout R c
      | None => exists ex, lower o (map port_type ts) (port_type t) = Some ex /\ forall c, 0 <= c ->
                  match feval (fir_args ts (upd sig r f) a c) ex with Some (p, x) => p = port_type t /\ upd sig r f r c = x | None => True end
      end).
  { intro OP. assert (FTS : fits_as rd (dopk o) t ts (pos_latency l)) by (destruct o; try discriminate OP; try exact OF; destruct rd; exact Logic.I).
    destruct (module_name o ts t l) as [name|] eqn:EN.
    - assert (CV : covered o = true).
      { eapply covered_named; [exact EN| |]; intros ->; cbn in DT.
        - destruct DT as (t1 & t2 & -> & _). clear -FTS. destruct rd; cbn in FTS; destruct FTS as [FF _]; discriminate FF.
        - clear -FTS. destruct rd; exact FTS. }
      destruct (library_complete _ _ _ _ _ _ _ T H CV) as (ts' & name' & m & F2' & EN' & HI & UN & LM).
      assert (ts' = ts) as -> by (pose proof (val_types_has _ _ _ (pt_defs _ T) F2) as X1; rewrite (val_types_has _ _ _ (pt_defs _ T) F2') in X1; congruence).
      rewrite EN in EN'. injection EN' as <-.
      assert (PS : Forall proper ts).
      { apply Forall_forall. intros x0 Hx0. apply elem_of_list_lookup in Hx0 as (i & Hi). destruct (Forall2_lookup_r _ _ _ _ _ F2 Hi) as (y & _ & Y). eapply ft_proper; eassumption. }
      assert (OK1 : dopk o = opk_of o) by (destruct o; try discriminate CV; reflexivity). rewrite OK1 in FTS.
      destruct (inst_correct rd e o t ts l m CV DT FTS PT PS ltac:(intros ->; exact OF) LM) as (g & DV & _).
      assert (PO : forall n, ports_ok ts (inst_ports sig a n)).
      { intro n. clear -CV DT F2 WD. assert (exists t1, ts = [t1] \/ exists t2, ts = [t1; t2]) as (t1 & [->|(t2 & ->)]).
        { destruct o; try discriminate CV; cbn in DT; [destruct DT as (t1 & t2 & -> & _)|destruct DT as (t1 & ->)|destruct DT as (t1 & -> & _)]; eauto. }
        - inversion F2 as [|x1 ? ? ? H1 F2']. subst. inversion F2'. subst. cbn. apply WD; [exact H1|lia].
        - inversion F2 as [|x1 ? ? ? H1 F2']. subst. inversion F2' as [|x2 ? ? ? H2 F2'']. subst. inversion F2''. subst. cbn. split; (apply WD; [assumption|lia]). }
      destruct (DV _ PO) as [EX _]. destruct (EX (fun _ => 0)) as (R & RR & _).
      { intros i w k0 Hd. split; [lia|]. destruct (Z.le_gt_cases 0 w); [apply pow_pos; assumption|].
        exfalso. assert (WN : w < 0) by assumption. clear -LM Hd WN CV DT PT PS EP BW.
        destruct (covered_gen o ts t l CV DT) as (name & m' & E & G).
        destruct LM as (n & p & l' & E' & G'). rewrite E in E'. injection E' as <- <- <-. rewrite G in G'. injection G' as <-.
        unfold gen_module in G. destruct (contains name BUF_MODULE).
        - injection G as <-. cbn in Hd. injection Hd as <- _. rewrite EP in WN. cbn in WN. lia.
        - destruct (contains name CAST_MODULE).
          + destruct ts as [|a1 r]; [discriminate|]. injection G as <-. inversion PS as [|? ? P1 _]. subst. destruct P1 as [P1 _]. unfold cast_module in Hd.
            destruct (_ =? 0); cbn in Hd; [discriminate|]. injection Hd as <- _. lia.
          + destruct (bin_op_of_name name) as [b|]; [|discriminate]. destruct ts as [|a1 [|a2 r]]; try discriminate. injection G as <-. inversion PS as [|? ? P1 _]. subst. destruct P1 as [P1 _].
            unfold bin_module in Hd. destruct (_ =? 0); cbn in Hd; [discriminate|]. injection Hd as <- _. destruct (is_rel b); lia. }
      destruct (lib_out o ts t l m CV DT LM) as (s & ex & D1 & D2).
      exists (fun c => vout R (Z.to_nat c)). split; [intros c C; eapply out_word; [exact RR|exact D1|exact D2|rewrite EP; cbn; lia]|].
      exists ts. split; [exact (val_types_has _ _ _ (pt_defs _ T) F2)|]. rewrite EN. exists m, R. split; [exact HI|]. split.
      + eapply vrun_ext; [|exact RR]. apply inst_ports_ext. intros x c Hx. symmetry. apply EA, Hx.
      + intro c. rewrite upd_same, Nat2Z.id. reflexivity.
    - assert (BN := unnamed_base _ _ _ _ EN). destruct (lower_some o t ts BN OP DT) as (ex & LO).
      assert (LN := Forall2_length _ _ _ F2).
      assert (PTL : forall c, 0 <= c -> match feval (fir_args ts sig a c) ex with Some (p, x) => p = port_type t /\ word (p_width (port_type t)) x | None => True end).
      { intros c C. rewrite fir_args_zip by exact LN. eapply (prim_total rd e); try eassumption. apply AO, C. }
      exists (fun c => match feval (fir_args ts sig a c) ex with Some (_, x) => x | None => 0 end). split.
      + intros c C. specialize (PTL c C). destruct (feval _ _) as [[p x]|]; [apply PTL|]. split; [lia|]. apply pow_pos. rewrite EP. cbn. lia.
      + exists ts. split; [exact (val_types_has _ _ _ (pt_defs _ T) F2)|]. rewrite EN. exists ex. split; [exact LO|]. intros c C. specialize (PTL c C).
        rewrite (fir_args_ext ts _ sig) by (intros x Hx; apply EA, Hx). rewrite upd_same. destruct (feval _ _) as [[p x]|]; [|exact Logic.I]. split; [apply PTL|reflexivity]. }
  destruct o as [[|] nm|sc nm|c0|f0| |b|u| |n|n|l0 r0| |]; try exact (GEN eq_refl); clear GEN.
  - pose proof (EV _ _ _ _ _ _ _ H) as [E1 E2]. cbn in E1. exists (fun _ => snd (e_scalar e nm)). split; [intros; rewrite EP; exact E2|].
    cbn. intros c C. rewrite upd_same, <- E1. symmetry. apply surjective_pairing.
  - pose proof (EV _ _ _ _ _ _ _ H) as E1. cbn in E1. exists (fun c => snd (e_stream e nm c)). split; [intros c C; rewrite EP; apply (E1 c C)|].
    cbn. intros c C. rewrite upd_same. destruct (E1 c C) as [E2 _]. rewrite <- E2 at 1. symmetry. apply surjective_pairing.
  - exists (fun _ => 0). split; [|exact Logic.I]. intros c C. split; [lia|]. apply pow_pos. rewrite EP. cbn. lia.
  - cbn in DT. subst ts. assert (OF' : is_float t = false /\ match t with TRaw _ => False | _ => True end) by (clear -OF; destruct rd; exact OF). destruct OF' as [O1 O2]. destruct t as [s i fr|ex fr|nb]; try discriminate O1; try contradiction.
    eexists (fun _ => num s 64 c0 mod 2 ^ total_bits (TFixed s i fr)). split; [intros; rewrite EP; apply mod_word; lia|].
    cbn [rtl_stmt]. intros c C. rewrite upd_same. unfold lower_const. rewrite EP. reflexivity.
  - exfalso. eapply NO. exact H.
Qed.

Lemma upd_words sig r f t : words sig -> has_ty Q r t -> (forall c, 0 <= c -> word (p_width (port_type t)) (f c)) -> words (upd sig r f).
Proof.
  intros W H X v t' c Hv C. unfold upd. destruct (Nat.eqb_spec v r) as [->|]; [|eauto].
  rewrite (has_ty_fun _ _ _ _ (pt_defs _ (ft_typed _ FT)) Hv H). auto.
Qed.

(** all statements of rank [n] in a part of the program *)
Lemma rank_level rk n : (forall r o k t l a x, Def r o k t l a ∈ Q -> x ∈ a -> (rk x < rk r)%nat) ->
  forall l sig, l ⊆ Q -> words sig -> exists sig', words sig' /\ (forall v c, rk v <> n -> sig' v c = sig v c) /\
    (forall r o k t lt a, Def r o k t lt a ∈ l -> rk r = n -> rtl_stmt Q lib e sig' (Def r o k t lt a)).
Proof.
  intro RK. induction l as [|s l IH]; intros sig SB W.
  - exists sig. split; [exact W|]. split; [auto|]. intros r o k t lt a H. inversion H.
  - destruct (IH sig ltac:(intros x Hx; apply SB; right; exact Hx) W) as (sig1 & W1 & A1 & S1).
    destruct s as [r o k t lt a|d s].
    2: { exists sig1. split; [exact W1|]. split; [exact A1|]. intros r o k t lt a H. apply elem_of_cons in H as [H|H]; [discriminate|]. eauto. }
    destruct (Nat.eq_dec (rk r) n) as [En|En].
    2: { exists sig1. split; [exact W1|]. split; [exact A1|]. intros r' o' k' t' lt' a' H Er. apply elem_of_cons in H as [H|H]; [injection H as -> _ _ _ _ _; contradiction|]. eauto. }
    assert (H : Def r o k t lt a ∈ Q) by (apply SB; left).
    assert (NA : r ∉ a) by (intro X; pose proof (RK _ _ _ _ _ _ _ H X); lia).
    destruct (stmt_solvable sig1 r o k t lt a W1 H NA) as (f & Wf & St). exists (upd sig1 r f). split; [|split].
    + eapply upd_words; [exact W1| |exact Wf]. exists o, k, lt, a. exact H.
    + intros v c Nv. rewrite upd_other by (intros ->; contradiction). auto.
    + intros r' o' k' t' lt' a' H' Er. apply elem_of_cons in H' as [H'|H']; [injection H' as -> -> -> -> -> ->; exact St|].
      assert (HQ : Def r' o' k' t' lt' a' ∈ Q) by (apply SB; right; exact H').
      destruct (Nat.eq_dec r' r) as [->|Nr].
      * pose proof (def_unique _ _ _ _ _ _ _ _ _ _ _ _ (pt_defs _ (ft_typed _ FT)) H HQ) as X. injection X as -> -> -> -> ->. exact St.
      * eapply rtl_stmt_ext; [| |exact (S1 _ _ _ _ _ _ H' Er)].
        -- intro c. symmetry. apply upd_other. exact Nr.
        -- intros x c Hx. symmetry. apply upd_other. intros ->. pose proof (RK _ _ _ _ _ _ _ HQ Hx). lia.
Qed.
Lemma rank_all rk : (forall r o k t l a x, Def r o k t l a ∈ Q -> x ∈ a -> (rk x < rk r)%nat) ->
  forall n, exists sig, words sig /\ (forall r o k t lt a, Def r o k t lt a ∈ Q -> (rk r < n)%nat -> rtl_stmt Q lib e sig (Def r o k t lt a)).
Proof.
  intros RK n. induction n as [|n (sig & W & S0)].
  - exists (fun _ _ => 0). split; [|intros; lia]. intros v t c H C. split; [lia|]. apply pow_pos. pose proof (ft_proper _ FT _ _ H) as [X _]. lia.
  - destruct (rank_level rk n RK Q sig ltac:(auto) W) as (sig' & W' & A' & S'). exists sig'. split; [exact W'|].
    intros r o k t lt a H L. destruct (Nat.eq_dec (rk r) n) as [En|En]; [eauto|].
    eapply rtl_stmt_ext; [| |exact (S0 _ _ _ _ _ _ H ltac:(lia))].
    + intro c. symmetry. apply A'. exact En.
    + intros x c Hx. symmetry. apply A'. pose proof (RK _ _ _ _ _ _ _ H Hx). lia.
Qed.
Theorem rtl_runs : exists sig, rtl Q e sig.
Proof.
  pose proof (ft_typed _ FT) as T. destruct (pt_rank _ T) as (rk & RK).
  destruct (rank_all rk RK (S (foldr Nat.max 0%nat (map rk (defs Q))))) as (sig & W & ST).
  assert (BD : forall r, r ∈ defs Q -> (rk r < S (foldr Nat.max 0%nat (map rk (defs Q))))%nat).
  { intros r. generalize (defs Q). induction l as [|x l IH]; intro H; [inversion H|]. cbn. apply elem_of_cons in H as [->|H]; [lia|]. specialize (IH H). lia. }
  set (sig' := fun v c => match con_of Q v with Some s => fext (port_type (ty_of Q s), sig s c) (p_width (port_type (ty_of Q v))) | None => sig v c end).
  assert (ND : forall v c, v ∉ dests Q -> sig' v c = sig v c) by (intros v c H; unfold sig'; rewrite con_of_not by exact H; reflexivity).
  exists sig'. split.
  - intros v t c H C. unfold sig'. destruct (con_of Q v) as [s|]; [|eauto]. rewrite (ty_of_has _ _ _ (pt_defs _ T) H). apply mod_word. pose proof (ft_proper _ FT _ _ H) as [X _]. lia.
  - intros [r o k t l a|d s] H.
    + destruct (is_output o) eqn:IO; [destruct o; try discriminate IO; exact Logic.I|].
      eapply rtl_stmt_ext; [| |apply ST; [exact H|apply BD; apply defs_elem; eauto 10]].
      * intro c. symmetry. apply ND. eapply def_not_dest; [exact T|exact H|]. intros sc nm ->. discriminate IO.
      * intros x c Hx. symmetry. apply ND. eapply ft_args; eassumption.
    + destruct (pt_con _ T _ _ H) as [(sc & nm & k & td & l & a & Hd) (ts & Hs)].
      assert (Hd' : has_ty Q d td) by (exists (DOut sc nm), k, l, a; exact Hd). cbn.
      exists td, ts. split; [exact (val_type_has _ _ _ (pt_defs _ T) Hd')|]. split; [exact (val_type_has _ _ _ (pt_defs _ T) Hs)|].
      intros c C. rewrite (ND s) by (eapply ft_srcs; eassumption). unfold sig'. rewrite (con_of_con _ _ _ (pt_dests _ T) H).
      rewrite (ty_of_has _ _ _ (pt_defs _ T) Hd'), (ty_of_has _ _ _ (pt_defs _ T) Hs). unfold f_connect.
      assert (OF : is_signed ts = is_signed td /\ total_bits ts <= total_bits td) by (pose proof (ft_con _ FT _ _ _ _ H Hd' Hs) as X; clear -X; destruct rd; exact X). destruct OF as [O1 O2].
      destruct (proper_port td (ft_proper _ FT _ _ Hd')) as [E1 _], (proper_port ts (ft_proper _ FT _ _ Hs)) as [E2 _]. rewrite E1, E2. cbn.
      rewrite O1, eqb_reflx. replace (total_bits ts <=? total_bits td) with true by (symmetry; apply Z.leb_le; exact O2). reflexivity.
Qed.
End Run.
