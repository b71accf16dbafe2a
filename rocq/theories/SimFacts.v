(** Lemmas behind PropertiesSim.v: folding against simulation, the tick equations in
    plain arithmetic, checkers for concrete kernels. *)
From Coq Require Import ZArith Bool String Lia Relations Permutation.
From stdpp Require Import gmap list.
From Verif Require Import Instance InstanceSpec InstanceFlow Types Word Value OpSpec Graph GraphSpec BuilderProofs BuilderProofs2
     WordProofs Sim SimSpec SimProofs HwSpec TopSort KernelSort BuilderTopo GraphFacts.
Local Open Scope Z_scope.

Lemma num64 x : W x -> num true 64 x = s64 x.
Proof.
  intros _. unfold num, s64. cbn [andb]. change (2 ^ (64 - 1)) with two63. change (2 ^ 64) with two64.
  destruct (Z.leb_spec two63 x), (Z.ltb_spec x two63); lia.
Qed.
Lemma s64_range x : W x -> - two63 <= s64 x < two63.
Proof. unfold W, s64. change (2 ^ 64) with (2 * two63). destruct (Z.ltb_spec x two63); unfold two64, two63 in *; lia. Qed.
Lemma s64_inj x y : W x -> W y -> s64 x = s64 y -> x = y.
Proof.
  unfold W, s64. rewrite <- two64_eq. intros A B.
  destruct (Z.ltb_spec x two63), (Z.ltb_spec y two63); unfold two63, two64 in *; lia.
Qed.
Lemma fits_iff z : fits_s64 z = true <-> - 2 ^ 63 <= z < 2 ^ 63.
Proof. unfold fits_s64. rewrite andb_true_iff, Z.leb_le, Z.ltb_lt. now rewrite two63_eq. Qed.
Lemma b2z_small b : b2z b mod 2 ^ 64 = b2z b.
Proof. destruct b; reflexivity. Qed.
Lemma b2z_fits b : - 2 ^ 63 <= b2z b < 2 ^ 63.
Proof. destruct b; cbn; lia. Qed.

Lemma ret_iff r z : (if fits_s64 r then CV (w64 r) else CUB) = CV z <-> (- 2 ^ 63 <= r < 2 ^ 63 /\ z = r mod 2 ^ 64).
Proof.
  destruct (fits_s64 r) eqn:E.
  - apply fits_iff in E. unfold w64. rewrite two64_eq. split; [intros H; injection H as <-; auto|intros [_ ->]; auto].
  - split; [discriminate|]. intros [H _]. apply fits_iff in H. congruence.
Qed.

Lemma fits_b2z b : (if fits_s64 (b2z b) then CV (w64 (b2z b)) else CUB) = CV (b2z b).
Proof. destruct b; reflexivity. Qed.
(** signed operators: the result of [bin_math] if it fits *)
Lemma c_int_math o x y : W x -> W y -> is_bitwise o = false -> (o = DIV -> y <> 0) ->
  c_int o x y = let r := bin_math o (s64 x) (s64 y) in if fits_s64 r then CV (w64 r) else CUB.
Proof.
  intros Hx Hy Hb Hd. cbv zeta. destruct o; try discriminate Hb; cbn [c_int bin_math]; rewrite ?fits_b2z; try reflexivity.
  destruct (Z.eqb_spec (s64 y) 0) as [E|E]; [|reflexivity]. exfalso. apply (Hd eq_refl).
  apply s64_inj; auto. unfold W; lia.
Qed.
Lemma c_uint_math o x y : W x -> W y -> is_bitwise o = false -> (o = DIV -> y <> 0) ->
  c_uint o x y = CV (w64 (bin_math o x y)).
Proof.
  intros Hx Hy Hb Hd. destruct o; try discriminate Hb; cbn [c_uint bin_math]; try reflexivity;
    unfold w64; rewrite ?two64_eq, ?b2z_small; try reflexivity.
  destruct (Z.eqb_spec y 0) as [E|E]; [now destruct (Hd eq_refl)|]. f_equal. unfold W in *.
  rewrite Z.quot_div_nonneg by lia. symmetry. apply Z.mod_small. split; [apply Z.div_pos; lia|].
  apply Z.div_lt_upper_bound; [lia|]. nia.
Qed.
Lemma c_int_div0 x : c_int DIV x 0 = CUB. Proof. reflexivity. Qed.
Lemma c_uint_div0 x : c_uint DIV x 0 = CUB. Proof. reflexivity. Qed.

Lemma sim_bin_nb F o t x y z : W x -> W y -> is_bitwise o = false ->
  (sim_bin F o t x y = Some (CV z) <->
   match t with
   | TFixed false _ _ => (o = DIV -> y <> 0) /\ z = bin_math o x y mod 2 ^ 64
   | TFixed true _ _ =>
       let r := bin_math o (num true 64 x) (num true 64 y) in
       (o = DIV -> y <> 0) /\ - 2 ^ 63 <= r < 2 ^ 63 /\ z = r mod 2 ^ 64
   | TFloat _ _ => z = fl_bin F o x y
   | TRaw _ => False
   end).
Proof.
  intros Hx Hy Hb. unfold sim_bin. rewrite Hb. cbv zeta.
  assert (Hdec : (o = DIV -> y <> 0) \/ (o = DIV /\ y = 0)).
  { destruct (Z.eq_dec y 0); [|left; auto]. destruct o; auto; left; discriminate. }
  destruct t as [[] i f|e f|n]; cbn [sim_ctype c_bin].
  - rewrite !num64 by auto. destruct Hdec as [Hd|[-> ->]].
    + rewrite (c_int_math o x y Hx Hy Hb Hd). cbv zeta. split.
      * intros H. injection H as H. apply ret_iff in H. auto.
      * intros [_ H]. f_equal. now apply ret_iff.
    + rewrite c_int_div0. split; [discriminate|]. intros [H _]. now destruct (H eq_refl).
  - destruct Hdec as [Hd|[-> ->]].
    + rewrite (c_uint_math o x y Hx Hy Hb Hd). unfold w64. rewrite two64_eq. split.
      * intros H. injection H as H. auto.
      * intros [_ ->]. reflexivity.
    + rewrite c_uint_div0. split; [discriminate|]. intros [H _]. now destruct (H eq_refl).
  - split; [intros H; now injection H|now intros ->].
  - split; [discriminate|intros []].
Qed.
Lemma sim_bin_val F o t x y z : W x -> W y ->
  (sim_bin F o t x y = Some (CV z) <-> bin_val F o t x y z).
Proof.
  intros Hx Hy. destruct (is_bitwise o) eqn:Hb.
  - unfold sim_bin. rewrite Hb. destruct o; try discriminate Hb; cbn [bin_val c_uint];
    (split; [intros H; now injection H|now intros ->]).
  - rewrite sim_bin_nb by auto. destruct o; try discriminate Hb; reflexivity.
Qed.
Lemma sim_un_val F u t x z : W x -> (sim_un F u t x = Some (CV z) <-> un_val F u t x z).
Proof.
  intros Hx. unfold sim_un, un_val. destruct u.
  - unfold c_not. rewrite two64_eq. split; [intros H; now injection H|now intros ->].
  - destruct t as [[] i f|e f|n]; cbn [sim_ctype c_neg].
    + rewrite num64 by auto. split.
      * intros H; injection H as H; apply ret_iff in H as [H ->]. split; [|auto]. intros ->. change (s64 (2 ^ 63)) with (- 2 ^ 63) in H. lia.
      * intros [H ->]. f_equal. apply ret_iff. split; [|auto].
        pose proof (s64_range _ Hx). rewrite two63_eq in H0. assert (s64 x <> - 2 ^ 63); [|lia].
        intros E. apply H. apply s64_inj; [auto|unfold W; lia|]. now rewrite E.
    + unfold w64. rewrite two64_eq. split; [intros H; now injection H|now intros ->].
    + split; [intros H; now injection H|now intros ->].
    + split; [discriminate|intros []].
Qed.

Lemma tick_node_eq F w inp f n : (forall a, a ∈ operands w n -> W (f a)) ->
  (tick_eq F w inp f n <-> node_eq F w inp f n).
Proof.
  intros Hw. split.
  - intros [nd Hn Ho Hi|nd c Hn Ho Hc|nd s rest Hn Ho Hop Hf|nd c arms a Hn Ho Hop Hc Hl Hf
    |nd c arms Hn Ho Hop Hc Hf|nd o t a b rest Hn Ho Hop Ht Hs|nd u t a rest Hn Ho Hop Ht Hs|nd k a rest Hn Ho Hop Hk Hf|nd k a rest Hn Ho Hop Hk Hf];
    try rewrite Hop in Hw; unfold type_of in *; try rewrite Hn in *.
    + eapply ne_in; eauto.
    + eapply ne_const; eauto.
    + eapply ne_out; eauto.
    + assert (W (f c)) by (apply Hw; set_solver). unfold W in *. eapply ne_mux; eauto; lia.
    + eapply ne_mux_wrap; eauto.
    + eapply ne_bin; eauto. apply sim_bin_val; auto; apply Hw; set_solver.
    + eapply ne_un; eauto. apply sim_un_val; auto; apply Hw; set_solver.
    + eapply ne_shl; eauto.
    + eapply ne_shr; eauto.
  - intros [nd Hn Ho Hi|nd c Hn Ho Hc|nd s rest Hn Ho Hop Hf|nd c arms a Hn Ho Hop Hc Hl Hf
    |nd c arms Hn Ho Hop Hc Hf|nd o t a b rest Hn Ho Hop Ht Hs|nd u t a rest Hn Ho Hop Ht Hs|nd k a rest Hn Ho Hop Hk Hf|nd k a rest Hn Ho Hop Hk Hf];
    try rewrite Hop in Hw.
    + eapply te_in; eauto.
    + eapply te_const; eauto.
    + eapply te_out; eauto.
    + eapply te_mux; eauto; lia.
    + eapply te_mux_wrap; eauto.
    + eapply (te_bin _ _ _ _ _ nd o t a b rest); auto; [unfold type_of; rewrite Hn; exact Ht|]. apply sim_bin_val; auto; apply Hw; set_solver.
    + eapply (te_un _ _ _ _ _ nd u t a rest); auto; [unfold type_of; rewrite Hn; exact Ht|]. apply sim_un_val; auto; apply Hw; set_solver.
    + eapply te_shl; eauto.
    + eapply te_shr; eauto.
Qed.

(** ** The tick theorem in terms of [tick_eq] *)
Definition tick_solution F w inp (r : list nat) (f : nat -> Z) : Prop :=
  forall n, n ∈ r -> tick_eq F w inp f n.

Lemma tick_solution_iff F w inp r f : topological w r -> words r f ->
  (tick_solution F w inp r f <-> solution F w inp r f).
Proof.
  intros (_ & Cl & _) Hw. unfold tick_solution, solution.
  split; intros H n Hn; apply tick_node_eq; auto; intros a Ha; apply Hw; eauto.
Qed.

Theorem sim_tick_spec F h w inp r v v' :
  flt_words F -> elaborates F h w -> inp_words inp -> topological w r ->
  (forall n, 0 <= vget v n < 2 ^ 64) -> run_sim F w inp v r = SOk v' ->
  words r (vget v') /\ tick_solution F w inp r (vget v') /\
  (forall f, words r f -> tick_solution F w inp r f -> forall n, n ∈ r -> f n = vget v' n) /\
  (forall n, n ∉ r -> vget v' n = vget v n) /\
  (forall r2 v2, topological w r2 -> Permutation r r2 -> (forall n, 0 <= vget v2 n < 2 ^ 64) ->
     exists v2', run_sim F w inp v2 r2 = SOk v2' /\ forall n, n ∈ r -> vget v2' n = vget v' n).
Proof.
  intros HF R HI T Hv S.
  destruct (sim_kernel F HF h w inp r v v' R HI T Hv S) as (S1 & S2 & S3).
  destruct (elab_good F HF _ _ R) as [G1 G2].
  assert (Wf := elab_WF F _ _ R).
  assert (G3 : forall n nd k, w_nodes w !! n = Some nd -> n_op nd = SHR k \/ n_op nd = SHL k -> 0 <= k).
  { intros n nd k Hn Ho. specialize (G2 n nd k Hn Ho). lia. }
  destruct (run_sim_sound F w inp HF (proj1 Wf) HI G1 G3 r v v' (topological_ordered w r T) Hv S) as (_ & S5 & S4).
  assert (Hw : words r (vget v')) by (intros n _; apply S4).
  split; [exact Hw|]. split; [now apply tick_solution_iff|]. split; [|split; [exact S5|exact S3]].
  intros f Hf Hs. apply S2. now apply tick_solution_iff.
Qed.

Theorem sim_tick_exists F h w inp r v f :
  flt_words F -> elaborates F h w -> inp_words inp -> topological w r ->
  (forall n, 0 <= vget v n < 2 ^ 64) -> words r f -> tick_solution F w inp r f ->
  exists v', run_sim F w inp v r = SOk v' /\ forall n, n ∈ r -> vget v' n = f n.
Proof.
  intros HF R HI T Hv Hf Hs.
  destruct (elab_good F HF _ _ R) as [G1 G2].
  assert (Wf := elab_WF F _ _ R).
  apply tick_solution_iff in Hs; auto.
  assert (G3 : forall n nd k, w_nodes w !! n = Some nd -> n_op nd = SHR k \/ n_op nd = SHL k -> 0 <= k).
  { intros n nd k Hn Ho. specialize (G2 n nd k Hn Ho). lia. }
  apply (run_sim_complete F w inp HF (proj1 Wf) HI G1 G3 f r [] v Hv T Hs).
  intros a Ha. now apply elem_of_nil in Ha.
Qed.

(** ** Folding against simulation *)
Definition foldable (o : bop) (t : dftype) : Prop :=
  is_bitwise o = true \/
  (is_raw t = false /\
   (is_comp o = false \/
    (is_fixed t = true /\ (is_signed t = false \/ o = EQ \/ o = NEQ)))).

Lemma eqb_s64 x y : W x -> W y -> (s64 x =? s64 y) = (x =? y).
Proof.
  intros Hx Hy. destruct (Z.eqb_spec x y) as [->|E]; [apply Z.eqb_refl|].
  apply Z.eqb_neq. intros H. now apply s64_inj in H.
Qed.

Lemma fold_sim_bin F o t x y v : W x -> W y -> foldable o t ->
  fold_bin F o t x y = CV v ->
  sim_bin F o (if is_comp o then TFixed false 1 0 else t) x y = Some (CV v).
Proof.
  intros Hx Hy Hf. unfold fold_bin, sim_bin. destruct (is_bitwise o) eqn:Eb.
  - intros ->. reflexivity.
  - destruct Hf as [Hf|[Hr Hf]]; [congruence|]. destruct (is_comp o) eqn:Ec.
    + destruct Hf as [Hf|[Hfx Hf]]; [discriminate|]. destruct t as [s i f| |]; try discriminate Hfx.
      cbn [sim_ctype c_bin]. destruct s; cbn [kind_by_type c_bin]; [|intros ->; reflexivity].
      destruct Hf as [Hf|[->| ->]]; [discriminate| |]; cbn [c_int c_uint]; rewrite eqb_s64 by auto; intros ->; reflexivity.
    + destruct t as [[] i f|e f|n]; try discriminate Hr; cbn; intros ->; reflexivity.
Qed.
Lemma fold_sim_un F u t x v : (u = NOT \/ is_raw t = false) -> fold_un F u t x = CV v ->
  sim_un F u t x = Some (CV v).
Proof.
  intros Hr. destruct u; cbn; [intros ->; reflexivity|]. destruct Hr as [Hr|Hr]; [discriminate|].
  destruct t as [[] i f|e f|n]; try discriminate Hr; cbn; intros ->; reflexivity.
Qed.

Lemma new_node_operands w w' r k o ty vk name args :
  new_node w w' r k o ty vk name args -> operands w' r = args.
Proof.
  intros (_ & _ & H & _). unfold operands. rewrite H. clear.
  enough (forall f : nat -> nat, map c_src (imap (fun i a => mkChan a r (f i) false) args) = args) by (apply (H id)).
  induction args as [|a l IH]; intros f; [reflexivity|]. cbn. f_equal. apply (IH (f ∘ S)).
Qed.

Lemma process_bin F w inp v n nd o t a b rest : consistent w ->
  w_nodes w !! n = Some nd -> n_op nd = BIN o -> w_types w !! n_ty nd = Some t ->
  operands w n = a :: b :: rest ->
  process F w inp v n = match sim_bin F o t (vget v a) (vget v b) with Some c => of_c c | None => SFail end.
Proof.
  intros C Hn Ho Ht Hop. unfold process. rewrite Hn, Ho, Ht.
  rewrite !(opnd_operands w v n nd) by auto. rewrite Hop. reflexivity.
Qed.
Lemma process_un F w inp v n nd u t a rest : consistent w ->
  w_nodes w !! n = Some nd -> n_op nd = UN u -> w_types w !! n_ty nd = Some t ->
  operands w n = a :: rest ->
  process F w inp v n = match sim_un F u t (vget v a) with Some c => of_c c | None => SFail end.
Proof.
  intros C Hn Ho Ht Hop. unfold process. rewrite Hn, Ho, Ht.
  rewrite !(opnd_operands w v n nd) by auto. rewrite Hop. reflexivity.
Qed.
Lemma process_shift F w inp v n nd (l : bool) k a rest : consistent w ->
  w_nodes w !! n = Some nd -> n_op nd = (if l then SHL else SHR) k ->
  operands w n = a :: rest ->
  process F w inp v n = of_c ((if l then c_shl else c_shr) (vget v a) k).
Proof.
  intros C Hn Ho Hop. unfold process. rewrite Hn, Ho. 
  destruct l; rewrite !(opnd_operands w v n nd) by auto; rewrite Hop; reflexivity.
Qed.

Lemma const_of_fun w n t v t' v' : const_of w n t v -> const_of w n t' v' -> t = t' /\ v = v'.
Proof. intros (nd & A & B & D & E) (nd' & A' & B' & D' & E'). split; congruence. Qed.

(** both operands constant on one side; on the other side the same operator on two
    variables of that type, at least one of them not constant *)
Theorem fold_agrees_bin F h1 w1 o a b t va vb w1' r h2 w2 x y w2' n inp vals :
  flt_words F ->
  elaborates F h1 w1 -> const_of w1 a t va -> (exists tb, const_of w1 b tb vb) ->
  step F w1 (CBin o a b) = Ok (w1', r) -> foldable o t ->
  elaborates F h2 w2 -> type_of w2 x = Some t -> ~ (is_const w2 x /\ is_const w2 y) ->
  step F w2 (CBin o x y) = Ok (w2', n) -> vget vals x = va -> vget vals y = vb ->
  exists v, const_of w1' r t v /\ process F w2' inp vals n = SOk v.
Proof.
  intros HF R1 Ca [tb Cb] S1 Hf R2 Tx Nc S2 Hx Hy.
  assert (Wf1 := elab_WF F _ _ R1). assert (Wf2 := elab_WF F _ _ R2).
  pose proof (elab_good F HF _ _ R1) as G.
  destruct (step_ext F _ _ _ _ S1 Wf1) as [[W1' _] Q1]. destruct (step_ext F _ _ _ _ S2 Wf2) as [[W2' _] Q2].
  cbn [call_post] in Q1, Q2.
  destruct Q1 as [(ta' & tb' & va' & vb' & v & Ca' & Cb' & Hv & Cr & _)|(ta' & _ & Hn & _)].
  2:{ exfalso. apply Hn. destruct Ca as (? & ? & ? & _), Cb as (? & ? & ? & _). split; eexists; eauto. }
  destruct (const_of_fun _ _ _ _ _ _ Ca Ca') as [<- <-]. destruct (const_of_fun _ _ _ _ _ _ Cb Cb') as [_ <-].
  exists v. split; [exact Cr|].
  destruct Q2 as [(tx & ty & ? & ? & ? & Cx & Cy & _)|(tx & Tx' & _ & Hnn)].
  { exfalso. apply Nc. destruct Cx as (? & ? & ? & _), Cy as (? & ? & ? & _). split; eexists; eauto. }
  assert (tx = t) as -> by congruence.
  pose proof (new_node_operands _ _ _ _ _ _ _ _ _ Hnn) as Hop.
  destruct Hnn as (_ & (nd & Hn & Ho & Ht & _) & _ & _).
  rewrite (process_bin F w2' inp vals n nd o _ x y [] (proj1 W2') Hn Ho Ht Hop).
  rewrite Hx, Hy. rewrite (fold_sim_bin F o t va vb v); auto; try (eapply const_of_word; eauto).
Qed.

Theorem fold_agrees_un F h1 w1 u a t va w1' r h2 w2 x w2' n inp vals :
  elaborates F h1 w1 -> const_of w1 a t va ->
  step F w1 (CUn u a) = Ok (w1', r) -> (u = NOT \/ is_raw t = false) ->
  elaborates F h2 w2 -> type_of w2 x = Some t -> ~ is_const w2 x ->
  step F w2 (CUn u x) = Ok (w2', n) -> vget vals x = va ->
  exists v, const_of w1' r t v /\ process F w2' inp vals n = SOk v.
Proof.
  intros R1 Ca S1 Hf R2 Tx Nc S2 Hx.
  assert (Wf1 := elab_WF F _ _ R1). assert (Wf2 := elab_WF F _ _ R2).
  destruct (step_ext F _ _ _ _ S1 Wf1) as [[W1' _] Q1]. destruct (step_ext F _ _ _ _ S2 Wf2) as [[W2' _] Q2].
  cbn [call_post] in Q1, Q2.
  destruct Q1 as [(ta' & va' & v & Ca' & Hv & Cr & _)|(ta' & _ & Hn & _)].
  2:{ exfalso. apply Hn. destruct Ca as (? & ? & ? & _). eexists; eauto. }
  destruct (const_of_fun _ _ _ _ _ _ Ca Ca') as [<- <-].
  exists v. split; [exact Cr|].
  destruct Q2 as [(tx & ? & ? & Cx & _)|(tx & Tx' & _ & Hnn)].
  { exfalso. apply Nc. destruct Cx as (? & ? & ? & _). eexists; eauto. }
  assert (tx = t) as -> by congruence.
  pose proof (new_node_operands _ _ _ _ _ _ _ _ _ Hnn) as Hop.
  destruct Hnn as (_ & (nd & Hn & Ho & Ht & _) & _ & _).
  rewrite (process_un F w2' inp vals n nd u _ x [] (proj1 W2') Hn Ho Ht Hop).
  rewrite Hx. rewrite (fold_sim_un F u t va v); auto.
Qed.

Theorem fold_agrees_shift F h1 w1 l k a t va w1' r h2 w2 x w2' n inp vals :
  elaborates F h1 w1 -> const_of w1 a t va ->
  step F w1 (CShift l a k) = Ok (w1', r) ->
  elaborates F h2 w2 -> type_of w2 x = Some t -> ~ is_const w2 x ->
  step F w2 (CShift l x k) = Ok (w2', n) -> vget vals x = va ->
  exists v, const_of w1' r t v /\ process F w2' inp vals n = SOk v.
Proof.
  intros R1 Ca S1 R2 Tx Nc S2 Hx.
  assert (Wf1 := elab_WF F _ _ R1). assert (Wf2 := elab_WF F _ _ R2).
  destruct (step_ext F _ _ _ _ S1 Wf1) as [[W1' _] Q1]. destruct (step_ext F _ _ _ _ S2 Wf2) as [[W2' _] Q2].
  cbn [call_post] in Q1, Q2.
  destruct Q1 as [(ta' & va' & v & Ca' & (Cr & _) & Hv)|(ta' & _ & Hn & _)].
  2:{ exfalso. apply Hn. destruct Ca as (? & ? & ? & _). eexists; eauto. }
  destruct (const_of_fun _ _ _ _ _ _ Ca Ca') as [<- <-].
  exists v. split; [exact Cr|].
  destruct Q2 as [(tx & ? & ? & Cx & _)|(tx & Tx' & _ & Hnn)].
  { exfalso. apply Nc. destruct Cx as (? & ? & ? & _). eexists; eauto. }
  pose proof (new_node_operands _ _ _ _ _ _ _ _ _ Hnn) as Hop.
  destruct Hnn as (_ & (nd & Hn & Ho & Ht & _) & _ & _).
  rewrite (process_shift F w2' inp vals n nd l _ x [] (proj1 W2') Hn Ho Hop).
  rewrite Hx. destruct l; rewrite Hv; reflexivity.
Qed.

(** ** Checkers for concrete kernels *)
Definition opt_eqb (a : option Z) (b : Z) : bool := match a with Some x => x =? b | None => false end.
Definition hw_eqb (w : world) (inp : string -> option Z) (f : nat -> Z) (n : nat) : bool :=
  match w_nodes w !! n with
  | None => false
  | Some nd =>
    match n_op nd, operands w n with
    | IN, _ => match inp (n_name nd) with Some x => f n =? x mod 2 ^ wd w n | None => false end
    | CONST c, _ => f n =? c mod 2 ^ wd w n
    | OUT, s :: _ => f n =? f s
    | BIN o, a :: b :: _ => negb (f b =? 0) &&
        (f n =? bin_math o (num (sgn w a) (wd w a) (f a)) (num (sgn w b) (wd w b) (f b)) mod 2 ^ wd w n)
    | SHR k, a :: _ => f n =? (num (sgn w a) (wd w a) (f a) / 2 ^ k) mod 2 ^ wd w n
    | _, _ => false
    end
  end.
Lemma hw_eqb_sound w inp f n : hw_eqb w inp f n = true -> hw_eq w inp f n.
Proof.
  unfold hw_eqb. destruct (w_nodes w !! n) as [nd|] eqn:Hn; [|discriminate].
  destruct (n_op nd) eqn:Ho; destruct (operands w n) as [|a [|b rest]] eqn:Hop; try discriminate;
    rewrite ?andb_true_iff, ?negb_true_iff, ?Z.eqb_eq, ?Z.eqb_neq; intros H.
  all: try (destruct (inp (n_name nd)) as [x|] eqn:Hi; [|discriminate]; apply Z.eqb_eq in H; eapply hw_in; eauto; fail).
  all: try (eapply hw_out; eauto; fail).
  all: try (eapply hw_const; eauto; fail).
  all: try (eapply hw_shr; eauto; fail).
  destruct H. eapply hw_bin; eauto.
Qed.
Definition topb (w : world) (r : list nat) : bool :=
  (fix go (seen r : list nat) : bool :=
     match r with
     | [] => true
     | n :: r => forallb (fun a => existsb (Nat.eqb a) seen) (operands w n)
                 && negb (existsb (Nat.eqb n) seen) && go (seen ++ [n]) r
     end) [] r.
Lemma existsb_elem n l : existsb (Nat.eqb n) l = true <-> n ∈ l.
Proof.
  rewrite existsb_exists. rewrite elem_of_list_In. split.
  - intros (x & H & E). apply Nat.eqb_eq in E as ->. exact H.
  - intros H. exists n. split; [exact H|apply Nat.eqb_refl].
Qed.
Lemma topb_sound w r : topb w r = true -> topological w r.
Proof.
  unfold topb. match goal with |- ?go [] r = true -> _ => set (g := go) end.
  assert (G : forall r seen, g seen r = true -> topological w seen -> topological w (seen ++ r)).
  { clear r. induction r as [|n r IH]; intros seen H T; [now rewrite app_nil_r|].
    cbn in H. fold g in H. rewrite !andb_true_iff, negb_true_iff in H. destruct H as [[H1 H2] H3].
    replace (seen ++ n :: r) with ((seen ++ [n]) ++ r) by (now rewrite <- app_assoc).
    apply IH; [exact H3|]. rewrite forallb_forall in H1.
    assert (Hn : n ∉ seen) by (intros Hin; apply existsb_elem in Hin; congruence).
    assert (Ha : forall a, a ∈ operands w n -> a ∈ seen).
    { intros a Ha. apply existsb_elem, H1. now apply elem_of_list_In. }
    destruct T as (Nd & Cl & Or). repeat split.
    - apply NoDup_app. split; [exact Nd|]. split; [|apply NoDup_singleton].
      intros x Hx Hx'. apply elem_of_list_singleton in Hx' as ->. contradiction.
    - intros m a Hm Hin. apply elem_of_app. left. apply elem_of_app in Hm as [Hm|Hm]; [eapply Cl; eauto|].
      apply elem_of_list_singleton in Hm as ->. auto.
    - intros i j a b Hi Hj Hab. apply lookup_app_Some in Hj as [Hj|[Hl Hj]].
      + apply lookup_app_Some in Hi as [Hi|[Hl Hi]]; [eapply Or; eauto|].
        apply list_lookup_singleton_Some in Hi as [Hi <-]. exfalso. apply Hn. eapply Cl; eauto.
        apply elem_of_list_lookup; eauto.
      + apply list_lookup_singleton_Some in Hj as [Hj <-].
        apply lookup_app_Some in Hi as [Hi|[Hl' Hi]]; [apply lookup_lt_Some in Hi; lia|].
        apply list_lookup_singleton_Some in Hi as [Hi <-]. exfalso. apply Hn. auto. }
  intros H. apply (G r []); [exact H|]. repeat split; [apply NoDup_nil_2| |];
    intros *; [intros Hx; apply elem_of_nil in Hx as []|discriminate].
Qed.

(** the order Kernel::simulate uses is topological (feed-forward kernel, with all its sub-kernels merged) *)
Theorem single_kernel_order F h w k g :
  irun F init_world h = Ok w -> idisciplined F init_world h ->
  only_kernel w k -> w_kern w !! k = Some g -> complete w k ->
  forall hash, (forall l, Permutation (hash l) l) -> exists r, sort_by hash w k = Some (TSOk r) /\ topological w r /\ Permutation r (g_nodes g) /\
            forall n, is_Some (w_nodes w !! n) <-> n ∈ r.
Proof.
  intros R D Own Hg Cm hash PH. destruct (irun_forward F _ _ _ R D init_sound init_forward) as [[Wf _ _] [Rk Cl _]].
  destruct (ranked_sorts w k g Wf Rk Cl Hg Cm Own hash PH) as (r & Hr & P & Or).
  exists r. split; [exact Hr|]. destruct Wf as [C _].
  assert (Hin : forall n, is_Some (w_nodes w !! n) <-> n ∈ r).
  { intros n. rewrite P. split.
    - intros [nd Hn]. destruct (cs_owned _ C _ _ Hn) as (g' & Hg' & Hi). rewrite (Own _ _ Hn) in Hg'. congruence.
    - intros Hi. destruct (cs_member _ C _ _ _ Hg Hi) as (nd & Hn & _). eauto. }
  split; [|split; auto]. repeat split.
  - rewrite P. eapply cs_nd_nodes; eauto.
  - intros n a Hn Ha. apply Hin. unfold operands in Ha. apply elem_of_list_fmap in Ha as (ch & -> & Hc).
    unfold in_chans in Hc. destruct (w_nodes w !! n) as [nd|]; [|now apply elem_of_nil in Hc].
    apply elem_of_list_omap in Hc as (c & _ & Hc). destruct (cs_src _ C _ _ Hc) as (nd' & Hn' & _). eauto.
  - exact Or.
Qed.

(** simple sufficient checks used by the examples *)
Definition is_fixb (w : world) (n : nat) : bool :=
  match type_of w n with Some (TFixed _ _ _) => true | _ => false end.
Definition ring_nodeb (w : world) (n : nat) : bool :=
  match w_nodes w !! n with
  | None => false
  | Some nd => (0 <=? wd w n) && (wd w n <=? 64) && is_fixb w n &&
      match n_op nd with
      | IN | CONST _ => true
      | OUT | UN _ => forallb (fun a => wd w a =? wd w n) (operands w n)
      | SHL k => (0 <=? k) && forallb (fun a => wd w a =? wd w n) (operands w n)
      | BIN o => ring_op o && forallb (fun a => wd w a =? wd w n) (operands w n)
      | _ => false
      end
  end.
Lemma forallb_wd w n l : forallb (fun a => wd w a =? wd w n) l = true -> forall a, a ∈ l -> wd w a = wd w n.
Proof. rewrite forallb_forall. intros H a Ha. apply Z.eqb_eq, H. now apply elem_of_list_In. Qed.
Lemma ring_nodeb_sound w v n : ring_nodeb w n = true -> ring_node w v n.
Proof.
  unfold ring_nodeb, ring_node. destruct (w_nodes w !! n) as [nd|]; [|discriminate].
  rewrite !andb_true_iff, !Z.leb_le. intros [[[A B] C] D]. exists nd. split; [reflexivity|]. split; [lia|].
  assert (Fx : fixed w n).
  { unfold is_fixb in C. unfold fixed. destruct (type_of w n) as [[]|]; try discriminate. eauto. }
  destruct (n_op nd); try discriminate; try exact I.
  - split; [exact Fx|]. now apply forallb_wd.
  - apply andb_true_iff in D as [D1 D2]. split; [exact Fx|]. split; [exact D1|]. now apply forallb_wd.
  - split; [exact Fx|]. now apply forallb_wd.
  - apply andb_true_iff in D as [D1 D2]. apply Z.leb_le in D1. split; [exact D1|]. now apply forallb_wd.
Qed.
Definition exact_nodeb (w : world) (inp : string -> option Z) (f : nat -> Z) (n : nat) : bool :=
  match w_nodes w !! n with
  | None => false
  | Some nd => (0 <=? wd w n) && (wd w n <=? 64) &&
      match type_of w n with Some (TFixed false _ _) => true | _ => false end &&
      match n_op nd, operands w n with
      | IN, _ => match inp (n_name nd) with Some x => x <? 2 ^ wd w n | None => true end
      | CONST c, _ => c <? 2 ^ wd w n
      | OUT, l => forallb (fun a => wd w a <=? wd w n) l
      | SHR k, l => (0 <=? k) && forallb (fun a => wd w a <=? wd w n) l
      | BIN o, a :: b :: _ => (0 <=? bin_math o (f a) (f b)) && (bin_math o (f a) (f b) <? 2 ^ wd w n)
      | _, _ => false
      end
  end.
Lemma forallb_wd_le w n l : forallb (fun a => wd w a <=? wd w n) l = true -> forall a, a ∈ l -> wd w a <= wd w n.
Proof. rewrite forallb_forall. intros H a Ha. apply Z.leb_le, H. now apply elem_of_list_In. Qed.
Lemma exact_nodeb_sound w inp f n : exact_nodeb w inp f n = true -> exact_node w inp f n.
Proof.
  unfold exact_nodeb, exact_node. destruct (w_nodes w !! n) as [nd|]; [|discriminate].
  rewrite !andb_true_iff, !Z.leb_le. intros [[[A B] C] D].
  destruct (type_of w n) as [[[] i fr| |]|]; try discriminate C.
  exists nd, i, fr. split; [reflexivity|]. split; [lia|]. split; [reflexivity|].
  destruct (n_op nd); destruct (operands w n) as [|a [|b rest]] eqn:Eo; try discriminate D.
  all: try (destruct (inp (n_name nd)) as [x|]; [|intros; discriminate]; apply Z.ltb_lt in D;
            intros y Hy; injection Hy as <-; exact D).
  all: try (now apply forallb_wd_le).
  all: try (apply Z.ltb_lt in D; exact D).
  all: try (apply andb_true_iff in D as [D1 D2]; apply Z.leb_le in D1; split; [exact D1|now apply forallb_wd_le]; fail).
  apply andb_true_iff in D as [D1 D2]. apply Z.leb_le in D1. apply Z.ltb_lt in D2. exists a, b, rest. auto.
Qed.
