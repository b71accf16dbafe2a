(** The generated circuit is a circuit for the scheduled program (proofs). *)
From Coq Require Import ZArith Bool String Lia.
From stdpp Require Import gmap list.
From Verif Require Import Types Word Value OpSpec Graph GraphSpec TypesProofs TypingSpec TypingProofs Dfcir StreamSpec HwSpec HwProofs Verilog Stubs Naming StubsSpec StubsProofs StubsFacts NamingProofs Firrtl Lower
     Sched DfcirProofs ProgTyping LibraryFacts RtlSpec FirrtlProofs.
Local Open Scope Z_scope.

Lemma pos_latency_max l : pos_latency l = Z.max 0 l.
Proof. unfold pos_latency. destruct (Z.leb_spec 0 l); lia. Qed.
Lemma pos_latency_idem l : pos_latency (pos_latency l) = pos_latency l.
Proof. rewrite !pos_latency_max. lia. Qed.
Lemma lib_pos o ts t lat m : lib_module o ts t lat m -> lib_module o ts t (pos_latency lat) m.
Proof.
  intros (n & p & l & E & G). exists n, p, l. split; [|exact G]. rewrite <- E. unfold ext_module, module_name, fifo_name, op_name.
  rewrite !pos_latency_idem. reflexivity.
Qed.
Lemma delay_pos o l : is_scheduled o = true -> delay o l = pos_latency l.
Proof. intro H. unfold delay. rewrite H, pos_latency_max. reflexivity. Qed.

(** inputs of an instance with operand types [ts] *)
Definition ports_ok (ts : list dftype) (x : vname -> Z) : Prop :=
  match ts with
  | [t1] => word (p_width (port_type t1)) (x ARG1)
  | [t1; t2] => two_words (p_width (port_type t1)) (p_width (port_type t2)) x
  | _ => False
  end.
Definition port_vals (ts : list dftype) (x : vname -> Z) : list hval :=
  match ts with
  | [t1] => [(kind t1, x ARG1)]
  | [t1; t2] => [(kind t1, x ARG1); (kind t2, x ARG2)]
  | _ => []
  end.

Lemma delivers_ext m (ok ok' : _ -> Prop) lat f g : delivers m ok lat f -> (forall x, ok' x -> ok x) -> (forall x, ok' x -> f x = g x) -> delivers m ok' lat g.
Proof.
  intros D H E ins OK. destruct (D ins (fun t => H _ (OK t))) as [A B]. split; [exact A|]. intros R RR t. rewrite <- E by apply OK. apply B. exact RR.
Qed.

Lemma fifo_any t a lat m m' : lib_module DLatency [t] t lat m -> lib_module DLatency [a] t lat m' -> m = m'.
Proof.
  intros (n & p & l & E & G) (n' & p' & l' & E' & G'). destruct (gen_fifo t t lat) as (x & X & Y), (gen_fifo t a lat) as (x' & X' & Y').
  rewrite X in E. rewrite X' in E'. injection E as <- <- <-. injection E' as <- <- <-. congruence.
Qed.

Lemma inst_intended e o t ts lat m : covered o = true -> dtyping o t ts -> op_fits (opk_of o) t ts (pos_latency lat) ->
  proper t -> Forall proper ts -> (o = DLatency -> 1 <= lat) -> lib_module o ts t lat m ->
  exists f, delivers m (ports_ok ts) (delay o lat) f /\
    forall x y, ports_ok ts x -> d_op (hw e) o t (port_vals ts x) = Some y -> y = (kind t, f x).
Proof.
  intros CV DT FT PT PS LL LM. apply lib_pos in LM. set (pl := pos_latency lat) in *. assert (PL : 0 <= pl) by (unfold pl; rewrite pos_latency_max; lia).
  assert (DL : delay o lat = pl) by (apply delay_pos; destruct o as [| | | | |b|[]| | | | | |]; try discriminate CV; try reflexivity; destruct b; try discriminate CV; reflexivity).
  rewrite DL. destruct (proper_port t PT) as [EP BW]. destruct o as [sc nm|sc nm|c|f0| |b|u| |n|n|l r| |]; try discriminate CV; cbn in DT.
  - destruct DT as (t1 & t2 & -> & ET). apply Forall_cons in PS as [P1 PS']. apply Forall_cons in PS' as [P2 _].
    assert (TE : kind t = kind (if is_comp b then TFixed false 1 0 else t1)) by (destruct (is_comp b); congruence).
    destruct (proper_port t1 P1) as [E1 B1], (proper_port t2 P2) as [E2 B2].
    assert (NB : is_bitwise b = false) by (destruct b; try discriminate CV; reflexivity). cbn in FT. rewrite NB in FT.
    assert (AC : is_arith b = true \/ is_compare b = true) by (destruct b; try discriminate CV; cbn; auto).
    set (s1 := is_signed t1) in *. set (s2 := is_signed t2) in *. set (w1 := total_bits t1) in *. set (w2 := total_bits t2) in *.
    assert (LG : bin_legal b s1 pl /\ bin_cond b s1 s2 w1 w2).
    { unfold bin_legal, bin_cond, cmp_cond, arith_cond. destruct (is_compare b); [split; [auto|exact FT]|]. destruct FT as (_ & F1 & F2). split; [destruct F1; auto|exact F2]. }
    destruct LG as [LG BC]. destruct (bin_delivers b s1 w1 s2 w2 pl AC ltac:(lia) ltac:(lia) PL LG BC) as (m' & LM' & DV).
    destruct (lib_vop_some b AC) as (v & V & _).
    assert (RT : port_type (result_type b (int_type s1 w1)) = port_type (if is_comp b then TFixed false 1 0 else t1)).
    { unfold result_type. rewrite compare_bool. destruct (is_comp b); [reflexivity|]. rewrite port_int, E1. reflexivity. }
    assert (m' = m) as ->.
    { pose proof (lib_fun _ _ _ _ _ _ LM' (lib_bin b v _ _ _ pl V NB PL)) as X1.
      pose proof (lib_fun _ _ _ _ _ _ LM (lib_bin b v _ _ _ pl V NB PL)) as X2.
      rewrite X1, X2, RT, !port_int, E1, E2, (port_kind _ _ TE). reflexivity. }
    exists (exact_result b s1 w1 s2 w2). split.
    + eapply delivers_ext; [exact DV| |reflexivity]. intros x X. cbn in X. rewrite E1, E2 in X. exact X.
    + intros x y X H. cbn in H. destruct (_ && _); [discriminate|]. assert (b <> DIV) by (intros ->; discriminate CV).
      replace (match b with DIV => _ | _ => false end) with false in H by (destruct b; congruence). injection H as <-. f_equal.
      rewrite !kind_num by assumption. unfold exact_result, h_num. cbn [fst snd]. fold s1 s2 w1 w2. rewrite (same_kind_bits _ _ TE PT), <- compare_bool. unfold result_width.
      destruct (is_compare b); reflexivity.
  - destruct DT as (a & ->). inversion PS as [|? ? P1 _]. subst. destruct (proper_port a P1) as [E1 B1]. cbn in FT.
    set (s1 := is_signed a) in *. set (w1 := total_bits a) in *. set (s2 := is_signed t) in *. set (w2 := total_bits t) in *.
    pose proof (lib_cast (int_type s2 w2) (int_type s1 w1) pl PL) as LM'. rewrite !port_int in LM'.
    assert (EM : m = cast_module (mkP s2 w2) (mkP s1 w1) pl).
    { rewrite (lib_fun _ _ _ _ _ _ LM (lib_cast _ _ pl PL)), EP, E1. reflexivity. }
    rewrite <- EM in LM'. apply (cast_exact s1 w1 s2 w2 pl m ltac:(lia) ltac:(lia) PL) in LM'.
    assert (DV := proj2 LM'). eexists. split.
    + eapply delivers_ext; [apply DV| |reflexivity].
      * destruct FT as [FT|[F1 F2]]; [left; exact FT|right]. split; [exact F1|]. destruct F2; [left; lia|auto].
      * intros x X. cbn in X. rewrite E1 in X. exact X.
    + intros x y X H. cbn in H. destruct (_ || _); [discriminate|]. injection H as <-. rewrite kind_num by exact P1. reflexivity.
  - destruct DT as (a & -> & KA). specialize (LL eq_refl). assert (EL : pl = lat) by (unfold pl; rewrite pos_latency_max; lia).
    destruct (fifo_delivers t pl ltac:(rewrite EP; cbn; lia) ltac:(lia)) as (m' & LM' & DV). rewrite (fifo_any _ _ _ _ _ LM' LM) in DV.
    exists (fun x => x ARG1). split; [eapply delivers_ext; [exact DV| |reflexivity]; intros x X; cbn in X; rewrite (port_kind _ _ KA) in X; exact X|].
    intros x y X H. cbn in H. injection H as <-. rewrite KA. reflexivity.
Qed.

(** ** The same for the operators as they are built *)
Definition actual_result (o : bop) (s1 : bool) (w1 : Z) (s2 : bool) (w2 : Z) (x : vname -> Z) : Z :=
  if is_compare o then bin_math o (num (s1 && s2) (Z.max w1 w2) (x ARG1)) (num (s1 && s2) (Z.max w1 w2) (x ARG2)) mod 2 ^ 1
  else bin_math o (num s1 w1 (x ARG1)) (num s1 w2 (x ARG2)) mod 2 ^ w1.
Lemma bin_actual o s1 w1 s2 w2 lat : is_arith o = true \/ is_compare o = true -> 1 <= w1 -> 1 <= w2 -> 0 <= lat -> bin_legal o s1 lat ->
  exists m, lib_module (DBin o) [int_type s1 w1; int_type s2 w2] (result_type o (int_type s1 w1)) lat m /\
    delivers m (two_words w1 w2) lat (actual_result o s1 w1 s2 w2).
Proof.
  intros O P1 P2 L LG. destruct (lib_vop_some o O) as (v & V & BW & B & R).
  eexists. split; [apply (lib_bin o v); assumption|]. rewrite !port_int.
  pose proof (bin_ok_of o v s1 w1 s2 w2 lat R P1 P2 L LG) as OK.
  intros ins OKI. split.
  - intros init II. apply bin_exists'; [exact OK| |exact II]. intros t. destruct (OKI t). split; assumption.
  - intros Rn RN t. rewrite (bin_run v _ _ _ lat ins Rn OK RN); [|intros u; destruct (OKI u); split; assumption].
    destruct (OKI t) as [X Y]. unfold actual_result, body, result_type. rewrite R.
    destruct (is_compare o) eqn:IC; unfold bool_type; rewrite port_int; cbn [p_width p_signed].
    + unfold prep. rewrite R. cbn [p_width p_signed]. rewrite B. reflexivity.
    + rewrite mod_mod_le by (unfold pw; cbn; lia). rewrite <- B. apply ring_math_mod; [apply ring_vop; congruence|lia| |]; unfold prep; rewrite R; cbn [p_width p_signed];
        apply mod_mod_le; unfold pw; cbn; lia.
Qed.
Lemma cast_actual s1 w1 s2 w2 lat : 1 <= w1 -> 1 <= w2 -> 0 <= lat -> w2 <= w1 \/ lat = 0 \/ s2 = false ->
  delivers (cast_module (mkP s2 w2) (mkP s1 w1) lat) (fun x => word w1 (x ARG1)) lat (fun x => num s2 w1 (x ARG1) mod 2 ^ w2).
Proof.
  intros P1 P2 L C ins OK. split.
  - intros init II. apply cast_exists'; auto.
  - intros R RN t. rewrite (cast_run (mkP s2 w2) (mkP s1 w1) lat ins R) by auto. unfold cast_word. cbn [p_width p_signed].
    pose proof (OK t) as X. cbn in X. set (x := ins t ARG1) in *. set (y := ins (t + Z.to_nat lat)%nat ARG1).
    assert (E : forall k, 0 <= k <= w1 -> num s2 w1 x mod 2 ^ k = x mod 2 ^ k).
    { intros k Hk. rewrite <- (mod_mod_le (num s2 w1 x) k w1) by lia. rewrite num_mod by lia. apply mod_mod_le. lia. }
    destruct (Z.le_gt_cases w2 w1) as [W|W].
    + rewrite Z.max_r by lia. change (2 ^ 0 - 1) with 0. rewrite Z.mul_0_r, Z.mul_0_l, Z.add_0_l. symmetry. apply E. lia.
    + rewrite Z.max_l by lia. destruct C as [C|[C|C]]; [lia| |].
      * subst lat. assert (y = x) as -> by (unfold y, x; f_equal; lia). pose proof (ext_value s2 w1 (w2 - w1) x P1 ltac:(lia) X) as V. change (2 ^ 1 - 1) with 1 in V.
        rewrite Z.mul_1_r, Z.div_1_r in V. rewrite V. replace (w2 - w1 + w1) with w2 by lia. apply Z.mod_mod. pose proof (Z.pow_pos_nonneg 2 w2). lia.
      * subst s2. unfold ones. cbn [andb]. rewrite !Z.mul_0_l, Z.add_0_l. reflexivity.
Qed.
Lemma inst_actual e o t ts lat m : covered o = true -> dtyping o t ts -> act_fits (opk_of o) t ts (pos_latency lat) ->
  proper t -> Forall proper ts -> (o = DLatency -> 1 <= lat) -> lib_module o ts t lat m ->
  exists f, delivers m (ports_ok ts) (delay o lat) f /\
    forall x y, ports_ok ts x -> d_op (hw_as Actual e) o t (port_vals ts x) = Some y -> y = (kind t, f x).
Proof.
  intros CV DT FT PT PS LL LM0. pose proof LM0 as LM. apply lib_pos in LM. set (pl := pos_latency lat) in *. assert (PL : 0 <= pl) by (unfold pl; rewrite pos_latency_max; lia).
  assert (DL : delay o lat = pl) by (apply delay_pos; destruct o as [| | | | |b|[]| | | | | |]; try discriminate CV; try reflexivity; destruct b; try discriminate CV; reflexivity).
  rewrite DL. destruct (proper_port t PT) as [EP BW]. destruct o as [sc nm|sc nm|c|f0| |b|u| |n|n|l r| |]; try discriminate CV; cbn in DT.
  - destruct DT as (t1 & t2 & -> & ET). apply Forall_cons in PS as [P1 PS']. apply Forall_cons in PS' as [P2 _].
    assert (TE : kind t = kind (if is_comp b then TFixed false 1 0 else t1)) by (destruct (is_comp b); congruence).
    destruct (proper_port t1 P1) as [E1 B1], (proper_port t2 P2) as [E2 B2].
    assert (NB : is_bitwise b = false) by (destruct b; try discriminate CV; reflexivity). cbn in FT. rewrite NB in FT.
    assert (AC : is_arith b = true \/ is_compare b = true) by (destruct b; try discriminate CV; cbn; auto).
    assert (LG : bin_legal b (is_signed t1) pl).
    { unfold bin_legal. destruct (is_compare b); [auto|]. destruct FT as (_ & F1). destruct F1; auto. }
    destruct (bin_actual b (is_signed t1) (total_bits t1) (is_signed t2) (total_bits t2) pl AC ltac:(lia) ltac:(lia) PL LG) as (m' & LM' & DV).
    destruct (lib_vop_some b AC) as (v & V & _).
    assert (RT : port_type (result_type b (int_type (is_signed t1) (total_bits t1))) = port_type (if is_comp b then TFixed false 1 0 else t1)).
    { unfold result_type. rewrite compare_bool. destruct (is_comp b); [reflexivity|]. rewrite port_int, E1. reflexivity. }
    assert (m' = m) as ->.
    { pose proof (lib_fun _ _ _ _ _ _ LM' (lib_bin b v _ _ _ pl V NB PL)) as X1.
      pose proof (lib_fun _ _ _ _ _ _ LM (lib_bin b v _ _ _ pl V NB PL)) as X2.
      rewrite X1, X2, RT, !port_int, E1, E2, (port_kind _ _ TE). reflexivity. }
    exists (actual_result b (is_signed t1) (total_bits t1) (is_signed t2) (total_bits t2)). split.
    + eapply delivers_ext; [exact DV| |reflexivity]. intros x X. cbn in X. rewrite E1, E2 in X. exact X.
    + intros x y X H. cbn in H. rewrite NB in H. destruct (_ || _); [discriminate|]. unfold actual_result.
      rewrite (same_kind_bits _ _ TE PT), (kind_signed _ _ TE), compare_bool in *.
      destruct (kind_proper t1 P1) as [K1 _], (kind_proper t2 P2) as [K2 _]. rewrite K1, K2, !(kind_signed (kind _) _ (kind_idem _)) in H.
      destruct (is_comp b) eqn:IC; [injection H as <-; reflexivity|]. destruct (is_arith b); [|discriminate]. injection H as <-. reflexivity.
  - destruct DT as (a & ->). inversion PS as [|? ? P1 _]. subst. destruct (proper_port a P1) as [E1 B1]. cbn in FT.
    assert (EM : m = cast_module (mkP (is_signed t) (total_bits t)) (mkP (is_signed a) (total_bits a)) pl).
    { rewrite (lib_fun _ _ _ _ _ _ LM (lib_cast _ _ pl PL)), EP, E1. reflexivity. }
    assert (DV := cast_actual (is_signed a) (total_bits a) (is_signed t) (total_bits t) pl ltac:(lia) ltac:(lia) PL ltac:(destruct FT as [|[|]]; auto; right; left; lia)). rewrite <- EM in DV.
    eexists. split.
    + eapply delivers_ext; [apply DV| |reflexivity]. intros x X. cbn in X. rewrite E1 in X. exact X.
    + intros x y X H. cbn in H. destruct (_ || _); [discriminate|]. injection H as <-. rewrite (proj1 (kind_proper a P1)). reflexivity.
  - apply (inst_intended e DLatency t ts lat m CV DT Logic.I PT PS LL) in LM0 as (f & D1 & D2). rewrite DL in D1. exists f. split; [exact D1|exact D2].
Qed.
Theorem inst_correct r e o t ts lat m : covered o = true -> dtyping o t ts -> fits_as r (opk_of o) t ts (pos_latency lat) ->
  proper t -> Forall proper ts -> (o = DLatency -> 1 <= lat) -> lib_module o ts t lat m ->
  exists f, delivers m (ports_ok ts) (delay o lat) f /\
    forall x y, ports_ok ts x -> d_op (hw_as r e) o t (port_vals ts x) = Some y -> y = (kind t, f x).
Proof. destruct r; [apply inst_intended|apply inst_actual]. Qed.
Theorem prim_as r e o t ts lat xs y :
  base_name o = None -> is_oper o = true -> dtyping o t ts -> fits_as r (match o with DMux => MUX | _ => opk_of o end) t ts lat ->
  proper t -> Forall2 arg_ok ts xs -> d_op (hw_as r e) o t (zip (map kind ts) xs) = Some y ->
  exists ex, lower o (map port_type ts) (port_type t) = Some ex /\
    feval (zip (map port_type ts) xs) ex = Some (port_type t, snd y) /\ fst y = kind t.
Proof.
  intros BN OP DT FT PT A E. destruct r; [eapply prim_correct; eassumption|].
  destruct o as [sc nm|sc nm|c|f| |b|u| |n|n|l r| |]; try discriminate BN; try discriminate OP;
    try (eapply (prim_correct e _ t _ lat); [exact BN|exact OP|exact DT|exact FT|exact PT|exact A|exact E]).
  - assert (BB : is_bitwise b = true) by (destruct b; try discriminate BN; reflexivity). pose proof DT as DT0. cbn in DT. destruct DT as (t1 & t2 & -> & ET).
    inversion A as [|? x ? ? H1 A']. subst. inversion A' as [|? z ? ? H2 A'']. subst. inversion A''. subst. cbn in FT, E. rewrite BB in FT, E.
    eapply (prim_correct e (DBin b) t _ lat); [exact BN|exact OP|exact DT0|cbn; rewrite BB; exact FT|exact PT|exact A|cbn; rewrite BB; exact E].
  - pose proof DT as DT0. destruct DT as (a & -> & KA). inversion A as [|? x ? ? H1 A']. subst. inversion A'. subst. cbn in FT, E. destruct FT as [N FS]. destruct (is_signed t) eqn:ST.
    + destruct FS as [|W2]; [discriminate|]. destruct H1 as [_ X1]. destruct (proper_port t PT) as [EP BW]. rewrite (port_kind _ _ KA), EP in X1. cbn in X1.
      injection E as <-. eexists. split; [reflexivity|]. split; [|reflexivity]. cbn [map zip zip_with snd]. rewrite (port_kind _ _ KA), EP, ST. apply shl_signed; (exact X1 || lia).
    + eapply (prim_correct e (DShl n) t _ lat); [exact BN|exact OP|exact DT0|cbn; split; assumption|exact PT|exact A|exact E].
Qed.

(** ** From the circuit to the program *)
Definition dopk (o : dop) : opk := match o with DMux => MUX | _ => opk_of o end.
Definition ty_of (Q : program) (v : nat) : dftype := match val_type Q v with Some t => t | None => TRaw 0 end.
(** a connected output shows the value of its source *)
Definition view (Q : program) (sig : nat -> Z -> Z) (v : nat) (c : Z) : hval :=
  match con_of Q v with Some s => (kind (ty_of Q s), sig s c) | None => (kind (ty_of Q v), sig v c) end.

Record rtl_ready (r : reading) (Q : program) : Prop := {
  rr_typed : ptyped Q;
  rr_proper : forall v t, has_ty Q v t -> proper t;
  rr_fits : forall v o k t l a ts, Def v o k t l a ∈ Q -> is_oper o = true -> Forall2 (has_ty Q) a ts -> fits_as r (dopk o) t ts (pos_latency l);
  rr_buf : forall r k t l a, Def r DLatency k t l a ∈ Q -> 1 <= l;
  rr_args : forall r o k t l a x, Def r o k t l a ∈ Q -> x ∈ a -> x ∉ dests Q;
  rr_srcs : forall d s, Con d s ∈ Q -> s ∉ dests Q
}.

Lemma con_of_not Q v : v ∉ dests Q -> con_of Q v = None.
Proof. intro H. destruct (con_of Q v) as [s|] eqn:E; [|reflexivity]. exfalso. apply H. apply dests_elem. exists s. apply con_of_in. exact E. Qed.
Lemma ty_of_has Q v t : NoDup (defs Q) -> has_ty Q v t -> ty_of Q v = t.
Proof. intros N H. unfold ty_of. rewrite (val_type_has _ _ _ N H). reflexivity. Qed.
Lemma def_not_dest Q r o k t l a : ptyped Q -> Def r o k t l a ∈ Q -> (forall sc nm, o <> DOut sc nm) -> r ∉ dests Q.
Proof.
  intros T H NO X. apply dests_elem in X as (s & X). destruct (pt_con _ T _ _ X) as [(sc & nm & k' & t' & l' & a' & Y) _].
  pose proof (def_unique _ _ _ _ _ _ _ _ _ _ _ _ (pt_defs _ T) H Y) as Z. injection Z as E _ _ _ _. exact (NO _ _ (eq_sym E)).
Qed.
Lemma view_own Q sig v t c : ptyped Q -> v ∉ dests Q -> has_ty Q v t -> view Q sig v c = (kind t, sig v c).
Proof. intros T N H. unfold view. rewrite con_of_not by exact N. rewrite (ty_of_has _ _ _ (pt_defs _ T) H). reflexivity. Qed.
Lemma view_args Q sig c : ptyped Q -> forall a ts, (forall x, x ∈ a -> x ∉ dests Q) -> Forall2 (has_ty Q) a ts ->
  map (fun x => view Q sig x c) a = zip (map kind ts) (map (fun x => sig x c) a).
Proof.
  intros T a ts N F. induction F as [|x t a ts H F IH]; [reflexivity|]. cbn. rewrite (view_own _ _ _ t) by (auto using elem_of_list_here || (apply N; left)).
  f_equal. apply IH. intros y Hy. apply N. right. exact Hy.
Qed.
Lemma args_ok_sig Q e sig c : ptyped Q -> (forall v t, has_ty Q v t -> proper t) -> rtl Q e sig -> 0 <= c ->
  forall a ts, Forall2 (has_ty Q) a ts -> Forall2 arg_ok ts (map (fun x => sig x c) a).
Proof.
  intros T PR [W _] C a ts F. induction F as [|x t a ts H F IH]; [constructor|]. cbn. constructor; [|exact IH]. split; [eauto|]. eapply W; eassumption.
Qed.
Lemma fir_args_zip ts sig : forall a c, length a = length ts -> fir_args ts sig a c = zip (map port_type ts) (map (fun x => sig x c) a).
Proof. unfold fir_args. induction ts as [|t ts IH]; intros [|x a] c L; try discriminate L; [reflexivity|]. cbn. f_equal. apply IH. cbn in L. lia. Qed.
Lemma covered_named o ts t lat name : module_name o ts t lat = Some name -> o <> DBin DIV -> o <> DUn NEG -> covered o = true.
Proof.
  destruct o as [sc nm|sc nm|c|f0| |b|u| |n|n|l r| |]; cbn; try discriminate; auto; destruct b || destruct u; cbn; congruence.
Qed.
Lemma unnamed_base o ts t lat : module_name o ts t lat = None -> base_name o = None.
Proof. destruct o; cbn; try discriminate; auto. all: match goal with |- context [match ?x with _ => _ end] => destruct x end; cbn; congruence. Qed.
Lemma base_delay o l : base_name o = None -> is_oper o = true -> delay o l = 0.
Proof.
  intros B O. unfold delay. destruct o as [sc nm|sc nm|c|f0| |b|u| |n|n|l0 r| |]; cbn in *; try discriminate; auto; destruct b || destruct u; try discriminate; reflexivity.
Qed.

Theorem rtl_circuit r Q e sig : rtl_ready r Q -> rtl Q e sig -> circuit (hw_as r e) Q (view Q sig).
Proof.
  intros [T PR FT BU AR SR] RT. pose proof RT as [WD ST]. intros s Hs. specialize (ST s Hs).
  destruct s as [v o k t l a|d s].
  2: { cbn in ST |- *. intros c C. unfold view at 1. rewrite (con_of_con _ _ _ (pt_dests _ T) Hs). destruct (pt_con _ T _ _ Hs) as [_ (t & H)].
       rewrite (view_own _ _ _ t _ T (SR _ _ Hs) H). rewrite (ty_of_has _ _ _ (pt_defs _ T) H). reflexivity. }
  assert (OWN : (forall sc nm, o <> DOut sc nm) -> forall c, view Q sig v c = (kind t, sig v c)).
  { intros NO c. apply view_own; [exact T|eapply def_not_dest; eassumption|]. exists o, k, l, a. exact Hs. }
  assert (GEN : is_oper o = true -> (exists ts, val_types Q a = Some ts /\
      match module_name o ts t l with
      | Some name => exists m R, In (name, m) (gen_library (ext_modules Q)) /\ vrun m (inst_ports sig a) R /\ forall c, sig v (Z.of_nat c) = vout R c
      | None => exists ex, lower o (map port_type ts) (port_type t) = Some ex /\ forall c, 0 <= c ->
                  match feval (fir_args ts sig a c) ex with Some (p, x) => p = port_type t /\ sig v c = x | None => True end
      end) -> forall c x, 0 <= c -> d_op (hw_as r e) o t (map (fun x => view Q sig x c) a) = Some x -> view Q sig v (c + delay o l) = x).
  { intros OP (ts & VT & H) c x C D. rewrite OWN by (intros sc nm ->; discriminate OP).
    destruct (pt_args _ T _ _ _ _ _ _ Hs) as (ts' & F2 & DT). rewrite (val_types_has _ _ _ (pt_defs _ T) F2) in VT. injection VT as ->.
    assert (FTS := FT _ _ _ _ _ _ _ Hs OP F2). assert (LN := Forall2_length _ _ _ F2).
    assert (PT : proper t) by (eapply PR; exists o, k, l, a; exact Hs).
    rewrite (view_args _ _ _ T a ts) in D; [|intros y Hy; eapply AR; eassumption|exact F2].
    destruct (module_name o ts t l) as [name|] eqn:EN.
    - destruct H as (m & R & HI & HR & HO).
      assert (CV : covered o = true).
      { eapply covered_named; [exact EN| |]; intros ->; cbn in DT.
        - destruct DT as (t1 & t2 & -> & _). destruct r; cbn in FTS; destruct FTS as [FF _]; discriminate FF.
        - destruct r; exact FTS. }
      destruct (library_complete _ _ _ _ _ _ _ T Hs CV) as (ts' & name' & m' & F2' & EN' & HI' & UN & LM).
      assert (ts' = ts) as -> by (pose proof (val_types_has _ _ _ (pt_defs _ T) F2) as X1; rewrite (val_types_has _ _ _ (pt_defs _ T) F2') in X1; congruence).
      rewrite EN in EN'. injection EN' as <-. assert (m = m') as -> by (apply UN; exact HI).
      assert (PS : Forall proper ts).
      { apply Forall_forall. intros x0 Hx0. apply elem_of_list_lookup in Hx0 as (i & Hi). destruct (Forall2_lookup_r _ _ _ _ _ F2 Hi) as (y & _ & Y). eapply PR. exact Y. }
      assert (OK1 : dopk o = opk_of o) by (destruct o; try discriminate CV; reflexivity). rewrite OK1 in FTS.
      destruct (inst_correct r e o t ts l m' CV DT FTS PT PS ltac:(intros ->; eapply BU; exact Hs) LM) as (f & DV & FV).
      assert (PO : forall n, ports_ok ts (inst_ports sig a n)).
      { intro n. clear -CV DT F2 WD. assert (exists t1, ts = [t1] \/ exists t2, ts = [t1; t2]) as (t1 & [->|(t2 & ->)]).
        { destruct o; try discriminate CV; cbn in DT; [destruct DT as (t1 & t2 & -> & _)|destruct DT as (t1 & ->)|destruct DT as (t1 & -> & _)]; eauto. }
        - inversion F2 as [|x1 ? ? ? H1 F2']. subst. inversion F2'. subst. cbn. apply WD; [exact H1|lia].
        - inversion F2 as [|x1 ? ? ? H1 F2']. subst. inversion F2' as [|x2 ? ? ? H2 F2'']. subst. inversion F2''. subst. cbn. split; (apply WD; [assumption|lia]). }
      destruct (DV _ PO) as [_ DR]. assert (EC : c = Z.of_nat (Z.to_nat c)) by lia.
      specialize (DR R HR (Z.to_nat c)). rewrite <- HO in DR.
      assert (DP : 0 <= delay o l) by (unfold delay; destruct (is_scheduled o); lia).
      replace (Z.of_nat (Z.to_nat c + Z.to_nat (delay o l))) with (c + delay o l) in DR by lia. rewrite DR.
      symmetry. apply FV; [apply PO|]. rewrite <- D. f_equal. clear -CV DT LN C.
      assert (exists t1, ts = [t1] \/ exists t2, ts = [t1; t2]) as (t1 & [->|(t2 & ->)]).
      { destruct o; try discriminate CV; cbn in DT; [destruct DT as (t1 & t2 & -> & _)|destruct DT as (t1 & ->)|destruct DT as (t1 & -> & _)]; eauto. }
      + destruct a as [|x1 [|]]; try discriminate LN. cbn. rewrite Z2Nat.id by lia. reflexivity.
      + destruct a as [|x1 [|x2 [|]]]; try discriminate LN. cbn. rewrite Z2Nat.id by lia. reflexivity.
    - destruct H as (ex & LO & HE). assert (BN := unnamed_base _ _ _ _ EN). rewrite (base_delay _ _ BN OP), Z.add_0_r.
      assert (AO := args_ok_sig Q e sig c T PR RT C a ts F2).
      destruct (prim_as r e o t ts (pos_latency l) _ x BN OP DT FTS PT AO D) as (ex' & LO' & EV & FS). rewrite LO in LO'. injection LO' as <-.
      specialize (HE c C). rewrite fir_args_zip in HE by exact LN. rewrite EV in HE. destruct HE as [_ ->]. rewrite <- FS. destruct x; reflexivity. }
  destruct o as [[|] nm|sc nm|c0|f0| |b|u| |n|n|l0 r0| |]; cbn in ST |- *; try exact (GEN eq_refl ST); try contradiction; try exact Logic.I.
  - intros c C. rewrite OWN by discriminate. destruct r; exact (ST c C).
  - intros c C. rewrite OWN by discriminate. destruct r; exact (ST c C).
  - intros c C. rewrite OWN by discriminate. specialize (ST c C). replace (i_const (hw_as r e)) with (i_const (hw e)) by (destruct r; reflexivity).
    destruct t as [s i f|ex f|nb]; cbn in ST; try discriminate. injection ST as X1 X2. cbn in X1. cbn. rewrite <- X2. reflexivity.
Qed.

(** what the output port shows *)
Lemma rtl_output r Q e sig d s t ts c : rtl_ready r Q -> rtl Q e sig -> Con d s ∈ Q -> has_ty Q d t -> has_ty Q s ts -> 0 <= c ->
  sig d c = h_num (view Q sig d c) mod 2 ^ total_bits t /\ fst (view Q sig d c) = kind ts.
Proof.
  intros [T PR FT BU AR SR] [WD ST] Hc Hd Hs C. specialize (ST _ Hc). cbn in ST. destruct ST as (td & ts' & V1 & V2 & H).
  rewrite (val_type_has _ _ _ (pt_defs _ T) Hd) in V1. injection V1 as <-. rewrite (val_type_has _ _ _ (pt_defs _ T) Hs) in V2. injection V2 as <-.
  specialize (H c C). unfold view. rewrite (con_of_con _ _ _ (pt_dests _ T) Hc), (ty_of_has _ _ _ (pt_defs _ T) Hs). split; [|reflexivity].
  destruct (proper_port t (PR _ _ Hd)) as [E1 _], (proper_port ts (PR _ _ Hs)) as [E2 _].
  unfold f_connect in H. destruct (_ && _); [|discriminate]. injection H as H. rewrite kind_num by exact (PR _ _ Hs). rewrite <- H, E1, E2. reflexivity.
Qed.
