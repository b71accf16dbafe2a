(** * Property theorems: the operator library.

    [lib_module], [delivers], [exact_result], ... are in StubsSpec.v; the meaning of
    Verilog in Verilog.v. *)
From Coq Require Import ZArith Bool String Lia.
From stdpp Require Import gmap list.
From Verif Require Import Instance InstanceSpec Types Word Value OpSpec Graph GraphSpec TypesProofs KernelSort TopSort Dfcir Sched SchedFacts Linear Pipeline
     Verilog Stubs Naming NamingProofs StubsSpec StubsProofs StubsFacts ProgTyping LibraryFacts PropertiesSched.
Local Open Scope Z_scope.

(** ** C31 *)
Theorem C31_fifo :
  forall t lat, 1 <= p_width (port_type t) -> 1 <= lat ->
  exists m, lib_module DLatency [t] t lat m /\
    delivers m (fun x => word (p_width (port_type t)) (x ARG1)) lat (fun x => x ARG1).
Proof. exact fifo_delivers. Qed.
Example C31_case : 1 <= p_width (port_type (TFixed true 7 8)) /\
  match ext_module DLatency [TFixed true 7 8] (TFixed true 7 8) 5 with Some (n, _, l) => (n =? "__FIFO_IN_16_OUT_16_5")%string && (l =? 5) | None => false end = true.
Proof. split; [cbn; lia|vm_compute; reflexivity]. Qed.

(** ** C32 *)
(** a signed addition without pipeline stages has no defined behaviour at all: the
    generated text reads [r[-1]].  The kernel is compiled with the default options. *)
Definition sg_h : list cmd :=
  [ CType (TFixed true 7 0); CInput 0 false "x" 0; CInput 0 false "y" 0; CBin ADD 1 2; COutput 0 false "o" 0; CConnect 6 3 ].
Definition sg_P : program :=
  let t := TFixed true 7 0 in
  [ Def 2 (DIn false "y") VStream t (-1) []; Def 1 (DIn false "x") VStream t (-1) [];
    Def 3 (DBin ADD) VStream t (-1) [1%nat; 2%nat]; Def 6 (DOut false "o") VStream t (-1) []; Con 6 3 ].
Theorem C32_refuted : exists F h w order P, built F h w order /\ build w order = Ok P /\
  (forall rnd eps perm, comb_pass rnd eps 0 perm P = Some P) /\
  exists v k t lat a m name, Def v (DBin ADD) k t lat a ∈ P /\ In (name, m) (gen_library (ext_modules P)) /\
    module_name (DBin ADD) [t; t] t lat = Some name /\ t = int_type true 8 /\
    forall ins, ~ exists R, vrun m ins R.
Proof.
  assert (Fl : flow_ok noflt0 sg_h sg_P (fun _ => true) = true) by (vm_compute; reflexivity).
  destruct (flow_check _ _ _ _ Fl) as (w & o & R & D & K & C & S & B & _).
  exists noflt0, (calls sg_h), w, o, sg_P. split; [exact (ex_intro _ 0%nat (conj R (conj D (conj K (conj C S)))))|]. split; [exact B|]. split; [reflexivity|].
  exists 3%nat, VStream, (TFixed true 7 0), (-1), [1%nat; 2%nat], (bin_module Vadd (mkP true 8) (mkP true 8) (mkP true 8) 0), "__ADD_IN_fix_1_7_0_IN_fix_1_7_0_OUT_fix_1_7_0_0"%string.
  split; [unfold sg_P; rewrite !elem_of_cons; auto|]. split; [left; reflexivity|]. split; [reflexivity|]. split; [reflexivity|].
  intros ins. apply signed_comb_no_run. reflexivity.
Qed.

(** missing: signed addition, subtraction and multiplication with latency 0 *)
Theorem C32_partial :
  forall o s w lat, is_arith o = true \/ is_compare o = true -> 1 <= w -> 0 <= lat ->
  0 < lat \/ s = false \/ is_compare o = true ->
  exists m, lib_module (DBin o) [int_type s w; int_type s w] (result_type o (int_type s w)) lat m /\
    delivers m (two_words w w) lat (exact_result o s w s w).
Proof.
  intros o s w lat O W L LG. apply bin_delivers; auto. unfold bin_cond.
  destruct (is_compare o) eqn:E; [right; left; auto|right; reflexivity].
Qed.
(** the missing cases are exactly the wrong ones *)
Theorem C32_exact :
  forall o s w lat m, is_arith o = true \/ is_compare o = true -> 1 <= w -> 0 <= lat ->
  lib_module (DBin o) [int_type s w; int_type s w] (result_type o (int_type s w)) lat m ->
  (delivers m (two_words w w) lat (exact_result o s w s w) <-> 0 < lat \/ s = false \/ is_compare o = true).
Proof.
  intros o s w lat m O W L LM. rewrite (bin_exact o s w s w lat m O W W L LM). split; [intros [H _]; exact H|]. intro H. split; [exact H|].
  unfold bin_cond. destruct (is_compare o) eqn:E; [right; left; auto|right; reflexivity].
Qed.

(** ** C33 *)
(** a signed and an unsigned operand: the adder extends both by the sign of the result *)
Theorem C33_refuted : exists o s1 w1 s2 w2 lat m, 0 < lat /\ is_arith o = true /\ 1 <= w1 /\ 1 <= w2 /\
  lib_module (DBin o) [int_type s1 w1; int_type s2 w2] (result_type o (int_type s1 w1)) lat m /\
  ~ delivers m (two_words w1 w2) lat (exact_result o s1 w1 s2 w2).
Proof.
  exists ADD, false, 16, true, 8, 1. eexists. split; [lia|]. split; [reflexivity|]. split; [lia|]. split; [lia|].
  assert (LM : lib_module (DBin ADD) [int_type false 16; int_type true 8] (int_type false 16) 1 (bin_module Vadd (mkP false 16) (mkP false 16) (mkP true 8) 1)).
  { exact (lib_bin ADD Vadd (int_type false 16) (int_type false 16) (int_type true 8) 1 eq_refl eq_refl ltac:(lia)). }
  split; [exact LM|]. intro D.
  apply (bin_exact ADD false 16 true 8 1 _ ltac:(left; reflexivity) ltac:(lia) ltac:(lia) ltac:(lia) LM) in D as [_ D]. destruct D as [D|D]; [lia|discriminate].
Qed.
(** exactly the pairs of types for which the modules are right.  [bin_cond]: arithmetic
    needs equal signs or a left operand that is not wider; comparisons need two unsigned
    operands or equal types (or, for [==] and [!=], a wider signed operand) *)
Theorem C33_partial :
  forall o s1 w1 s2 w2 lat, is_arith o = true \/ is_compare o = true -> 1 <= w1 -> 1 <= w2 -> 0 <= lat ->
  0 < lat \/ s1 = false \/ is_compare o = true ->
  (if is_compare o then
     (s1 = false /\ s2 = false) \/ (s1 = s2 /\ w1 = w2) \/
     ((o = EQ \/ o = NEQ) /\ ((s1 = true /\ s2 = false /\ w2 < w1) \/ (s1 = false /\ s2 = true /\ w1 < w2)))
   else w1 <= w2 \/ s1 = s2) ->
  exists m, lib_module (DBin o) [int_type s1 w1; int_type s2 w2] (result_type o (int_type s1 w1)) lat m /\
    delivers m (two_words w1 w2) lat (exact_result o s1 w1 s2 w2).
Proof. intros o s1 w1 s2 w2 lat O W1 W2 L LG C. exact (bin_delivers o s1 w1 s2 w2 lat O W1 W2 L LG C). Qed.
Theorem C33_exact :
  forall o s1 w1 s2 w2 lat m, is_arith o = true \/ is_compare o = true -> 1 <= w1 -> 1 <= w2 -> 0 <= lat ->
  lib_module (DBin o) [int_type s1 w1; int_type s2 w2] (result_type o (int_type s1 w1)) lat m ->
  (delivers m (two_words w1 w2) lat (exact_result o s1 w1 s2 w2) <->
   (0 < lat \/ s1 = false \/ is_compare o = true) /\
   (if is_compare o then
      (s1 = false /\ s2 = false) \/ (s1 = s2 /\ w1 = w2) \/
      ((o = EQ \/ o = NEQ) /\ ((s1 = true /\ s2 = false /\ w2 < w1) \/ (s1 = false /\ s2 = true /\ w1 < w2)))
    else w1 <= w2 \/ s1 = s2)).
Proof.
  intros o s1 w1 s2 w2 lat m O W1 W2 L LM. rewrite (bin_exact o s1 w1 s2 w2 lat m O W1 W2 L LM). unfold bin_cond, bin_legal, cmp_cond, arith_cond.
  destruct (is_compare o); reflexivity.
Qed.

(** ** C34 *)
(** 200, an unsigned byte, becomes -56 as a 16-bit signed number *)
Theorem C34_refuted : exists s1 w1 s2 w2 lat m, lat = 0 /\ 1 <= w1 /\ 1 <= w2 /\
  lib_module DCast [int_type s1 w1] (int_type s2 w2) lat m /\
  ~ delivers m (fun x => word w1 (x ARG1)) lat (fun x => num s1 w1 (x ARG1) mod 2 ^ w2).
Proof.
  exists false, 8, true, 16, 0. eexists. split; [reflexivity|]. split; [lia|]. split; [lia|].
  assert (LM := lib_cast (int_type true 16) (int_type false 8) 0 ltac:(lia)). split; [exact LM|]. intro D.
  apply (cast_exact false 8 true 16 0 _ ltac:(lia) ltac:(lia) ltac:(lia) LM) in D. destruct D as [D|[D _]]; [lia|discriminate].
Qed.
(** missing: widening casts that change the signedness; signed widening casts with
    pipeline stages (the sign of the newest input is used) *)
Theorem C34_partial :
  forall s1 w1 s2 w2 lat, 1 <= w1 -> 1 <= w2 -> 0 <= lat ->
  w2 <= w1 \/ (s1 = s2 /\ (lat = 0 \/ s1 = false)) ->
  exists m, lib_module DCast [int_type s1 w1] (int_type s2 w2) lat m /\
    delivers m (fun x => word w1 (x ARG1)) lat (fun x => num s1 w1 (x ARG1) mod 2 ^ w2).
Proof.
  intros s1 w1 s2 w2 lat W1 W2 L C. pose proof (lib_cast (int_type s2 w2) (int_type s1 w1) lat L) as LM. eexists. split; [exact LM|].
  apply (cast_exact s1 w1 s2 w2 lat _ W1 W2 L LM). exact C.
Qed.
Theorem C34_exact :
  forall s1 w1 s2 w2 lat m, 1 <= w1 -> 1 <= w2 -> 0 <= lat -> lib_module DCast [int_type s1 w1] (int_type s2 w2) lat m ->
  (delivers m (fun x => word w1 (x ARG1)) lat (fun x => num s1 w1 (x ARG1) mod 2 ^ w2) <->
   w2 <= w1 \/ (s1 = s2 /\ (lat = 0 \/ s1 = false))).
Proof. exact cast_exact. Qed.
(** the value is kept whenever it fits: a pattern congruent to the integer denotes it *)
Theorem C34_fits :
  forall s1 w1 (s2 : bool) w2 x, 1 <= w1 -> 1 <= w2 -> word w1 x ->
  (if s2 then - 2 ^ (w2 - 1) <= num s1 w1 x < 2 ^ (w2 - 1) else 0 <= num s1 w1 x < 2 ^ w2) ->
  num s2 w2 (num s1 w1 x mod 2 ^ w2) = num s1 w1 x.
Proof.
  intros s1 w1 s2 w2 x W1 W2 X F. set (n := num s1 w1 x) in *. clearbody n.
  assert (E : 2 ^ w2 = 2 * 2 ^ (w2 - 1)) by (rewrite <- Z.pow_succ_r by lia; f_equal; lia).
  assert (0 < 2 ^ (w2 - 1)) by (apply Z.pow_pos_nonneg; lia). unfold num. destruct s2; cbn [andb].
  - destruct (Z.lt_ge_cases n 0).
    + replace (n mod 2 ^ w2) with (n + 2 ^ w2) by (apply (Z.mod_unique_pos _ _ (-1)); lia).
      destruct (Z.leb_spec (2 ^ (w2 - 1)) (n + 2 ^ w2)); lia.
    + rewrite Z.mod_small by lia. destruct (Z.leb_spec (2 ^ (w2 - 1)) n); lia.
  - apply Z.mod_small. lia.
Qed.

(** ** C35 *)
(** a division (or negation) compiles, but no module is generated for it *)
Definition dv_h : list cmd :=
  [ CType (dfUInt 8); CInput 0 false "x" 0; CInput 0 false "y" 0; CBin DIV 1 2; COutput 0 false "o" 0; CConnect 6 3 ].
Definition dv_P : program :=
  let t := TFixed false 8 0 in
  [ Def 2 (DIn false "y") VStream t (-1) []; Def 1 (DIn false "x") VStream t (-1) [];
    Def 3 (DBin DIV) VStream t (-1) [1%nat; 2%nat]; Def 6 (DOut false "o") VStream t (-1) []; Con 6 3 ].
(** for every program: divisions and negations are never generated *)
Theorem C35_missing :
  forall Q v o k t lat a, ptyped Q -> Def v o k t lat a ∈ Q -> o = DBin DIV \/ o = DUn NEG ->
  exists ts name, Forall2 (has_ty Q) a ts /\ module_name o ts t lat = Some name /\
    forall m, ~ In (name, m) (gen_library (ext_modules Q)).
Proof.
  intros Q v o k t lat a T H O. pose proof T as [N _ W A _ _]. destruct (A _ _ _ _ _ _ H) as (ts & F2 & DT).
  exists ts. assert (exists name, module_name o ts t lat = Some name) as (name & E) by (destruct O as [-> | ->]; eexists; reflexivity).
  exists name. split; [exact F2|]. split; [exact E|]. eapply library_lacks; [exact O| |exact E].
  constructor; [apply wf_pos, W with v; exists o, k, lat, a; exact H|]. apply Forall_forall. intros x Hx. apply wf_pos.
  apply elem_of_list_lookup in Hx as (i & Hx). destruct (Forall2_lookup_r _ _ _ _ _ F2 Hx) as (y & _ & Y). eapply W. exact Y.
Qed.

Lemma dv_types : good_types noflt0 (calls dv_h).
Proof. split; [|exact (InstanceFlow.calls_typed noflt0 (KNew :: dv_h) init_world)]. intros t H. unfold dv_h in H. repeat (apply elem_of_cons in H as [H|H]; [try discriminate; injection H as ->; vm_compute; intuition discriminate|]). inversion H. Qed.
Theorem C35_refuted : exists F h w order P, built F h w order /\ good_types F h /\ build w order = Ok P /\
  forall Q, scheduled P Q -> exists v o k t lat a ts name, Def v o k t lat a ∈ Q /\
    Forall2 (has_ty Q) a ts /\ module_name o ts t lat = Some name /\ forall m, ~ In (name, m) (gen_library (ext_modules Q)).
Proof.
  assert (Fl : flow_ok noflt0 dv_h dv_P (fun _ => true) = true) by (vm_compute; reflexivity).
  destruct (flow_check _ _ _ _ Fl) as (w & o & R & D & K & C & S & B & _).
  exists noflt0, (calls dv_h), w, o, dv_P. split; [exact (ex_intro _ 0%nat (conj R (conj D (conj K (conj C S)))))|]. split; [exact dv_types|]. split; [exact B|].
  intros Q HQ. pose proof (kernel_ptyped _ _ _ _ R D K C S _ B dv_types) as T.
  destruct (scheduled_keeps dv_P Q 3 (DBin DIV) VStream (TFixed false 8 0) (-1) [1%nat; 2%nat] (pt_defs _ T) HQ) as (l' & a' & H).
  - intros d X. discriminate X.
  - unfold dv_P. rewrite !elem_of_cons. auto.
  - destruct (C35_missing Q _ _ _ _ _ _ (scheduled_ptyped _ _ T HQ) H ltac:(left; reflexivity)) as (ts & name & A1 & A2 & A3).
    exists 3%nat, (DBin DIV), VStream, (TFixed false 8 0), l', a', ts, name. auto.
Qed.

(** what holds: after any of the schedulers, every operation that is lowered to an
    instance, except divisions and negations, has exactly one module of its name in the
    library, and it is the one generated for these types and this latency.
    missing: division, negation; that a module for floats computes float operations *)
Theorem C35_partial :
  forall F h w order P Q, built F h w order -> good_types F h -> build w order = Ok P -> scheduled P Q ->
  forall v o k t lat a, Def v o k t lat a ∈ Q -> base_name o <> None -> o <> DBin DIV -> o <> DUn NEG ->
  exists ts name m, Forall2 (has_ty Q) a ts /\ module_name o ts t lat = Some name /\
    In (name, m) (gen_library (ext_modules Q)) /\ (forall m', In (name, m') (gen_library (ext_modules Q)) -> m' = m) /\
    lib_module o ts t lat m.
Proof.
  intros F h w order P Q (kern & R & D & K & C & S) G B HQ v o k t lat a H O1 O2 O3.
  eapply library_complete; [|exact H|].
  - eapply scheduled_ptyped; [|exact HQ]. eapply kernel_ptyped; eassumption.
  - destruct o as [sc nm|sc nm|c|f| |b|u| | | | | |]; cbn in O1 |- *; try congruence.
    + destruct b; cbn in O1 |- *; congruence.
    + destruct u; cbn in O1; congruence.
Qed.
Lemma sg_types : good_types noflt0 (calls sg_h).
Proof. split; [|exact (InstanceFlow.calls_typed noflt0 (KNew :: sg_h) init_world)]. intros t H. unfold sg_h in H. repeat (apply elem_of_cons in H as [H|H]; [try discriminate; injection H as ->; vm_compute; intuition discriminate|]). inversion H. Qed.
Example C35_case : exists F h w order P, built F h w order /\ good_types F h /\ build w order = Ok P /\ scheduled P P /\
  exists v k t lat a, Def v (DBin ADD) k t lat a ∈ P /\ base_name (DBin ADD) <> None.
Proof.
  assert (Fl : flow_ok noflt0 sg_h sg_P (fun _ => true) = true) by (vm_compute; reflexivity).
  destruct (flow_check _ _ _ _ Fl) as (w & o & R & D & K & C & S & B & _).
  exists noflt0, (calls sg_h), w, o, sg_P. split; [exact (ex_intro _ 0%nat (conj R (conj D (conj K (conj C S)))))|]. split; [exact sg_types|]. split; [exact B|].
  split; [right; right; exists (fun x => x), (QArith_base.Qmake 0 1), 0, (fun x => x); reflexivity|].
  exists 3%nat, VStream, (TFixed true 7 0), (-1), [1%nat; 2%nat]. split; [unfold sg_P; rewrite !elem_of_cons; auto|discriminate].
Qed.

(** floats: an addition of single-precision floats is given the integer adder *)
Theorem C35_float :
  forall e f lat, 1 <= 1 + e + f -> 0 <= lat ->
  exists m, lib_module (DBin ADD) [TFloat e f; TFloat e f] (TFloat e f) lat m /\
    delivers m (two_words (1 + e + f) (1 + e + f)) lat (fun x => (x ARG1 + x ARG2) mod 2 ^ (1 + e + f)).
Proof.
  intros e f lat W L. exists (bin_module Vadd (mkP false (1 + e + f)) (mkP false (1 + e + f)) (mkP false (1 + e + f)) lat).
  split; [exact (lib_bin ADD Vadd (TFloat e f) (TFloat e f) (TFloat e f) lat eq_refl eq_refl L)|].
  destruct (bin_delivers ADD false (1 + e + f) false (1 + e + f) lat ltac:(left; reflexivity) W W L ltac:(right; left; reflexivity) ltac:(right; reflexivity)) as (m & LM & DV).
  assert (LM' := lib_bin ADD Vadd (result_type ADD (int_type false (1 + e + f))) (int_type false (1 + e + f)) (int_type false (1 + e + f)) lat eq_refl eq_refl L).
  rewrite (lib_fun _ _ _ _ _ _ LM LM') in DV. unfold result_type in DV. cbn [is_compare] in DV. rewrite !port_int in DV. exact DV.
Qed.
(** 1.0 + 1.0 is 0x7F000000 (2^127) *)
Example C35_float_case : (0x3F800000 + 0x3F800000) mod 2 ^ (1 + 8 + 23) = 0x7F000000.
Proof. reflexivity. Qed.

(** ** C36 *)
Theorem C36_partial :
  (* missing: the names of buffers identify width and latency only *)
  (forall o o' ins ins' out out' lat lat' n n', o <> DLatency ->
     (forall t, t ∈ out :: ins ++ out' :: ins' -> wf_type t) -> 0 <= lat -> 0 <= lat' ->
     module_name o ins out lat = Some n -> module_name o' ins' out' lat' = Some n' ->
     (n = n' <-> o = o' /\ ins = ins' /\ out = out' /\ lat = lat')) /\
  (forall t t' lat lat' n n', wf_type t -> wf_type t' -> 0 <= lat -> 0 <= lat' ->
     module_name DLatency [t] t lat = Some n -> module_name DLatency [t'] t' lat' = Some n' ->
     (n = n' <-> p_width (port_type t) = p_width (port_type t') /\ lat = lat')).
Proof.
  assert (PL : forall l, 0 <= l -> pos_latency l = l) by (intros l Hl; unfold pos_latency; destruct (Z.leb_spec 0 l); lia).
  split.
  - intros o o' ins ins' out out' lat lat' n n' NL W L L' E E'. split.
    + intros <-.
      assert (F1 : Forall pos_fields (out :: ins)) by (apply Forall_forall; intros t H; apply wf_pos, W; rewrite !elem_of_cons in *; rewrite elem_of_app; tauto).
      assert (F2 : Forall pos_fields (out' :: ins')) by (apply Forall_forall; intros t H; apply wf_pos, W; rewrite elem_of_cons, elem_of_app; tauto).
      destruct (module_name_inj _ _ _ _ _ _ _ _ _ NL F1 F2 E E') as (-> & -> & -> & A). rewrite !PL in A by assumption. auto.
    + intros (-> & -> & -> & ->). congruence.
  - intros t t' lat lat' n n' W W' L L' E E'. injection E as <-. injection E' as <-.
    assert (W1 : forall x, wf_type x -> 0 <= p_width (port_type x)) by (intros [s i f|e f|b]; cbn; destruct s || idtac; lia).
    rewrite fifo_name_inj by auto. rewrite !PL by assumption. reflexivity.
Qed.

(** a signed and an unsigned buffer of one kernel get one extern module, whose ports
    have the type of the first one: the second instance is connected to ports of another
    type *)
Definition sh_h : list cmd :=
  [ CType (dfUInt 8); CType (TFixed true 7 0); CInput 0 false "x" 0; CInput 0 false "y" 1; CBin MUL 1 1; CBin ADD 3 1;
    CBin MUL 2 2; CBin ADD 9 2; COutput 0 false "o" 0; CConnect 15 6; COutput 0 false "p" 1; CConnect 17 12 ].
Definition sh_cfg : latcfg := fun c => match c with OBin MUL _ => Some 3 | _ => Some 1 end.
Definition sh_P : program :=
  let s := TFixed true 7 0 in let u := TFixed false 8 0 in
  [ Def 2 (DIn false "y") VStream s (-1) []; Def 9 (DBin MUL) VStream s (-1) [2%nat; 2%nat];
    Def 12 (DBin ADD) VStream s (-1) [9%nat; 2%nat]; Def 17 (DOut false "p") VStream s (-1) []; Con 17 12;
    Def 1 (DIn false "x") VStream u (-1) []; Def 3 (DBin MUL) VStream u (-1) [1%nat; 1%nat];
    Def 6 (DBin ADD) VStream u (-1) [3%nat; 1%nat]; Def 15 (DOut false "o") VStream u (-1) []; Con 15 6 ].
Definition sh_Q : program :=
  let s := TFixed true 7 0 in let u := TFixed false 8 0 in
  [ Def 2 (DIn false "y") VStream s (-1) []; Def 9 (DBin MUL) VStream s 3 [2%nat; 2%nat]; Def 18 DLatency VStream s 3 [2%nat];
    Def 12 (DBin ADD) VStream s 1 [9%nat; 18%nat]; Def 17 (DOut false "p") VStream s (-1) []; Con 17 12;
    Def 1 (DIn false "x") VStream u (-1) []; Def 3 (DBin MUL) VStream u 3 [1%nat; 1%nat]; Def 19 DLatency VStream u 3 [1%nat];
    Def 6 (DBin ADD) VStream u 1 [3%nat; 19%nat]; Def 15 (DOut false "o") VStream u (-1) []; Con 15 6 ].
Lemma sh_flow : flow_ok noflt0 sh_h sh_P (fun _ => true) = true.
Proof. vm_compute. reflexivity. Qed.
Lemma sh_asap : asap_pass sh_cfg id sh_P = Some (sh_Q, 4).
Proof. vm_compute. reflexivity. Qed.
Theorem C36_refuted : exists F h w order P cfg Q L, built F h w order /\ build w order = Ok P /\ asap_pass cfg id P = Some (Q, L) /\
  exists v v' k k' t t' lat a a' name ports,
    Def v DLatency k t lat a ∈ Q /\ Def v' DLatency k' t' lat a' ∈ Q /\ t <> t' /\
    module_name DLatency [t] t lat = Some name /\ module_name DLatency [t'] t' lat = Some name /\
    List.filter (fun m => String.eqb (fst (fst m)) name) (ext_modules Q) = [(name, ports, lat)] /\
    ports = [port_type t; port_type t] /\ ports <> [port_type t'; port_type t'].
Proof.
  destruct (flow_check _ _ _ _ sh_flow) as (w & o & R & D & K & C & S & B & _).
  exists noflt0, (calls sh_h), w, o, sh_P, sh_cfg, sh_Q, 4. split; [exact (ex_intro _ 0%nat (conj R (conj D (conj K (conj C S)))))|]. split; [exact B|]. split; [exact sh_asap|].
  exists 18%nat, 19%nat, VStream, VStream, (TFixed true 7 0), (TFixed false 8 0), 3, [2%nat], [1%nat], "__FIFO_IN_8_OUT_8_3"%string, [mkP true 8; mkP true 8].
  split; [unfold sh_Q; rewrite !elem_of_cons; auto 20|]. split; [unfold sh_Q; rewrite !elem_of_cons; auto 20|]. split; [discriminate|].
  split; [reflexivity|]. split; [reflexivity|]. split; [vm_compute; reflexivity|]. split; [reflexivity|discriminate].
Qed.
(** concrete instances of the hypotheses *)
Example C32_case : (is_arith MUL = true \/ is_compare MUL = true) /\ 1 <= 13 /\ 0 <= 4 /\ (0 < 4 \/ true = false \/ is_compare MUL = true) /\
  exact_result MUL true 8 true 8 (fun n => match n with ARG1 => 0xFF | _ => 0x7F end) = 0x81.
Proof. repeat split; auto; try lia; try (left; lia). Qed.
Example C33_case : (is_arith SUB = true \/ is_compare SUB = true) /\ (0 < 2 \/ true = false \/ is_compare SUB = true) /\
  (8 <= 16 \/ true = false) /\ exact_result SUB true 8 false 16 (fun n => match n with ARG1 => 0xFF | _ => 0x0102 end) = 0xFD.
Proof. repeat split; auto; try lia; try (left; lia). Qed.
Example C34_case : (16 <= 8 \/ true = true /\ (0 = 0 \/ true = false)) /\ num true 8 0x80 mod 2 ^ 16 = 0xFF80.
Proof. split; [right; auto|reflexivity]. Qed.
Example C36_case : wf_type (TFixed true 7 8) /\ wf_type (TFloat 8 23) /\
  module_name (DBin ADD) [TFixed true 7 8; TFloat 8 23] (TFixed true 7 8) 12 = Some "__ADD_IN_fix_1_7_8_IN_flt_8_23_OUT_fix_1_7_8_12"%string.
Proof. cbn. repeat split; lia. Qed.

(** one report for all theorems of this file *)
Definition PropertiesStubs_theorems :=
  (C31_fifo,
   C32_refuted,
   C32_partial,
   C32_exact,
   C33_refuted,
   C33_partial,
   C33_exact,
   C34_refuted,
   C34_partial,
   C34_exact,
   C34_fits,
   C35_missing,
   C35_refuted,
   C35_partial,
   C35_float,
   C36_partial,
   C36_refuted).
Print Assumptions PropertiesStubs_theorems.
