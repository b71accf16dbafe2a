(** Proofs for PropertiesStubs.v. *)
From Coq Require Import ZArith Bool List Lia.
From Verif Require Import Types Word Value OpSpec HwSpec HwProofs Graph Dfcir Verilog Stubs Naming NamingProofs StubsProofs StubsSpec.
Import ListNotations.
Local Open Scope Z_scope.

Lemma port_int s w : port_type (int_type s w) = mkP s w.
Proof. unfold int_type, port_type. f_equal. destruct s; lia. Qed.
Lemma lib_bin o v r a1 a2 lat : lib_vop o = Some v -> is_bitwise o = false -> 0 <= lat ->
  lib_module (DBin o) [a1; a2] r lat (bin_module v (port_type r) (port_type a1) (port_type a2) lat).
Proof.
  intros V B L. destruct (gen_bin o v r a1 a2 lat V B) as (n & E & G).
  assert (pos_latency lat = lat) as PL by (unfold pos_latency; destruct (Z.leb_spec 0 lat); lia).
  rewrite PL in *. exists n, [port_type r; port_type a1; port_type a2], lat. auto.
Qed.
Lemma lib_cast r a1 lat : 0 <= lat -> lib_module DCast [a1] r lat (cast_module (port_type r) (port_type a1) lat).
Proof.
  intros L. destruct (gen_cast r a1 lat) as (n & E & G).
  assert (pos_latency lat = lat) as PL by (unfold pos_latency; destruct (Z.leb_spec 0 lat); lia).
  rewrite PL in *. exists n, [port_type r; port_type a1], lat. auto.
Qed.
Lemma lib_fifo r a1 lat : 0 <= lat -> lib_module DLatency [a1] r lat (fifo_module (port_type r) lat).
Proof.
  intros L. destruct (gen_fifo r a1 lat) as (n & E & G).
  assert (pos_latency lat = lat) as PL by (unfold pos_latency; destruct (Z.leb_spec 0 lat); lia).
  rewrite PL in *. exists n, [port_type r; port_type a1], lat. auto.
Qed.
Lemma lib_fun o ins out lat m m' : lib_module o ins out lat m -> lib_module o ins out lat m' -> m = m'.
Proof. intros (n & p & l & E & G) (n' & p' & l' & E' & G'). congruence. Qed.

Lemma lib_vop_some o : is_arith o = true \/ is_compare o = true ->
  exists v, lib_vop o = Some v /\ is_bitwise o = false /\ bop_of v = o /\ is_rel v = is_compare o.
Proof. destruct o; cbn; intros [H|H]; try discriminate H; eauto 10. Qed.

(** ** What the extended operands are modulo the result width *)
Definition arith_cond (s1 s2 : bool) (w1 w2 : Z) : Prop := w1 <= w2 \/ s1 = s2.
Lemma num_mod_le s k x n : 0 <= n <= k -> num s k x mod 2 ^ n = x mod 2 ^ n.
Proof.
  intros H. rewrite <- (mod_mod_le (num s k x) n k) by lia. rewrite num_mod by lia. apply mod_mod_le. lia.
Qed.
Lemma prep_num v s1 w1 s2 w2 (s : bool) w x : is_rel v = false -> 1 <= w1 -> 1 <= w2 -> (w = w1 \/ w = w2) ->
  (w1 <= w \/ s = s1) -> word w x ->
  prep v (mkP s1 w1) (mkP s1 w1) (mkP s2 w2) (mkP s w) x mod 2 ^ w1 = num s w x mod 2 ^ w1.
Proof.
  intros R P1 P2 WW C X. unfold prep, pw. rewrite R. cbn [p_signed p_width].
  rewrite mod_mod_le by lia. destruct C as [C|<-]; [|reflexivity].
  rewrite !num_mod_le by lia. reflexivity.
Qed.

Lemma body_arith v s1 w1 s2 w2 x y : is_rel v = false -> 1 <= w1 -> 1 <= w2 -> arith_cond s1 s2 w1 w2 ->
  word w1 x -> word w2 y ->
  body v (mkP s1 w1) (mkP s1 w1) (mkP s2 w2) x y mod 2 ^ w1 =
  bin_math (bop_of v) (num s1 w1 x) (num s2 w2 y) mod 2 ^ w1.
Proof.
  intros R P1 P2 C X Y. unfold body. rewrite R. rewrite mod_mod_le by (unfold pw; cbn; lia).
  apply ring_math_mod; [now apply ring_vop|lia| |].
  - apply prep_num; auto.
  - apply prep_num; auto. destruct C as [C|C]; [left; lia|right; congruence].
Qed.

(** comparisons *)
Definition cmp_cond (o : bop) (s1 s2 : bool) (w1 w2 : Z) : Prop :=
  (s1 = false /\ s2 = false) \/ (s1 = s2 /\ w1 = w2) \/
  ((o = EQ \/ o = NEQ) /\ ((s1 = true /\ s2 = false /\ w2 < w1) \/ (s1 = false /\ s2 = true /\ w1 < w2))).
Lemma num_false k x : num false k x = x.
Proof. reflexivity. Qed.
Lemma eq_mixed k j x y : 1 <= j -> j < k -> word k x -> word j y -> (num true k x =? y) = (x =? y).
Proof.
  intros J K X Y. unfold word in *. unfold num. cbn [andb].
  assert (2 ^ j <= 2 ^ (k - 1)) by (apply pow_le; lia).
  destruct (Z.leb_spec (2 ^ (k - 1)) x); [|reflexivity].
  destruct (Z.eqb_spec (x - 2 ^ k) y), (Z.eqb_spec x y); lia.
Qed.
Lemma body_cmp v s1 w1 s2 w2 x y : is_rel v = true -> 1 <= w1 -> 1 <= w2 -> cmp_cond (bop_of v) s1 s2 w1 w2 ->
  word w1 x -> word w2 y ->
  body v (mkP false 1) (mkP s1 w1) (mkP s2 w2) x y = bin_math (bop_of v) (num s1 w1 x) (num s2 w2 y).
Proof.
  intros R P1 P2 C X Y. unfold body, prep, pw. rewrite R. cbn [p_signed p_width].
  destruct C as [(-> & ->)|[(-> & ->)|(O & C)]].
  - reflexivity.
  - rewrite andb_diag, Z.max_id. reflexivity.
  - assert (E : forall s, s && negb s = false) by (intros []; reflexivity).
    destruct C as [(-> & -> & L)|(-> & -> & L)]; cbn [andb]; rewrite !num_false;
      destruct O as [-> | ->]; cbn [bin_math].
    + now rewrite (eq_mixed w1 w2) by (assumption || lia).
    + now rewrite (eq_mixed w1 w2) by (assumption || lia).
    + rewrite (Z.eqb_sym x (num true w2 y)). rewrite (eq_mixed w2 w1) by (assumption || lia). now rewrite Z.eqb_sym.
    + rewrite (Z.eqb_sym x (num true w2 y)). rewrite (eq_mixed w2 w1) by (assumption || lia). now rewrite Z.eqb_sym.
Qed.

(** the condition under which a library module is right *)
Definition bin_cond (o : bop) (s1 s2 : bool) (w1 w2 : Z) : Prop :=
  if is_compare o then cmp_cond o s1 s2 w1 w2 else arith_cond s1 s2 w1 w2.
(** the module is legal Verilog *)
Definition bin_legal (o : bop) (s1 : bool) (lat : Z) : Prop := 0 < lat \/ s1 = false \/ is_compare o = true.

Lemma bin_ok_of o v s1 w1 s2 w2 lat : is_rel v = is_compare o -> 1 <= w1 -> 1 <= w2 -> 0 <= lat -> bin_legal o s1 lat ->
  bin_ok v (port_type (result_type o (int_type s1 w1))) (mkP s1 w1) (mkP s2 w2) lat.
Proof.
  intros R P1 P2 L LG. unfold bin_ok, result_type, rw, pw. rewrite R.
  destruct (is_compare o) eqn:IC; unfold bool_type; rewrite port_int; cbn [p_signed p_width].
  - repeat split; try lia.
  - repeat split; try lia. intros ->. destruct LG as [H|[H|H]]; [lia|exact H|congruence].
Qed.
Lemma body_exact o v s1 w1 s2 w2 x : is_rel v = is_compare o -> bop_of v = o -> 1 <= w1 -> 1 <= w2 ->
  bin_cond o s1 s2 w1 w2 -> two_words w1 w2 x ->
  body v (port_type (result_type o (int_type s1 w1))) (mkP s1 w1) (mkP s2 w2) (x ARG1) (x ARG2)
    mod 2 ^ p_width (port_type (result_type o (int_type s1 w1))) = exact_result o s1 w1 s2 w2 x.
Proof.
  intros R B P1 P2 C [X Y]. unfold exact_result, result_type, result_width, bin_cond in *.
  destruct (is_compare o) eqn:IC; unfold bool_type; rewrite port_int; cbn [p_width]; rewrite <- B in *.
  - now rewrite body_cmp by assumption.
  - now apply body_arith.
Qed.
Lemma reg_width v res a1 a2 lat w k : v_decl (bin_module v res a1 a2 lat) REG = Some (DMem w k) -> w = rw v a1 a2.
Proof. unfold bin_module. destruct (lat =? 0); cbn; intros H; [discriminate H|]. injection H as H _. rewrite <- H. reflexivity. Qed.

Lemma veval_nomem d st st' : (forall m w k, d m <> Some (DMem w k)) -> (forall n, s_net st n = s_net st' n) ->
  forall e W S, veval d st W S e = veval d st' W S e.
Proof.
  intros NM NE. induction e as [m|m i|m hi|m i|m i b| |c e0 IH|a IHa b IHb|o a IHa b IHb]; intros W S0; cbn [veval].
  - now rewrite NE.
  - now rewrite NE.
  - now rewrite NE.
  - destruct (vsize d (VMem m i)) eqn:Z0; [|reflexivity]. exfalso. cbn [vsize] in Z0.
    destruct (d m) as [[]|] eqn:Dm; try discriminate Z0. now apply NM in Dm.
  - destruct (vsize d (VMemBit m i b)) eqn:Z0; [|reflexivity]. exfalso. cbn [vsize] in Z0.
    destruct (d m) as [[]|] eqn:Dm; try discriminate Z0. now apply NM in Dm.
  - reflexivity.
  - destruct (vsize d (VRepl c e0)); [|reflexivity]. destruct (vsize d e0); [|reflexivity]. now rewrite IH.
  - destruct (vsize d (VCat a b)); [|reflexivity]. destruct (vsize d a), (vsize d b); try reflexivity. now rewrite IHa, IHb.
  - destruct (vsize d (VBin o a b)); [|reflexivity]. destruct (is_rel o).
    + destruct (vsize d a), (vsize d b); try reflexivity. now rewrite IHa, IHb.
    + now rewrite IHa, IHb.
Qed.

(** a run with prescribed power-up contents; [init] is used only if there are registers *)
Lemma bin_exists' v res a1 a2 lat ins init : bin_ok v res a1 a2 lat ->
  (forall t, in_range a1 (ins t ARG1) /\ in_range a2 (ins t ARG2)) ->
  (forall i w k, v_decl (bin_module v res a1 a2 lat) REG = Some (DMem w k) -> word w (init i)) ->
  exists R, vrun (bin_module v res a1 a2 lat) ins R /\ forall i, 0 <= i -> s_mem (R 0%nat) REG i = init i.
Proof.
  intros OK IR II. destruct (Z.eq_dec lat 0) as [->|NZ].
  - destruct (bin_exists v res a1 a2 0 ins (fun _ => 0) OK IR) as (R & RN & _).
    { intros i. pose proof (pow_pos (rw v a1 a2)). destruct OK as (W1 & W2 & W3 & _). split; [lia|]. apply H. lia. }
    exists (fun t => mkS (s_net (R t)) (fun _ => init)). split; [|reflexivity].
    destruct RN as (A & B & C & D). split; [exact A|]. split; [|split].
    + intros t n e I. destruct (B t n e I) as (s & k & Dn & Av). exists s, k. split; [exact Dn|]. etransitivity; [|exact Av].
      assert (NM : forall m w k, v_decl (bin_module v res a1 a2 0) m <> Some (DMem w k)).
      { intros m w j. unfold bin_module. cbn. destruct m; cbn; discriminate. }
      unfold vassigned. destruct (vsize (v_decl (bin_module v res a1 a2 0)) e); [|reflexivity].
      rewrite (veval_nomem _ _ (R t)); [reflexivity|exact NM|reflexivity].
    + intros n w k i Dn. exfalso. revert Dn. unfold bin_module. cbn. destruct n; cbn; discriminate.
    + intros L' e V. discriminate V.
  - destruct (bin_exists v res a1 a2 lat ins (fun i => init i) OK IR) as (R & RN & I0).
    { intros i. apply (II i (rw v a1 a2) (lat - 1 + 1)). unfold bin_module. destruct (Z.eqb_spec lat 0); [lia|]. reflexivity. }
    eauto.
Qed.

Theorem bin_delivers o s1 w1 s2 w2 lat : is_arith o = true \/ is_compare o = true -> 1 <= w1 -> 1 <= w2 -> 0 <= lat ->
  bin_legal o s1 lat -> bin_cond o s1 s2 w1 w2 ->
  exists m, lib_module (DBin o) [int_type s1 w1; int_type s2 w2] (result_type o (int_type s1 w1)) lat m /\
    delivers m (two_words w1 w2) lat (exact_result o s1 w1 s2 w2).
Proof.
  intros O P1 P2 L LG C. destruct (lib_vop_some o O) as (v & V & BW & B & R).
  eexists. split; [apply (lib_bin o v); assumption|]. rewrite !port_int.
  pose proof (bin_ok_of o v s1 w1 s2 w2 lat R P1 P2 L LG) as OK.
  intros ins OKI. split.
  - intros init II. apply bin_exists'; [exact OK| |exact II]. intros t. destruct (OKI t). split; assumption.
  - intros Rn RN t. rewrite (bin_run v _ _ _ lat ins Rn OK RN); [|intros u; destruct (OKI u); split; assumption].
    apply body_exact; auto.
Qed.

(** ** Where the modules are wrong *)
Lemma no_run m ins n e : In (n, e) (v_assign m) -> vsize (v_decl m) e = None -> ~ exists R, vrun m ins R.
Proof.
  intros I Z0 (R & _ & A & _). destruct (A 0%nat n e I) as (s & k & _ & E). unfold vassigned in E. now rewrite Z0 in E.
Qed.
Lemma signed_comb_no_run v a1 a2 res ins : p_signed res = true -> ~ exists R, vrun (bin_module v res a1 a2 0) ins R.
Proof.
  intros S. eapply (no_run _ _ CATW).
  - unfold bin_module. cbn. right. right. right. left. reflexivity.
  - rewrite S. cbn. reflexivity.
Qed.

Lemma mod_ne a b n : 0 <= a < 2 ^ n -> 0 <= b < 2 ^ n -> a <> b -> a mod 2 ^ n <> b mod 2 ^ n.
Proof. intros. rewrite !Z.mod_small by assumption. assumption. Qed.

Definition const_ins (x y : Z) (t : nat) (n : vname) : Z := match n with ARG1 => x | ARG2 => y | _ => 0 end.
(** a module that delivers the wrong result on constant inputs does not deliver *)
Lemma wrong_delivery v res a1 a2 lat (ok : _ -> Prop) f x y : bin_ok v res a1 a2 lat -> in_range a1 x -> in_range a2 y ->
  ok (const_ins x y 0) -> body v res a1 a2 x y mod 2 ^ p_width res <> f (const_ins x y 0) ->
  ~ delivers (bin_module v res a1 a2 lat) ok lat f.
Proof.
  intros OK X Y O NE D. destruct (D (const_ins x y)) as [EX VAL].
  - intros t. exact O.
  - destruct (EX (fun _ => 0)) as (R & RN & _).
    { intros i w k E. apply reg_width in E as ->. unfold word. split; [lia|]. apply pow_pos.
      destruct OK as (W1 & W2 & W3 & _). lia. }
    specialize (VAL R RN 0%nat). rewrite (bin_run v res a1 a2 lat (const_ins x y) R OK RN) in VAL; [|intros u; split; assumption].
    apply NE, VAL.
Qed.

Lemma num_ones_true w : 1 <= w -> num true w (2 ^ w - 1) = -1.
Proof.
  intros H. unfold num. cbn [andb]. pose proof (pow_pos (w - 1) ltac:(lia)).
  assert (2 ^ w = 2 * 2 ^ (w - 1)) by (rewrite <- Z.pow_succ_r by lia; f_equal; lia).
  destruct (Z.leb_spec (2 ^ (w - 1)) (2 ^ w - 1)); lia.
Qed.
Lemma num_0 s w : 1 <= w -> num s w 0 = 0.
Proof. intros H. unfold num. pose proof (pow_pos (w - 1) ltac:(lia)). destruct (Z.leb_spec (2 ^ (w - 1)) 0); [lia|]. now rewrite andb_false_r. Qed.
Lemma word_ones w : 1 <= w -> word w (2 ^ w - 1).
Proof. intros H. unfold word. pose proof (pow_pos w ltac:(lia)). lia. Qed.
Lemma word_0 w : 0 <= w -> word w 0.
Proof. intros H. unfold word. pose proof (pow_pos w H). lia. Qed.
Lemma word_1 w : 1 <= w -> word w 1.
Proof. intros H. unfold word. pose proof (pow_le 1 w ltac:(lia)). change (2 ^ 1) with 2 in *. lia. Qed.

(** arithmetic with a narrower right operand of the other signedness *)
Lemma arith_wrong o v s1 w1 s2 w2 : lib_vop o = Some v -> is_arith o = true -> 1 <= w2 -> w2 < w1 -> s1 <> s2 ->
  exists x y, word w1 x /\ word w2 y /\
    body v (mkP s1 w1) (mkP s1 w1) (mkP s2 w2) x y mod 2 ^ w1 <> bin_math o (num s1 w1 x) (num s2 w2 y) mod 2 ^ w1.
Proof.
  intros V A P2 L S.
  exists (if match o with MUL => true | _ => false end then 1 else 0), (2 ^ w2 - 1).
  split; [destruct o; try discriminate A; [apply word_0|apply word_0|apply word_1]; lia|].
  split; [apply word_ones; lia|].
  assert (B2 : 2 * 2 ^ w2 <= 2 ^ w1).
  { rewrite <- Z.pow_succ_r by lia. apply pow_le. lia. }
  assert (B1 : 2 <= 2 ^ w2) by (change 2 with (2 ^ 1) at 1; apply pow_le; lia).
  assert (N1 : num s1 w1 1 = 1).
  { unfold num. assert (2 ^ 1 <= 2 ^ (w1 - 1)) by (apply pow_le; lia). change (2 ^ 1) with 2 in *.
    destruct (Z.leb_spec (2 ^ (w1 - 1)) 1); [lia|]. now rewrite andb_false_r. }
  unfold body, prep, pw. rewrite Z.max_l by (cbn; lia). cbn [p_width p_signed].
  set (M := 2 ^ w1) in *.
  assert (HM : 0 < M) by lia.
  assert (NM : forall z, -M < z < M -> z <> 0 -> z mod M <> 0).
  { intros z Hz Nz E. apply Z.mod_divide in E as [q Hq]; [|lia]. clearbody M.
    destruct (Z.lt_trichotomy q 0) as [Q|[->|Q]]; nia. }
  assert (G : forall a b, (a - b) mod M <> 0 -> a mod M <> b mod M).
  { intros a b H E. apply H. rewrite Zminus_mod, E, Z.sub_diag. reflexivity. }
  assert (D : (num s1 w2 (2 ^ w2 - 1) - num s2 w2 (2 ^ w2 - 1)) = 2 ^ w2 \/ (num s1 w2 (2 ^ w2 - 1) - num s2 w2 (2 ^ w2 - 1)) = - 2 ^ w2).
  { destruct s1, s2; try congruence; rewrite num_ones_true by lia; cbn [num andb]; lia. }
  set (P := num s1 w2 (2 ^ w2 - 1)) in *. set (Q := num s2 w2 (2 ^ w2 - 1)) in *.
  assert (RM : forall a, (a mod M) mod M = a mod M) by (intros a; apply Z.mod_mod; lia).
  destruct o; try discriminate A; cbn in V; injection V as <-; cbn [is_rel bin_math bop_of]; rewrite ?num_0 by lia; rewrite ?N1; rewrite RM.
  - rewrite <- Zplus_mod. apply G. replace (0 + P - (0 + Q)) with (P - Q) by lia. apply NM; lia.
  - rewrite <- Zminus_mod. apply G. replace (0 - P - (0 - Q)) with (Q - P) by lia. apply NM; lia.
  - rewrite <- Zmult_mod. apply G. replace (1 * P - 1 * Q) with (P - Q) by lia. apply NM; lia.
Qed.

Lemma leb_b2z_01 b : 0 <= b2z b < 2. Proof. destruct b; cbn; lia. Qed.
(** comparisons outside [cmp_cond] *)
Lemma cmp_wrong o v s1 w1 s2 w2 : lib_vop o = Some v -> is_compare o = true -> 1 <= w1 -> 1 <= w2 -> ~ cmp_cond o s1 s2 w1 w2 ->
  exists x y, word w1 x /\ word w2 y /\
    body v (mkP false 1) (mkP s1 w1) (mkP s2 w2) x y mod 2 ^ 1 <> bin_math o (num s1 w1 x) (num s2 w2 y) mod 2 ^ 1.
Proof.
  intros V A P1 P2 C.
  assert (R : is_rel v = true /\ bop_of v = o) by (destruct o; try discriminate A; injection V as <-; auto).
  destruct R as [R B].
  assert (BV : forall x y, body v (mkP false 1) (mkP s1 w1) (mkP s2 w2) x y =
    bin_math o (num (s1 && s2) (Z.max w1 w2) x) (num (s1 && s2) (Z.max w1 w2) y)).
  { intros x y. unfold body, prep, pw. rewrite R, B. reflexivity. }
  assert (T1 := pow_le 1 w1 ltac:(lia)). assert (T2 := pow_le 1 w2 ltac:(lia)). change (2 ^ 1) with 2 in T1, T2.
  assert (NS : forall w z k, 1 <= w -> w < k -> word w z -> num true k z = z).
  { intros w z k Hw Hk Hz. unfold num. cbn [andb]. unfold word in Hz. pose proof (pow_le w (k - 1) ltac:(lia)).
    destruct (Z.leb_spec (2 ^ (k - 1)) z); lia. }
  assert (HL : forall w k, 1 <= w -> w < k -> 2 ^ w < 2 ^ k) by (intros w k H1 H2; apply Z.pow_lt_mono_r; lia).
  destruct s1, s2.
  - (* both signed, different widths: -1 in the narrower one *)
    destruct (Z.lt_trichotomy w1 w2) as [L|[->|L]]; [|exfalso; apply C; right; left; auto|].
    + assert (MX : Z.max w1 w2 = w2) by lia. assert (HL' := HL w1 w2 P1 L).
      assert (N1 := NS w1 (2 ^ w1 - 1) w2 P1 L (word_ones w1 P1)). assert (N2 := num_ones_true w1 P1).
      destruct o; try discriminate A.
      all: [> exists (2 ^ w1 - 1), 0 | exists (2 ^ w1 - 1), 0 | exists (2 ^ w1 - 1), 0 | exists (2 ^ w1 - 1), 0
            | exists (2 ^ w1 - 1), (2 ^ w2 - 1) | exists (2 ^ w1 - 1), (2 ^ w2 - 1)].
      all: split; [apply word_ones; lia|]; split; [(apply word_0; lia) || (apply word_ones; lia)|].
      all: rewrite BV; cbn [andb]; rewrite MX, N1, N2, ?num_0, ?num_ones_true by lia; cbn [bin_math].
      all: repeat match goal with |- context [?a <? ?b] => destruct (Z.ltb_spec a b) | |- context [?a <=? ?b] => destruct (Z.leb_spec a b) | |- context [?a =? ?b] => destruct (Z.eqb_spec a b) end; cbn [b2z negb]; try lia; discriminate.
    + assert (MX : Z.max w1 w2 = w1) by lia. assert (HL' := HL w2 w1 P2 L).
      assert (N1 := NS w2 (2 ^ w2 - 1) w1 P2 L (word_ones w2 P2)). assert (N2 := num_ones_true w2 P2).
      destruct o; try discriminate A.
      all: [> exists 0, (2 ^ w2 - 1) | exists 0, (2 ^ w2 - 1) | exists 0, (2 ^ w2 - 1) | exists 0, (2 ^ w2 - 1)
            | exists (2 ^ w1 - 1), (2 ^ w2 - 1) | exists (2 ^ w1 - 1), (2 ^ w2 - 1)].
      all: split; [(apply word_0; lia) || (apply word_ones; lia)|]; split; [apply word_ones; lia|].
      all: rewrite BV; cbn [andb]; rewrite MX, N1, N2, ?num_0, ?num_ones_true by lia; cbn [bin_math].
      all: repeat match goal with |- context [?a <? ?b] => destruct (Z.ltb_spec a b) | |- context [?a <=? ?b] => destruct (Z.leb_spec a b) | |- context [?a =? ?b] => destruct (Z.eqb_spec a b) end; cbn [b2z negb]; try lia; discriminate.
  - (* signed against unsigned *)
    assert (N2 := num_ones_true w1 P1).
    assert (E : (o = EQ \/ o = NEQ) -> w1 <= w2).
    { intros O. destruct (Z.le_gt_cases w1 w2); [assumption|]. exfalso. apply C. right. right. split; [exact O|]. left. auto. }
    assert (PL : w1 <= w2 -> 2 ^ w1 <= 2 ^ w2) by (intros; apply pow_le; lia).
    destruct o; try discriminate A.
    all: [> exists (2 ^ w1 - 1), 0 | exists (2 ^ w1 - 1), 0 | exists (2 ^ w1 - 1), 0 | exists (2 ^ w1 - 1), 0
          | exists (2 ^ w1 - 1), (2 ^ w1 - 1) | exists (2 ^ w1 - 1), (2 ^ w1 - 1)].
    all: split; [apply word_ones; lia|]; split; [(apply word_0; lia) || (specialize (E ltac:(auto)); unfold word; lia)|].
    all: rewrite BV; cbn [andb]; rewrite !num_false, N2; cbn [bin_math].
    all: repeat match goal with |- context [?a <? ?b] => destruct (Z.ltb_spec a b) | |- context [?a <=? ?b] => destruct (Z.leb_spec a b) | |- context [?a =? ?b] => destruct (Z.eqb_spec a b) end; cbn [b2z negb]; try lia; discriminate.
  - (* unsigned against signed *)
    assert (N2 := num_ones_true w2 P2).
    assert (E : (o = EQ \/ o = NEQ) -> w2 <= w1).
    { intros O. destruct (Z.le_gt_cases w2 w1); [assumption|]. exfalso. apply C. right. right. split; [exact O|]. right. auto. }
    assert (PL : w2 <= w1 -> 2 ^ w2 <= 2 ^ w1) by (intros; apply pow_le; lia).
    destruct o; try discriminate A.
    all: [> exists 0, (2 ^ w2 - 1) | exists 0, (2 ^ w2 - 1) | exists 0, (2 ^ w2 - 1) | exists 0, (2 ^ w2 - 1)
          | exists (2 ^ w2 - 1), (2 ^ w2 - 1) | exists (2 ^ w2 - 1), (2 ^ w2 - 1)].
    all: split; [(apply word_0; lia) || (specialize (E ltac:(auto)); unfold word; lia)|]; split; [apply word_ones; lia|].
    all: rewrite BV; cbn [andb]; rewrite !num_false, N2; cbn [bin_math].
    all: repeat match goal with |- context [?a <? ?b] => destruct (Z.ltb_spec a b) | |- context [?a <=? ?b] => destruct (Z.leb_spec a b) | |- context [?a =? ?b] => destruct (Z.eqb_spec a b) end; cbn [b2z negb]; try lia; discriminate.
  - exfalso. apply C. left. auto.
Qed.

(** exactly these operand types are handled correctly *)
Theorem bin_exact o s1 w1 s2 w2 lat m : is_arith o = true \/ is_compare o = true -> 1 <= w1 -> 1 <= w2 -> 0 <= lat ->
  lib_module (DBin o) [int_type s1 w1; int_type s2 w2] (result_type o (int_type s1 w1)) lat m ->
  (delivers m (two_words w1 w2) lat (exact_result o s1 w1 s2 w2) <-> bin_legal o s1 lat /\ bin_cond o s1 s2 w1 w2).
Proof.
  intros O P1 P2 L LM. split.
  - intros D.
    destruct (lib_vop_some o O) as (v & V & BW & B & R).
    pose proof (lib_bin o v (result_type o (int_type s1 w1)) (int_type s1 w1) (int_type s2 w2) lat V BW L) as LM'.
    rewrite (lib_fun _ _ _ _ _ _ LM LM') in D. clear m LM LM'. rewrite !port_int in D.
    assert (LG : bin_legal o s1 lat).
    { unfold bin_legal. destruct (Z.lt_trichotomy 0 lat) as [H|[H|H]]; [auto| |lia]. subst lat.
      destruct s1; [|auto]. destruct (is_compare o) eqn:IC; [auto|]. exfalso.
      destruct (D (const_ins 0 0)) as [EX _].
      { intros t. split; apply word_0; lia. }
      destruct (EX (fun _ => 0)) as (Rn & RN & _).
      { intros i w k E. apply reg_width in E as ->. apply word_0. unfold rw, pw. cbn. destruct (is_rel v); lia. }
      eapply (signed_comb_no_run v); [|exists Rn; exact RN]. unfold result_type. rewrite IC, port_int. reflexivity. }
    split; [exact LG|].
    pose proof (bin_ok_of o v s1 w1 s2 w2 lat R P1 P2 L LG) as OK.
    unfold bin_cond. destruct (is_compare o) eqn:IC.
    + assert (DD : cmp_cond o s1 s2 w1 w2 \/ ~ cmp_cond o s1 s2 w1 w2).
      { unfold cmp_cond. destruct s1, s2, (Z.eq_dec w1 w2), (Z_lt_dec w2 w1), (Z_lt_dec w1 w2); destruct o; try discriminate IC;
          first [left; intuition (congruence || lia)|right; intuition (congruence || lia)]. }
      destruct DD as [DD|DD]; [exact DD|]. exfalso.
      destruct (cmp_wrong o v s1 w1 s2 w2 V IC P1 P2 DD) as (x & y & X & Y & NE).
      revert D. unfold result_type in OK |- *. rewrite IC in OK |- *. unfold bool_type in OK |- *. rewrite port_int in OK |- *.
      eapply (wrong_delivery v _ _ _ lat _ _ x y OK X Y); [split; assumption|].
      unfold exact_result, result_width. rewrite IC. exact NE.
    + assert (IA : is_arith o = true) by (destruct O; congruence).
      unfold arith_cond. destruct (Z.le_gt_cases w1 w2) as [|G]; [auto|]. right. destruct (Bool.bool_dec s1 s2) as [|NS]; [assumption|]. exfalso.
      destruct (arith_wrong o v s1 w1 s2 w2 V IA P2 ltac:(lia) NS) as (x & y & X & Y & NE).
      revert D. unfold result_type in OK |- *. rewrite IC in OK |- *. rewrite port_int in OK |- *.
      eapply (wrong_delivery v _ _ _ lat _ _ x y OK X Y); [split; assumption|].
      unfold exact_result, result_width. rewrite IC. exact NE.
  - intros [LG C]. destruct (bin_delivers o s1 w1 s2 w2 lat O P1 P2 L LG C) as (m' & LM' & D).
    now rewrite (lib_fun _ _ _ _ _ _ LM LM').
Qed.

(** ** FIFOs *)
Theorem fifo_delivers t lat : 1 <= p_width (port_type t) -> 1 <= lat ->
  exists m, lib_module DLatency [t] t lat m /\
    delivers m (fun x => word (p_width (port_type t)) (x ARG1)) lat (fun x => x ARG1).
Proof.
  intros W L. eexists. split; [apply lib_fifo; lia|]. intros ins OK. split.
  - intros init II. apply fifo_exists; auto. intros i. apply (II i _ (lat - 1 + 1)). reflexivity.
  - intros R RN t'. now apply (fifo_run (port_type t)).
Qed.

(** ** Casts *)
Definition cast_result (s1 : bool) (w1 w2 : Z) (x : vname -> Z) : Z := num s1 w1 (x ARG1) mod 2 ^ w2.
Definition cast_cond (s1 s2 : bool) (w1 w2 lat : Z) : Prop :=
  w2 <= w1 \/ (s1 = s2 /\ (lat = 0 \/ s1 = false)).
Lemma cast_value s1 s2 w1 w2 x now : 1 <= w1 -> 1 <= w2 -> word w1 x ->
  (w2 <= w1 \/ (s1 = s2 /\ (x = now \/ s1 = false))) ->
  cast_word (mkP s2 w2) (mkP s1 w1) x now mod 2 ^ w2 = num s1 w1 x mod 2 ^ w2.
Proof.
  intros P1 P2 X C. unfold cast_word. cbn [p_signed p_width]. unfold word in X.
  destruct (Z.le_gt_cases w2 w1) as [LE|GT].
  - replace (Z.max (w2 - w1) 0) with 0 by lia. change (2 ^ 0 - 1) with 0. rewrite Z.mul_0_r, Z.mul_0_l, Z.add_0_l.
    symmetry. apply num_mod_le. lia.
  - destruct C as [C|(-> & C)]; [lia|]. rewrite Z.max_l by lia.
    assert (O : ones s2 w1 now = ones s2 w1 x) by (destruct C as [-> | ->]; reflexivity).
    rewrite O. pose proof (ext_value s2 w1 (w2 - w1) x P1 ltac:(lia) X) as E.
    change (2 ^ 1 - 1) with 1 in E. rewrite Z.mul_1_r, Z.div_1_r in E. rewrite E.
    replace (w2 - w1 + w1) with w2 by lia. apply Z.mod_mod. pose proof (pow_pos w2 ltac:(lia)). lia.
Qed.
Lemma cast_exists' res a1 lat ins init : 1 <= p_width a1 -> 1 <= p_width res -> 0 <= lat ->
  (forall t, in_range a1 (ins t ARG1)) ->
  (forall i w k, v_decl (cast_module res a1 lat) REG = Some (DMem w k) -> word w (init i)) ->
  exists R, vrun (cast_module res a1 lat) ins R /\ forall i, 0 <= i -> s_mem (R 0%nat) REG i = init i.
Proof.
  intros W1 W2 L IR II. destruct (Z.eq_dec lat 0) as [->|NZ].
  - destruct (cast_exists res a1 0 ins (fun _ => 0) W1 W2 L IR) as (R & RN & _).
    { intros i. apply word_0. lia. }
    exists (fun t => mkS (s_net (R t)) (fun _ => init)). split; [|reflexivity].
    destruct RN as (A & B & C & D). split; [exact A|]. split; [|split].
    + intros t n e I. destruct (B t n e I) as (s & k & Dn & Av). exists s, k. split; [exact Dn|]. etransitivity; [|exact Av].
      assert (NM : forall m w k, v_decl (cast_module res a1 0) m <> Some (DMem w k)).
      { intros m w j. unfold cast_module. cbn. destruct m; cbn; discriminate. }
      unfold vassigned. destruct (vsize (v_decl (cast_module res a1 0)) e); [|reflexivity].
      rewrite (veval_nomem _ _ (R t)); [reflexivity|exact NM|reflexivity].
    + intros n w k i Dn. exfalso. revert Dn. unfold cast_module. cbn. destruct n; cbn; discriminate.
    + intros L' e V. discriminate V.
  - apply cast_exists; auto. intros i. apply (II i (p_width a1) (lat - 1 + 1)).
    unfold cast_module. destruct (Z.eqb_spec lat 0); [lia|]. reflexivity.
Qed.
Lemma cast_reg res a1 lat w k : v_decl (cast_module res a1 lat) REG = Some (DMem w k) -> w = p_width a1.
Proof. unfold cast_module. destruct (lat =? 0); cbn; intros H; congruence. Qed.

Theorem cast_exact s1 w1 s2 w2 lat m : 1 <= w1 -> 1 <= w2 -> 0 <= lat ->
  lib_module DCast [int_type s1 w1] (int_type s2 w2) lat m ->
  (delivers m (fun x => word w1 (x ARG1)) lat (cast_result s1 w1 w2) <-> cast_cond s1 s2 w1 w2 lat).
Proof.
  intros P1 P2 L LM. pose proof (lib_cast (int_type s2 w2) (int_type s1 w1) lat L) as LM'.
  rewrite (lib_fun _ _ _ _ _ _ LM LM'). clear m LM LM'. rewrite !port_int. split.
  - intros D. destruct (Z.le_gt_cases w2 w1) as [|G]; [left; assumption|]. right.
    (* -1 now, 0 later *)
    pose (ins := fun (t : nat) (n : vname) => match n with ARG1 => if (t =? 0)%nat then 2 ^ w1 - 1 else 0 | _ => 0 end).
    destruct (D ins) as [EX VAL].
    { intros t. unfold ins. destruct (t =? 0)%nat; [apply word_ones; lia|apply word_0; lia]. }
    destruct (EX (fun _ => 0)) as (R & RN & _).
    { intros i w k E. apply cast_reg in E as ->. apply word_0. cbn. lia. }
    specialize (VAL R RN 0%nat). rewrite (cast_run (mkP s2 w2) (mkP s1 w1) lat ins R) in VAL; auto; cbn [p_width]; try lia.
    2: { intros t. unfold ins, in_range. cbn [p_width]. destruct (t =? 0)%nat; [apply word_ones; lia|apply word_0; lia]. }
    assert (GT : 2 * 2 ^ w1 <= 2 ^ w2) by (rewrite <- Z.pow_succ_r by lia; apply pow_le; lia).
    assert (T1 := pow_le 1 w1 ltac:(lia)). change (2 ^ 1) with 2 in T1.
    assert (EP : 2 ^ (w2 - w1) * 2 ^ w1 = 2 ^ w2) by (rewrite <- pow_split by lia; f_equal; lia).
    assert (TOP : 2 ^ (w1 - 1) <= 2 ^ w1 - 1).
    { assert (2 ^ w1 = 2 * 2 ^ (w1 - 1)) by (rewrite <- Z.pow_succ_r by lia; f_equal; lia). pose proof (pow_pos (w1 - 1) ltac:(lia)). lia. }
    unfold cast_word, cast_result in VAL. cbn [p_width p_signed] in VAL. rewrite Z.max_l in VAL by lia.
    assert (I0 : ins 0%nat ARG1 = 2 ^ w1 - 1) by reflexivity. rewrite I0 in VAL. rewrite Nat.add_0_l in VAL.
    assert (O0 : ones s2 w1 0 = 0).
    { unfold ones. pose proof (pow_pos (w1 - 1) ltac:(lia)). destruct (Z.leb_spec (2 ^ (w1 - 1)) 0); [lia|]. now rewrite andb_false_r. }
    assert (O1 : ones s2 w1 (2 ^ w1 - 1) = if s2 then 1 else 0).
    { unfold ones. destruct (Z.leb_spec (2 ^ (w1 - 1)) (2 ^ w1 - 1)); [|lia]. now rewrite andb_true_r. }
    assert (N : num s1 w1 (2 ^ w1 - 1) mod 2 ^ w2 = if s1 then 2 ^ w2 - 1 else 2 ^ w1 - 1).
    { destruct s1; [rewrite num_ones_true by lia|rewrite num_false; apply Z.mod_small; lia].
      symmetry. apply (Z.mod_unique_pos _ _ (-1)); lia. }
    rewrite N in VAL.
    assert (II : ins (Z.to_nat lat) ARG1 = if lat =? 0 then 2 ^ w1 - 1 else 0).
    { unfold ins. destruct (Z.eqb_spec lat 0) as [->|NZ]; [reflexivity|]. destruct (Nat.eqb_spec (Z.to_nat lat) 0); [lia|reflexivity]. }
    rewrite II in VAL.
    destruct (Z.eqb_spec lat 0) as [E0|NZ].
    + rewrite O1 in VAL. split; [|auto]. destruct s1, s2; auto; exfalso; cbv iota in VAL; rewrite ?O1 in VAL; cbv iota in VAL.
      * rewrite ?Z.mul_0_l, Z.add_0_l, Z.mod_small in VAL by lia. lia.
      * replace (1 * (2 ^ (w2 - w1) - 1) * 2 ^ w1 + (2 ^ w1 - 1)) with (2 ^ w2 - 1) in VAL by lia. rewrite Z.mod_small in VAL by lia. lia.
    + rewrite O0, ?Z.mul_0_l, Z.add_0_l, Z.mod_small in VAL by lia.
      destruct s1; [exfalso; lia|]. destruct s2; [|auto]. exfalso.
      (* unsigned to signed: the current argument has its top bit set *)
      pose (ins2 := fun (t : nat) (n : vname) => match n with ARG1 => 2 ^ w1 - 1 | _ => 0 end).
      destruct (D ins2) as [EX2 VAL2].
      { intros t. apply word_ones; lia. }
      destruct (EX2 (fun _ => 0)) as (R2 & RN2 & _).
      { intros i w k E. apply cast_reg in E as ->. apply word_0. cbn. lia. }
      specialize (VAL2 R2 RN2 0%nat). rewrite (cast_run (mkP true w2) (mkP false w1) lat ins2 R2) in VAL2; auto; cbn [p_width]; try lia.
      2: { intros t. unfold in_range, ins2. cbn [p_width]. apply word_ones; lia. }
      unfold cast_word, cast_result in VAL2. cbn [p_width p_signed] in VAL2. rewrite Z.max_l in VAL2 by lia.
      assert (J : forall t, ins2 t ARG1 = 2 ^ w1 - 1) by reflexivity. rewrite !J, O1, num_false in VAL2.
      cbn iota in VAL2. replace (1 * (2 ^ (w2 - w1) - 1) * 2 ^ w1 + (2 ^ w1 - 1)) with (2 ^ w2 - 1) in VAL2 by lia. rewrite !Z.mod_small in VAL2 by lia. lia.
  - intros C ins OK. split.
    + intros init II. apply cast_exists'; auto.
    + intros R RN t. rewrite (cast_run (mkP s2 w2) (mkP s1 w1) lat ins R) by auto.
      cbn [p_width]. apply cast_value; auto.
      destruct C as [C|(-> & [-> |C])]; [auto|right|auto]. split; [reflexivity|]. left. now rewrite Nat.add_0_r.
Qed.
