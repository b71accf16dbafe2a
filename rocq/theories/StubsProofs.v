(** Proofs about the generated library modules. *)
From Coq Require Import ZArith Bool List Lia.
From Verif Require Import Types Word Value OpSpec HwSpec HwProofs Verilog Stubs NamingProofs.
Import ListNotations.
Local Open Scope Z_scope.

Lemma pow_split a b : 0 <= a -> 0 <= b -> 2 ^ (a + b) = 2 ^ a * 2 ^ b.
Proof. apply Z.pow_add_r. Qed.
Lemma pow_pos a : 0 <= a -> 0 < 2 ^ a.
Proof. intros. apply Z.pow_pos_nonneg; lia. Qed.
Lemma pow_le a b : 0 <= a <= b -> 2 ^ a <= 2 ^ b.
Proof. intros. apply Z.pow_le_mono_r; lia. Qed.
Lemma vext_false k W x : 0 <= k <= W -> 0 <= x < 2 ^ k -> vext false k W x = x.
Proof. intros H X. unfold vext, num. cbn [andb]. pose proof (pow_le k W H). apply Z.mod_small. lia. Qed.
Lemma vext_same S k x : 0 <= k -> 0 <= x < 2 ^ k -> vext S k k x = x.
Proof. intros H X. unfold vext. rewrite num_mod by lia. now apply Z.mod_small. Qed.
Lemma num_range k x s : 1 <= k -> 0 <= x < 2 ^ k -> - 2 ^ (k - 1) <= num s k x < 2 ^ k.
Proof.
  intros H X. unfold num. pose proof (pow_pos (k - 1) ltac:(lia)).
  assert (2 ^ k = 2 * 2 ^ (k - 1)) by (rewrite <- Z.pow_succ_r by lia; f_equal; lia).
  destruct (Z.leb_spec (2 ^ (k - 1)) x); destruct s; cbn [andb]; lia.
Qed.
Lemma vbit_top k x : 1 <= k -> 0 <= x < 2 ^ k -> vbit x (k - 1) = if 2 ^ (k - 1) <=? x then 1 else 0.
Proof.
  intros H X. unfold vbit. pose proof (pow_pos (k - 1) ltac:(lia)).
  assert (E : 2 ^ k = 2 * 2 ^ (k - 1)) by (rewrite <- Z.pow_succ_r by lia; f_equal; lia).
  destruct (Z.leb_spec (2 ^ (k - 1)) x).
  - replace (x / 2 ^ (k - 1)) with 1; [reflexivity|].
    apply (Z.div_unique_pos _ _ 1 (x - 2 ^ (k - 1))); lia.
  - rewrite Z.div_small by lia. reflexivity.
Qed.

(** [{rep{b}}, x}]: [b] ones or zeros in front of [x] *)
Definition ones (s : bool) (w x : Z) : Z := if s && (2 ^ (w - 1) <=? x) then 1 else 0.
Lemma ext_value (s : bool) w rep x : 1 <= w -> 0 <= rep -> 0 <= x < 2 ^ w ->
  ones s w x * ((2 ^ (rep * 1) - 1) / (2 ^ 1 - 1)) * 2 ^ w + x = num s w x mod 2 ^ (rep + w).
Proof.
  intros W R X. change (2 ^ 1 - 1) with 1. rewrite Z.mul_1_r, Z.div_1_r.
  pose proof (pow_pos w ltac:(lia)). pose proof (pow_pos rep R).
  assert (E : 2 ^ w = 2 * 2 ^ (w - 1)) by (rewrite <- Z.pow_succ_r by lia; f_equal; lia).
  rewrite pow_split by lia. unfold ones, num. destruct s; cbn [andb]; [destruct (Z.leb_spec (2 ^ (w - 1)) x)|].
  - rewrite Z.mul_1_l. apply (Z.mod_unique_pos _ _ (-1)); nia.
  - rewrite Z.mul_0_l, Z.add_0_l. symmetry. apply Z.mod_small. nia.
  - rewrite Z.mul_0_l, Z.add_0_l. symmetry. apply Z.mod_small. nia.
Qed.

Section Values.
Variable d : vname -> option vdecl.
Variable st : vstate.

(** the replicated bit of [REPEAT_VAL] *)
Lemma repl_value n sg w s rep : d n = Some (DNet sg w) -> 1 <= w -> 0 <= rep -> 0 <= s_net st n < 2 ^ w ->
  let e := VRepl rep (if s : bool then VBit n (w - 1) else VZero) in
  vsize d e = Some (rep * 1) /\
  veval d st (rep * 1) (vsigned d e) e = Some (ones s w (s_net st n) * ((2 ^ (rep * 1) - 1) / (2 ^ 1 - 1))).
Proof.
  intros D W R X.
  assert (SZ : vsize d (if s then VBit n (w - 1) else VZero) = Some 1).
  { destruct s; [|reflexivity]. cbn [vsize]. rewrite D. destruct (Z.leb_spec 0 (w - 1)); [|lia].
    destruct (Z.ltb_spec (w - 1) w); [|lia]. reflexivity. }
  assert (SG : vsigned d (if s then VBit n (w - 1) else VZero) = false) by (destruct s; reflexivity).
  assert (EV : veval d st 1 false (if s then VBit n (w - 1) else VZero) = Some (ones s w (s_net st n))).
  { destruct s; cbn [veval].
    - cbn [vsize] in SZ. cbn [vsize]. rewrite SZ. rewrite vbit_top by assumption. unfold ones. cbn [andb].
      destruct (2 ^ (w - 1) <=? s_net st n); reflexivity.
    - reflexivity. }
  cbn zeta. assert (E : vsize d (VRepl rep (if s then VBit n (w - 1) else VZero)) = Some (rep * 1)).
  { cbn [vsize]. rewrite SZ. destruct (Z.leb_spec 0 rep); [reflexivity|lia]. }
  split; [exact E|]. cbn [veval]. rewrite E, SZ, SG, EV. f_equal.
  change (2 ^ 1 - 1) with 1. rewrite Z.mul_1_r, Z.div_1_r. apply vext_same; [lia|].
  pose proof (pow_pos rep R). unfold ones. destruct (s && _); lia.
Qed.

(** the concatenation of the replicated bit with [tl], a net or a memory word *)
Lemma cat_value hd tl a b x y k : vsize d hd = Some a -> vsize d tl = Some b -> 0 <= a -> 0 <= b -> a + b <= k ->
  veval d st a (vsigned d hd) hd = Some x -> veval d st b (vsigned d tl) tl = Some y ->
  0 <= x * 2 ^ b + y < 2 ^ (a + b) ->
  vassigned d st k (VCat hd tl) = Some (x * 2 ^ b + y).
Proof.
  intros A B Pa Pb K X Y R. unfold vassigned. cbn [vsize vsigned]. rewrite A, B. cbn [omap2].
  rewrite Z.max_l by lia. cbn [veval vsize]. rewrite A, B. cbn [omap2]. rewrite X, Y.
  rewrite vext_false by lia. f_equal. apply Z.mod_small. pose proof (pow_le (a + b) k ltac:(lia)). lia.
Qed.

Lemma prep_value n sg w s rep k : d n = Some (DNet sg w) -> 1 <= w -> 0 <= rep -> rep + w <= k ->
  0 <= s_net st n < 2 ^ w ->
  vassigned d st k (VCat (VRepl rep (if s : bool then VBit n (w - 1) else VZero)) (VNet n)) =
  Some (num s w (s_net st n) mod 2 ^ (rep + w)).
Proof.
  intros D W R K X. destruct (repl_value n sg w s rep D W R X) as [Z1 E1].
  rewrite <- ext_value by assumption.
  apply (cat_value _ _ (rep * 1) w).
  - exact Z1.
  - cbn [vsize]. now rewrite D.
  - lia.
  - lia.
  - lia.
  - exact E1.
  - cbn [veval vsize vsigned]. rewrite D. f_equal. apply vext_same; [lia|exact X].
  - rewrite ext_value by assumption. replace (rep * 1 + w) with (rep + w) by lia. apply Z.mod_pos_bound, pow_pos. lia.
Qed.

(** no replication: the word itself *)
Lemma plain_value r0 tl w k x : vsize d r0 = Some 1 -> (exists b, veval d st 1 (vsigned d r0) r0 = Some b) ->
  vsize d tl = Some w -> 0 <= w <= k ->
  veval d st w (vsigned d tl) tl = Some x -> 0 <= x < 2 ^ w ->
  vassigned d st k (VCat (VRepl 0 r0) tl) = Some x.
Proof.
  intros Z0 [b0 B0] Z1 W E X.
  assert (S0 : vsize d (VRepl 0 r0) = Some 0) by (cbn [vsize]; rewrite Z0; reflexivity).
  replace x with (0 * 2 ^ w + x) by lia.
  apply (cat_value _ _ 0 w); auto; try lia; try (cbn [Z.add]; lia).
  cbn [veval]. rewrite S0, Z0, B0. f_equal. cbn [Z.mul Z.pow]. unfold vext, num. cbn [andb].
  change (2 ^ 0) with 1. apply Z.mod_1_r.
Qed.

Lemma part_value n sg w k : d n = Some (DNet sg w) -> 1 <= k <= w ->
  vassigned d st k (VPart n (k - 1)) = Some (s_net st n mod 2 ^ k).
Proof.
  intros D K. unfold vassigned. cbn [vsize vsigned veval]. rewrite D.
  destruct (Z.leb_spec 0 (k - 1)); [|lia]. destruct (Z.ltb_spec (k - 1) w); [|lia]. cbn [andb].
  replace (k - 1 + 1) with k by lia. rewrite Z.max_id. f_equal.
  rewrite vext_same by (try apply Z.mod_pos_bound, pow_pos; lia). apply Z.mod_mod. pose proof (pow_pos k ltac:(lia)). lia.
Qed.

(** the operator on two nets of the same width *)
Definition bop_of (o : vop) : bop :=
  match o with
  | Vadd => ADD | Vsub => SUB | Vmul => MUL | Vand => AND | Vor => OR | Vxor => XOR
  | Vlt => LESS | Vle => LESSEQ | Vgt => GREATER | Vge => GREATEREQ | Veq => EQ | Vne => NEQ
  end.
Lemma vbin_math o x y : vbin o x y = bin_math (bop_of o) x y.
Proof. destruct o; cbn; try reflexivity; unfold b2z; destruct (x =? y); reflexivity. Qed.
Lemma ring_vop o : is_rel o = false -> ring_op (bop_of o) = true.
Proof. destruct o; cbn; congruence. Qed.

Lemma arith_value o s1 s2 w : is_rel o = false -> 0 <= w ->
  d ARG1P = Some (DNet s1 w) -> d ARG2P = Some (DNet s2 w) ->
  0 <= s_net st ARG1P < 2 ^ w -> 0 <= s_net st ARG2P < 2 ^ w ->
  vassigned d st w (VBin o (VNet ARG1P) (VNet ARG2P)) =
  Some (bin_math (bop_of o) (s_net st ARG1P) (s_net st ARG2P) mod 2 ^ w).
Proof.
  intros R W D1 D2 X Y. unfold vassigned. cbn [vsize vsigned veval]. rewrite D1, D2, R.
  rewrite !Z.max_id. rewrite !vext_same by assumption. f_equal. rewrite Z.mod_mod; [now rewrite vbin_math|].
  pose proof (pow_pos w W). lia.
Qed.
Lemma rel_value o s1 s2 w : is_rel o = true -> 0 <= w ->
  d ARG1P = Some (DNet s1 w) -> d ARG2P = Some (DNet s2 w) ->
  0 <= s_net st ARG1P < 2 ^ w -> 0 <= s_net st ARG2P < 2 ^ w ->
  vassigned d st 1 (VBin o (VNet ARG1P) (VNet ARG2P)) =
  Some (bin_math (bop_of o) (num (s1 && s2) w (s_net st ARG1P)) (num (s1 && s2) w (s_net st ARG2P))).
Proof.
  intros R W D1 D2 X Y. unfold vassigned. cbn [vsize vsigned veval]. rewrite D1, D2, R.
  rewrite !Z.max_id. rewrite (vext_same _ w (s_net st ARG1P)), (vext_same _ w (s_net st ARG2P)) by assumption. f_equal. rewrite <- vbin_math.
  destruct o; try discriminate R; cbn [vbin]; match goal with |- context [if ?c then _ else _] => destruct c end; reflexivity.
Qed.
End Values.

Lemma bin_math_rel o x y : is_rel o = true -> bin_math (bop_of o) x y = 0 \/ bin_math (bop_of o) x y = 1.
Proof. destruct o; cbn; try discriminate; unfold b2z; intros _; match goal with |- context [if ?c then _ else _] => destruct c end; auto. Qed.

(** ** Shift registers *)
Lemma shift_delay (mem : nat -> Z -> Z) (L : Z) (val : nat -> Z) : 0 <= L ->
  (forall t i, 0 < i <= L -> mem (S t) i = mem t (i - 1)) -> (forall t, mem (S t) 0 = val t) ->
  forall t, mem (t + S (Z.to_nat L))%nat L = val t.
Proof.
  intros HL Sh Z0 t.
  assert (G : forall k : nat, Z.of_nat k <= L -> mem (t + S k)%nat (Z.of_nat k) = val t).
  { induction k as [|k IH]; intros K.
    - replace (t + 1)%nat with (S t) by lia. apply Z0.
    - replace (t + S (S k))%nat with (S (t + S k)) by lia. rewrite Sh by lia.
      replace (Z.of_nat (S k) - 1) with (Z.of_nat k) by lia. apply IH. lia. }
  specialize (G (Z.to_nat L) ltac:(lia)). now rewrite Z2Nat.id in G by lia.
Qed.

(** ** Binary modules *)
Definition pw (a1 a2 : ptype) : Z := Z.max (p_width a1) (p_width a2).
Definition rw (o : vop) (a1 a2 : ptype) : Z := if is_rel o then 1 else pw a1 a2.
(** the extended operand *)
Definition prep (o : vop) (res a1 a2 a : ptype) (x : Z) : Z :=
  if is_rel o then x else num (p_signed res) (p_width a) x mod 2 ^ pw a1 a2.
Definition body (o : vop) (res a1 a2 : ptype) (x y : Z) : Z :=
  let X := prep o res a1 a2 a1 x in
  let Y := prep o res a1 a2 a2 y in
  if is_rel o then
    let s := p_signed a1 && p_signed a2 in
    bin_math (bop_of o) (num s (pw a1 a2) X) (num s (pw a1 a2) Y)
  else bin_math (bop_of o) X Y mod 2 ^ pw a1 a2.
Definition bin_ok (o : vop) (res a1 a2 : ptype) (lat : Z) : Prop :=
  1 <= p_width a1 /\ 1 <= p_width a2 /\ 1 <= p_width res <= rw o a1 a2 /\ 0 <= lat /\
  (lat = 0 -> p_signed res = false).
Definition in_range (p : ptype) (x : Z) : Prop := 0 <= x < 2 ^ p_width p.

Lemma prep_range o res a1 a2 a x : 1 <= p_width a -> p_width a <= pw a1 a2 -> in_range a x ->
  0 <= prep o res a1 a2 a x < 2 ^ pw a1 a2.
Proof.
  intros W L X. unfold prep. unfold in_range in X. pose proof (pow_le (p_width a) (pw a1 a2) ltac:(lia)).
  destruct (is_rel o); [lia|]. apply Z.mod_pos_bound, pow_pos. lia.
Qed.
Lemma body_range o res a1 a2 x y : 1 <= p_width a1 -> 0 <= body o res a1 a2 x y < 2 ^ rw o a1 a2.
Proof.
  intros W. unfold body, rw. destruct (is_rel o) eqn:E.
  - destruct (bin_math_rel o (num (p_signed a1 && p_signed a2) (pw a1 a2) (prep o res a1 a2 a1 x))
      (num (p_signed a1 && p_signed a2) (pw a1 a2) (prep o res a1 a2 a2 y)) E) as [-> | ->]; change (2 ^ 1) with 2; lia.
  - apply Z.mod_pos_bound, pow_pos. unfold pw. lia.
Qed.

(** the values of the preparation, at any state with inputs in range *)
Lemma bin_prep o res a1 a2 lat st x y (n := ARG1) : bin_ok o res a1 a2 lat -> in_range a1 x -> in_range a2 y ->
  s_net st ARG1 = x -> s_net st ARG2 = y ->
  let m := bin_module o res a1 a2 lat in
  (forall e s k, In (ARG1P, e) (v_assign m) -> v_decl m ARG1P = Some (DNet s k) ->
     vassigned (v_decl m) st k e = Some (prep o res a1 a2 a1 x)) /\
  (forall e s k, In (ARG2P, e) (v_assign m) -> v_decl m ARG2P = Some (DNet s k) ->
     vassigned (v_decl m) st k e = Some (prep o res a1 a2 a2 y)).
Proof.
  intros (W1 & W2 & (W3 & W3') & L & LS) X Y E1 E2 m. unfold in_range in X, Y.
  assert (P1 : prep o res a1 a2 a1 x = num (if is_rel o then false else p_signed res) (p_width a1) x mod 2 ^ (Z.max (rw o a1 a2 - p_width a1) 0 + p_width a1)).
  { unfold prep, rw. destruct (is_rel o).
    - rewrite Z.max_r by lia. symmetry. apply Z.mod_small. exact X.
    - do 2 f_equal. unfold pw. lia. }
  assert (P2 : prep o res a1 a2 a2 y = num (if is_rel o then false else p_signed res) (p_width a2) y mod 2 ^ (Z.max (rw o a1 a2 - p_width a2) 0 + p_width a2)).
  { unfold prep, rw. destruct (is_rel o).
    - rewrite Z.max_r by lia. symmetry. apply Z.mod_small. exact Y.
    - do 2 f_equal. unfold pw. lia. }
  assert (Q : forall z w, is_rel o = true -> 0 <= z < 2 ^ w -> 1 <= w -> num (p_signed res) w z mod 2 ^ (0 + w) = num false w z mod 2 ^ (0 + w)).
  { intros z w _ R Wz. rewrite Z.add_0_l, !num_mod by lia. reflexivity. }
  split; intros e s k I D.
  - assert (K : k = pw a1 a2 /\ e = VCat (VRepl (Z.max (rw o a1 a2 - p_width a1) 0) (if p_signed res then VBit ARG1 (p_width a1 - 1) else VZero)) (VNet ARG1) /\
      v_decl m ARG1 = Some (DNet (p_signed a1) (p_width a1))).
    { subst m. unfold bin_module in *. destruct (lat =? 0); cbn in I, D; injection D as <- <-;
        (split; [reflexivity|]; split; [|reflexivity]); destruct I as [I|I]; try (injection I as <-; reflexivity);
        repeat (destruct I as [I|I]; [discriminate I|]); contradiction. }
    destruct K as (-> & -> & D1). rewrite (prep_value _ _ ARG1 (p_signed a1) (p_width a1)); auto.
    + rewrite E1, P1. f_equal. unfold rw. destruct (is_rel o) eqn:RO; [|reflexivity].
      rewrite Z.max_r by lia. now apply Q.
    + lia.
    + unfold rw, pw in *. destruct (is_rel o); lia.
    + now rewrite E1.
  - assert (K : k = pw a1 a2 /\ e = VCat (VRepl (Z.max (rw o a1 a2 - p_width a2) 0) (if p_signed res then VBit ARG2 (p_width a2 - 1) else VZero)) (VNet ARG2) /\
      v_decl m ARG2 = Some (DNet (p_signed a2) (p_width a2))).
    { subst m. unfold bin_module in *. destruct (lat =? 0); cbn in I, D; injection D as <- <-;
        (split; [reflexivity|]; split; [|reflexivity]); destruct I as [I|[I|I]]; try discriminate I; try (injection I as <-; reflexivity);
        repeat (destruct I as [I|I]; [discriminate I|]); contradiction. }
    destruct K as (-> & -> & D1). rewrite (prep_value _ _ ARG2 (p_signed a2) (p_width a2)); auto.
    + rewrite E2, P2. f_equal. unfold rw. destruct (is_rel o) eqn:RO; [|reflexivity].
      rewrite Z.max_r by lia. now apply Q.
    + lia.
    + unfold rw, pw in *. destruct (is_rel o); lia.
    + now rewrite E2.
Qed.

Lemma bin_body o res a1 a2 lat st x y : bin_ok o res a1 a2 lat -> in_range a1 x -> in_range a2 y ->
  s_net st ARG1P = prep o res a1 a2 a1 x -> s_net st ARG2P = prep o res a1 a2 a2 y ->
  vassigned (v_decl (bin_module o res a1 a2 lat)) st (rw o a1 a2) (VBin o (VNet ARG1P) (VNet ARG2P)) =
  Some (body o res a1 a2 x y).
Proof.
  intros (W1 & W2 & (W3 & W3') & L & LS) X Y E1 E2.
  pose proof (prep_range o res a1 a2 a1 x W1 ltac:(unfold pw; lia) X) as RX.
  pose proof (prep_range o res a1 a2 a2 y W2 ltac:(unfold pw; lia) Y) as RY.
  assert (D1 : v_decl (bin_module o res a1 a2 lat) ARG1P = Some (DNet (p_signed a1) (pw a1 a2)))
    by (unfold bin_module; destruct (lat =? 0); reflexivity).
  assert (D2 : v_decl (bin_module o res a1 a2 lat) ARG2P = Some (DNet (p_signed a2) (pw a1 a2)))
    by (unfold bin_module; destruct (lat =? 0); reflexivity).
  assert (0 <= pw a1 a2) by (unfold pw; lia).
  unfold rw, body. destruct (is_rel o) eqn:RO.
  - rewrite (rel_value _ _ o _ _ _ RO H D1 D2) by (rewrite ?E1, ?E2; assumption). now rewrite E1, E2.
  - rewrite (arith_value _ _ o _ _ _ RO H D1 D2) by (rewrite ?E1, ?E2; assumption). now rewrite E1, E2.
Qed.

(** the result word [q] goes to the output *)
Lemma bin_cat o res a1 a2 lat st q : bin_ok o res a1 a2 lat -> 0 <= q < 2 ^ rw o a1 a2 ->
  (if lat =? 0 then s_net st REG else s_mem st REG (lat - 1)) = q ->
  let m := bin_module o res a1 a2 lat in
  forall e s k, In (CATW, e) (v_assign m) -> v_decl m CATW = Some (DNet s k) ->
     vassigned (v_decl m) st k e = Some q.
Proof.
  intros (W1 & W2 & (W3 & W3') & L & LS) Q E m e s k I D.
  assert (RP : 1 <= rw o a1 a2) by (unfold rw, pw; destruct (is_rel o); lia).
  subst m. unfold bin_module in *. fold (pw a1 a2) in *. fold (rw o a1 a2) in *.
  destruct (Z.eqb_spec lat 0) as [->|NZ]; cbn in I, D; injection D as <- <-.
  - repeat (destruct I as [I|I]; [try discriminate I; try (injection I as <-)|]); try contradiction.
    rewrite (LS eq_refl). replace (Z.max (p_width res) (rw o a1 a2)) with (rw o a1 a2) by lia.
    replace (Z.max (p_width res - rw o a1 a2) 0) with 0 by lia.
    apply (plain_value _ _ VZero _ (rw o a1 a2)); cbn [vsize vsigned veval]; try reflexivity; eauto; try lia.
    cbn. f_equal. rewrite E. apply vext_same; [lia|exact Q].
  - repeat (destruct I as [I|I]; [try discriminate I; try (injection I as <-)|]); try contradiction.
    replace (Z.max (p_width res) (rw o a1 a2)) with (rw o a1 a2) by lia.
    replace (Z.max (p_width res - rw o a1 a2) 0) with 0 by lia.
    assert (B1 : (0 <=? lat - 1) = true) by (apply Z.leb_le; lia).
    assert (B2 : (lat - 1 <? lat - 1 + 1) = true) by (apply Z.ltb_lt; lia).
    assert (B3 : (0 <=? rw o a1 a2 - 1) = true) by (apply Z.leb_le; lia).
    assert (B4 : (rw o a1 a2 - 1 <? rw o a1 a2) = true) by (apply Z.ltb_lt; lia).
    apply (plain_value _ _ _ _ (rw o a1 a2)).
    + destruct (p_signed res); cbn; [|reflexivity]. now rewrite B1, B2, B3, B4.
    + destruct (p_signed res); cbn; [|eauto]. rewrite B1, B2, B3, B4. cbn. eauto.
    + cbn. now rewrite B1, B2.
    + lia.
    + cbn. rewrite B1, B2. cbn. f_equal. rewrite E. apply vext_same; [lia|exact Q].
    + exact Q.
Qed.

Lemma bin_res o res a1 a2 lat st q : bin_ok o res a1 a2 lat -> s_net st CATW = q ->
  let m := bin_module o res a1 a2 lat in
  forall e s k, In (RES1, e) (v_assign m) -> v_decl m RES1 = Some (DNet s k) ->
     vassigned (v_decl m) st k e = Some (q mod 2 ^ p_width res).
Proof.
  intros (W1 & W2 & (W3 & W3') & L & LS) Q m e s k I D.
  subst m. unfold bin_module in *. fold (pw a1 a2) in *. fold (rw o a1 a2) in *.
  destruct (lat =? 0); cbn in I, D; injection D as <- <-;
    repeat (destruct I as [I|I]; [try discriminate I; try (injection I as <-)|]); try contradiction;
    rewrite (part_value _ _ CATW false (Z.max (p_width res) (rw o a1 a2))); try reflexivity; try (rewrite Q; reflexivity); lia.
Qed.

Lemma run_assign m ins R t n e v : vrun m ins R -> In (n, e) (v_assign m) ->
  (forall s k, v_decl m n = Some (DNet s k) -> vassigned (v_decl m) (R t) k e = Some v) -> s_net (R t) n = v.
Proof.
  intros (_ & A & _) I H. destruct (A t n e I) as (s & k & D & E). specialize (H s k D). congruence.
Qed.

Lemma bin_run o res a1 a2 lat ins R : bin_ok o res a1 a2 lat -> vrun (bin_module o res a1 a2 lat) ins R ->
  (forall t, in_range a1 (ins t ARG1) /\ in_range a2 (ins t ARG2)) ->
  forall t, vout R (t + Z.to_nat lat) = body o res a1 a2 (ins t ARG1) (ins t ARG2) mod 2 ^ p_width res.
Proof.
  intros OK RN IR t. pose proof RN as (IN & AS & _ & SH).
  assert (I1 : forall t, s_net (R t) ARG1 = ins t ARG1) by (intros u; apply IN; now left).
  assert (I2 : forall t, s_net (R t) ARG2 = ins t ARG2) by (intros u; apply IN; now right).
  assert (P : forall t, s_net (R t) ARG1P = prep o res a1 a2 a1 (ins t ARG1) /\ s_net (R t) ARG2P = prep o res a1 a2 a2 (ins t ARG2)).
  { intros u. destruct (IR u) as [X Y].
    destruct (bin_prep o res a1 a2 lat (R u) _ _ OK X Y (I1 u) (I2 u)) as [G1 G2]. split.
    - eapply run_assign; [exact RN|unfold bin_module; destruct (lat =? 0); left; reflexivity|].
      intros s k D. eapply G1; [unfold bin_module; destruct (lat =? 0); left; reflexivity|exact D].
    - eapply run_assign; [exact RN|unfold bin_module; destruct (lat =? 0); right; left; reflexivity|].
      intros s k D. eapply G2; [unfold bin_module; destruct (lat =? 0); right; left; reflexivity|exact D]. }
  assert (BV : forall t, vassigned (v_decl (bin_module o res a1 a2 lat)) (R t) (rw o a1 a2) (VBin o (VNet ARG1P) (VNet ARG2P)) = Some (body o res a1 a2 (ins t ARG1) (ins t ARG2))).
  { intros u. destruct (IR u), (P u). now apply bin_body. }
  destruct OK as (W1 & W2 & W3 & L & LS). pose proof (conj W1 (conj W2 (conj W3 (conj L LS))) : bin_ok o res a1 a2 lat) as OK.
  set (q := body o res a1 a2 (ins t ARG1) (ins t ARG2)) in *.
  assert (RQ : 0 <= q < 2 ^ rw o a1 a2) by now apply body_range.
  assert (Q : (if lat =? 0 then s_net (R (t + Z.to_nat lat)%nat) REG else s_mem (R (t + Z.to_nat lat)%nat) REG (lat - 1)) = q).
  { destruct (Z.eqb_spec lat 0) as [E|NZ].
    - replace (t + Z.to_nat lat)%nat with t by lia.
      eapply run_assign; [exact RN|unfold bin_module; rewrite E; right; right; left; reflexivity|].
      intros s k D. assert (k = rw o a1 a2) as ->; [|apply BV]. unfold bin_module in D. rewrite E in D. cbn in D. injection D as _ D. rewrite <- D. reflexivity.
    - assert (VS : v_shift (bin_module o res a1 a2 lat) = Some (lat - 1, VBin o (VNet ARG1P) (VNet ARG2P))).
      { unfold bin_module. destruct (Z.eqb_spec lat 0); [lia|reflexivity]. }
      destruct (SH _ _ VS) as (w & k & D & KL & ST).
      assert (w = rw o a1 a2) as ->.
      { unfold bin_module in D. destruct (Z.eqb_spec lat 0); [lia|]. cbn in D. injection D as D _. rewrite <- D. reflexivity. }
      replace (t + Z.to_nat lat)%nat with (t + S (Z.to_nat (lat - 1)))%nat by lia.
      apply (shift_delay (fun t i => s_mem (R t) REG i) (lat - 1) (fun t => body o res a1 a2 (ins t ARG1) (ins t ARG2))).
      + lia.
      + intros u i Hi. now apply ST.
      + intros u. destruct (ST u) as [_ S0]. rewrite BV in S0. congruence. }
  assert (C : s_net (R (t + Z.to_nat lat)%nat) CATW = q).
  { assert (X : exists e, In (CATW, e) (v_assign (bin_module o res a1 a2 lat))).
    { unfold bin_module. destruct (lat =? 0); cbn; eauto 10. }
    destruct X as [e X]. eapply run_assign; [exact RN|exact X|]. intros s k D.
    eapply (bin_cat o res a1 a2 lat _ q OK RQ Q); eassumption. }
  assert (X : exists e, In (RES1, e) (v_assign (bin_module o res a1 a2 lat))).
  { unfold bin_module. destruct (lat =? 0); cbn; eauto 10. }
  destruct X as [e X]. unfold vout. eapply run_assign; [exact RN|exact X|]. intros s k D.
  eapply bin_res; eassumption.
Qed.

(** contents of a shift register fed with [val], arbitrary before *)
Definition shift_mem (val : nat -> Z) (init : Z -> Z) (t : nat) (i : Z) : Z :=
  if Z.of_nat t <=? i then init (i - Z.of_nat t) else val (t - 1 - Z.to_nat i)%nat.
Lemma shift_mem_0 val init t : shift_mem val init (S t) 0 = val t.
Proof. unfold shift_mem. destruct (Z.leb_spec (Z.of_nat (S t)) 0); [lia|]. f_equal. lia. Qed.
Lemma shift_mem_S val init t i : 0 < i -> shift_mem val init (S t) i = shift_mem val init t (i - 1).
Proof.
  intros H. unfold shift_mem. destruct (Z.leb_spec (Z.of_nat (S t)) i), (Z.leb_spec (Z.of_nat t) (i - 1)); try lia; f_equal; lia.
Qed.
Lemma shift_mem_init val init i : 0 <= i -> shift_mem val init 0 i = init i.
Proof. intros H. unfold shift_mem. destruct (Z.leb_spec (Z.of_nat 0) i); [|lia]. f_equal. lia. Qed.

Lemma bin_exists o res a1 a2 lat ins init : bin_ok o res a1 a2 lat ->
  (forall t, in_range a1 (ins t ARG1) /\ in_range a2 (ins t ARG2)) ->
  (forall i, 0 <= init i < 2 ^ rw o a1 a2) ->
  exists R, vrun (bin_module o res a1 a2 lat) ins R /\ forall i, 0 <= i -> s_mem (R 0%nat) REG i = init i.
Proof.
  intros OK IR II.
  pose (val t := body o res a1 a2 (ins t ARG1) (ins t ARG2)).
  pose (mem t i := shift_mem val init t i).
  pose (q t := if lat =? 0 then val t else mem t (lat - 1)).
  pose (R t := mkS (fun n => match n with
      | ARG1 => ins t ARG1 | ARG2 => ins t ARG2
      | ARG1P => prep o res a1 a2 a1 (ins t ARG1) | ARG2P => prep o res a1 a2 a2 (ins t ARG2)
      | REG => val t | CATW => q t | RES1 => q t mod 2 ^ p_width res end) (fun _ i => mem t i)).
  destruct OK as (W1 & W2 & W3 & L & LS). pose proof (conj W1 (conj W2 (conj W3 (conj L LS))) : bin_ok o res a1 a2 lat) as OK.
  assert (VR : forall t, 0 <= val t < 2 ^ rw o a1 a2) by (intros t; now apply body_range).
  assert (MR : forall t i, 0 <= mem t i < 2 ^ rw o a1 a2).
  { intros t i. unfold mem, shift_mem. destruct (_ <=? _); [apply II|apply VR]. }
  assert (QR : forall t, 0 <= q t < 2 ^ rw o a1 a2).
  { intros t. unfold q. destruct (lat =? 0); [apply VR|apply MR]. }
  exists R. split; [split; [|split; [|split]]|].
  - intros t n [->| ->]; reflexivity.
  - intros t n e I. destruct (IR t) as [X Y].
    destruct (bin_prep o res a1 a2 lat (R t) _ _ OK X Y eq_refl eq_refl) as [G1 G2].
    assert (GB : vassigned (v_decl (bin_module o res a1 a2 lat)) (R t) (rw o a1 a2) (VBin o (VNet ARG1P) (VNet ARG2P)) = Some (val t)).
    { now apply bin_body. }
    assert (GQ : (if lat =? 0 then s_net (R t) REG else s_mem (R t) REG (lat - 1)) = q t) by reflexivity.
    pose proof (bin_cat o res a1 a2 lat (R t) (q t) OK (QR t) GQ) as GC.
    pose proof (bin_res o res a1 a2 lat (R t) (q t) OK eq_refl) as GR. cbn zeta in GC, GR, G1, G2.
    assert (D : exists s k, v_decl (bin_module o res a1 a2 lat) n = Some (DNet s k) /\ (n = REG -> k = rw o a1 a2 /\ e = VBin o (VNet ARG1P) (VNet ARG2P))).
    { revert I. unfold bin_module. destruct (lat =? 0); cbn; intros I;
      repeat (destruct I as [I|I]; [injection I as <- <-; eexists _, _; split; [reflexivity|]; intros K; try discriminate K; auto|]); contradiction. }
    destruct D as (s & k & D & DR). exists s, k. split; [exact D|].
    destruct n; try (now eauto).
    + exfalso. revert I. unfold bin_module. destruct (lat =? 0); cbn; intros I; repeat (destruct I as [I|I]; [discriminate I|]); exact I.
    + exfalso. revert I. unfold bin_module. destruct (lat =? 0); cbn; intros I; repeat (destruct I as [I|I]; [discriminate I|]); exact I.
    + destruct (DR eq_refl) as [-> ->]. exact GB.
  - intros n w k i D. assert (w = rw o a1 a2) as ->; [|apply MR].
    revert D. unfold bin_module. destruct (lat =? 0), n; cbn; intros D; try discriminate D. injection D as D _. rewrite <- D. reflexivity.
  - intros L' e V. assert (NZ : lat <> 0) by (intros ->; discriminate V).
    unfold bin_module in V. destruct (Z.eqb_spec lat 0) as [?|_]; [lia|]. cbn in V. injection V as <- <-.
    exists (rw o a1 a2), (lat - 1 + 1). split; [|split; [lia|]].
    + unfold bin_module. destruct (Z.eqb_spec lat 0) as [?|_]; [lia|]. reflexivity.
    + intros t. split; [intros i Hi; apply shift_mem_S; lia|]. destruct (IR t) as [X Y].
      rewrite (bin_body o res a1 a2 lat (R t) (ins t ARG1) (ins t ARG2)) by (auto; reflexivity).
      f_equal. symmetry. apply shift_mem_0.
  - intros i Hi. apply (shift_mem_init val init i Hi).
Qed.

(** ** FIFO modules *)
Lemma fifo_run res lat ins R : 1 <= p_width res -> 1 <= lat -> vrun (fifo_module res lat) ins R ->
  (forall t, in_range res (ins t ARG1)) -> forall t, vout R (t + Z.to_nat lat) = ins t ARG1.
Proof.
  intros W L RN IR t. pose proof RN as (IN & AS & _ & SH). unfold in_range in IR.
  destruct (SH _ _ eq_refl) as (w & k & D & KL & ST). cbn in D. injection D as <- <-.
  assert (V : forall t, vassigned (v_decl (fifo_module res lat)) (R t) (p_width res) (VNet ARG1) = Some (ins t ARG1)).
  { intros u. unfold vassigned. cbn. rewrite Z.max_id, vext_same; rewrite ?(IN u ARG1) by (now left); [|lia|apply IR].
    f_equal. apply Z.mod_small, IR. }
  assert (M : s_mem (R (t + Z.to_nat lat)%nat) REG (lat - 1) = ins t ARG1).
  { replace (t + Z.to_nat lat)%nat with (t + S (Z.to_nat (lat - 1)))%nat by lia.
    apply (shift_delay (fun t i => s_mem (R t) REG i) (lat - 1) (fun t => ins t ARG1)); [lia| |].
    - intros u i Hi. now apply ST.
    - intros u. destruct (ST u) as [_ S0]. rewrite V in S0. congruence. }
  unfold vout. eapply run_assign; [exact RN|left; reflexivity|]. intros s k D. cbn in D. injection D as <- <-.
  unfold vassigned. cbn [v_decl fifo_module vsize veval vsigned]. cbn.
  destruct (Z.leb_spec 0 (lat - 1)); [|lia]. destruct (Z.ltb_spec (lat - 1) (lat - 1 + 1)); [|lia]. cbn.
  rewrite Z.max_id, M, vext_same by (try apply IR; lia). f_equal. apply Z.mod_small, IR.
Qed.
Lemma fifo_exists res lat ins init : 1 <= p_width res -> 1 <= lat -> (forall t, in_range res (ins t ARG1)) ->
  (forall i, in_range res (init i)) ->
  exists R, vrun (fifo_module res lat) ins R /\ forall i, 0 <= i -> s_mem (R 0%nat) REG i = init i.
Proof.
  intros W L IR II. unfold in_range in IR, II.
  pose (mem t i := shift_mem (fun t => ins t ARG1) init t i).
  assert (MR : forall t i, 0 <= mem t i < 2 ^ p_width res).
  { intros t i. unfold mem, shift_mem. destruct (_ <=? _); [apply II|apply IR]. }
  exists (fun t => mkS (fun n => match n with RES1 => mem t (lat - 1) | n => ins t n end) (fun _ i => mem t i)).
  split; [split; [|split; [|split]]|].
  - intros t n [-> | ->]; reflexivity.
  - intros t n e [I|[]]. injection I as <- <-. eexists _, _. split; [reflexivity|].
    unfold vassigned. cbn. destruct (Z.leb_spec 0 (lat - 1)); [|lia]. destruct (Z.ltb_spec (lat - 1) (lat - 1 + 1)); [|lia]. cbn.
    rewrite Z.max_id, vext_same by (try apply MR; lia). f_equal. apply Z.mod_small, MR.
  - intros n w k i D. destruct n; cbn in D; try discriminate D. injection D as <- _. apply MR.
  - intros L' e V. cbn in V. injection V as <- <-. eexists _, _. split; [reflexivity|]. split; [lia|].
    intros t. split; [intros i Hi; apply shift_mem_S; lia|].
    unfold vassigned. cbn. rewrite Z.max_id, vext_same by (try apply IR; lia). f_equal.
    unfold mem. rewrite shift_mem_0. apply Z.mod_small, IR.
  - intros i Hi. apply shift_mem_init, Hi.
Qed.

(** ** Cast modules *)
Definition cast_word (res a1 : ptype) (x now : Z) : Z :=
  (ones (p_signed res) (p_width a1) now * (2 ^ Z.max (p_width res - p_width a1) 0 - 1) * 2 ^ p_width a1 + x).
Lemma cast_cat res a1 lat st q : 1 <= p_width a1 -> 1 <= p_width res -> 0 <= lat -> 
  in_range a1 (s_net st ARG1) -> in_range a1 q ->
  (if lat =? 0 then s_net st ARG1 else s_mem st REG (lat - 1)) = q ->
  vassigned (v_decl (cast_module res a1 lat)) st (Z.max (p_width res) (p_width a1))
    (VCat (VRepl (Z.max (p_width res - p_width a1) 0) (if p_signed res then VBit ARG1 (p_width a1 - 1) else VZero))
          (if lat =? 0 then VNet ARG1 else VMem REG (lat - 1))) = Some (cast_word res a1 q (s_net st ARG1)) /\
  0 <= cast_word res a1 q (s_net st ARG1) < 2 ^ Z.max (p_width res) (p_width a1).
Proof.
  intros W1 W2 L X Q E. unfold in_range in *. set (rep := Z.max (p_width res - p_width a1) 0).
  assert (D1 : v_decl (cast_module res a1 lat) ARG1 = Some (DNet false (p_width a1)))
    by (unfold cast_module; destruct (lat =? 0); reflexivity).
  destruct (repl_value _ st ARG1 false (p_width a1) (p_signed res) rep D1 W1 ltac:(lia) X) as [Z1 E1].
  assert (CW : cast_word res a1 q (s_net st ARG1) = ones (p_signed res) (p_width a1) (s_net st ARG1) * ((2 ^ (rep * 1) - 1) / (2 ^ 1 - 1)) * 2 ^ p_width a1 + q).
  { unfold cast_word. fold rep. change (2 ^ 1 - 1) with 1. now rewrite Z.mul_1_r, Z.div_1_r. }
  assert (SUM : rep + p_width a1 = Z.max (p_width res) (p_width a1)) by lia.
  assert (RG : 0 <= cast_word res a1 q (s_net st ARG1) < 2 ^ (rep + p_width a1)).
  { unfold cast_word. fold rep. pose proof (pow_pos rep ltac:(lia)). pose proof (pow_pos (p_width a1) ltac:(lia)).
    rewrite pow_split by lia. unfold ones. destruct (_ && _); nia. }
  split; [|now rewrite <- SUM]. rewrite CW.
  apply (cat_value _ _ _ _ (rep * 1) (p_width a1)); auto; try lia.
  - unfold cast_module. destruct (Z.eqb_spec lat 0); cbn; [reflexivity|].
    destruct (Z.leb_spec 0 (lat - 1)); [|lia]. destruct (Z.ltb_spec (lat - 1) (lat - 1 + 1)); [|lia]. reflexivity.
  - unfold cast_module. destruct (Z.eqb_spec lat 0); cbn.
    + rewrite E, vext_same by (auto; lia). reflexivity.
    + destruct (Z.leb_spec 0 (lat - 1)); [|lia]. destruct (Z.ltb_spec (lat - 1) (lat - 1 + 1)); [|lia]. cbn.
      rewrite E, vext_same by (auto; lia). reflexivity.
  - rewrite <- CW. replace (rep * 1 + p_width a1) with (rep + p_width a1) by lia. exact RG.
Qed.
Lemma cast_assigns res a1 lat n e : In (n, e) (v_assign (cast_module res a1 lat)) ->
  (n = CATW /\ v_decl (cast_module res a1 lat) CATW = Some (DNet false (Z.max (p_width res) (p_width a1))) /\
   e = VCat (VRepl (Z.max (p_width res - p_width a1) 0) (if p_signed res then VBit ARG1 (p_width a1 - 1) else VZero))
          (if lat =? 0 then VNet ARG1 else VMem REG (lat - 1))) \/
  (n = RES1 /\ v_decl (cast_module res a1 lat) RES1 = Some (DNet false (p_width res)) /\ e = VPart CATW (p_width res - 1)).
Proof.
  unfold cast_module. destruct (lat =? 0); cbn; intros [I|[I|[]]]; injection I as <- <-; auto.
Qed.
Lemma cast_res res a1 lat st : 1 <= p_width a1 -> 1 <= p_width res ->
  vassigned (v_decl (cast_module res a1 lat)) st (p_width res) (VPart CATW (p_width res - 1)) = Some (s_net st CATW mod 2 ^ p_width res).
Proof.
  intros W1 W2. apply (part_value _ _ CATW false (Z.max (p_width res) (p_width a1))); [|lia].
  unfold cast_module. destruct (lat =? 0); reflexivity.
Qed.

(** the value at the output: the delayed argument, extended with the sign of the current one *)
Lemma cast_run res a1 lat ins R : 1 <= p_width a1 -> 1 <= p_width res -> 0 <= lat -> vrun (cast_module res a1 lat) ins R ->
  (forall t, in_range a1 (ins t ARG1)) ->
  forall t, vout R (t + Z.to_nat lat) = cast_word res a1 (ins t ARG1) (ins (t + Z.to_nat lat)%nat ARG1) mod 2 ^ p_width res.
Proof.
  intros W1 W2 L RN IR t. pose proof RN as (IN & AS & _ & SH).
  assert (I1 : forall t, s_net (R t) ARG1 = ins t ARG1) by (intros u; apply IN; now left).
  assert (Q : (if lat =? 0 then s_net (R (t + Z.to_nat lat)%nat) ARG1 else s_mem (R (t + Z.to_nat lat)%nat) REG (lat - 1)) = ins t ARG1).
  { destruct (Z.eqb_spec lat 0) as [E|NZ].
    - replace (t + Z.to_nat lat)%nat with t by lia. apply I1.
    - assert (VS : v_shift (cast_module res a1 lat) = Some (lat - 1, VNet ARG1)).
      { unfold cast_module. destruct (Z.eqb_spec lat 0); [lia|reflexivity]. }
      destruct (SH _ _ VS) as (w & k & D & KL & ST).
      assert (w = p_width a1) as ->.
      { unfold cast_module in D. destruct (Z.eqb_spec lat 0); [lia|]. cbn in D. congruence. }
      replace (t + Z.to_nat lat)%nat with (t + S (Z.to_nat (lat - 1)))%nat by lia.
      apply (shift_delay (fun t i => s_mem (R t) REG i) (lat - 1) (fun t => ins t ARG1)); [lia| |].
      + intros u i Hi. now apply ST.
      + intros u. destruct (ST u) as [_ S0].
        assert (V : vassigned (v_decl (cast_module res a1 lat)) (R u) (p_width a1) (VNet ARG1) = Some (ins u ARG1)).
        { assert (D1 : v_decl (cast_module res a1 lat) ARG1 = Some (DNet false (p_width a1)))
            by (unfold cast_module; destruct (lat =? 0); reflexivity).
          unfold vassigned. cbn [vsize veval vsigned]. rewrite D1, Z.max_id, I1, vext_same by (try apply IR; lia).
          f_equal. apply Z.mod_small, IR. }
        rewrite V in S0. congruence. }
  assert (CI : exists e, In (CATW, e) (v_assign (cast_module res a1 lat))) by (unfold cast_module; destruct (lat =? 0); cbn; eauto).
  assert (RI : exists e, In (RES1, e) (v_assign (cast_module res a1 lat))) by (unfold cast_module; destruct (lat =? 0); cbn; eauto).
  destruct CI as [ce CI], RI as [re RI].
  assert (C : s_net (R (t + Z.to_nat lat)%nat) CATW = cast_word res a1 (ins t ARG1) (ins (t + Z.to_nat lat)%nat ARG1)).
  { eapply run_assign; [exact RN|exact CI|]. intros s k D.
    destruct (cast_assigns _ _ _ _ _ CI) as [(_ & D' & ->)|(K & _)]; [|discriminate K].
    rewrite D' in D. injection D as <- <-. rewrite <- I1 with (t := (t + Z.to_nat lat)%nat).
    apply cast_cat; auto. rewrite I1. apply IR. }
  unfold vout. eapply run_assign; [exact RN|exact RI|]. intros s k D.
  destruct (cast_assigns _ _ _ _ _ RI) as [(K & _)|(_ & D' & ->)]; [discriminate K|].
  rewrite D' in D. injection D as <- <-. rewrite cast_res by assumption. now rewrite C.
Qed.
Lemma cast_exists res a1 lat ins init : 1 <= p_width a1 -> 1 <= p_width res -> 0 <= lat ->
  (forall t, in_range a1 (ins t ARG1)) -> (forall i, in_range a1 (init i)) ->
  exists R, vrun (cast_module res a1 lat) ins R /\ forall i, 0 <= i -> s_mem (R 0%nat) REG i = init i.
Proof.
  intros W1 W2 L IR II.
  pose (mem t i := shift_mem (fun t => ins t ARG1) init t i).
  assert (MR : forall t i, in_range a1 (mem t i)).
  { intros t i. unfold mem, shift_mem. destruct (_ <=? _); [apply II|apply IR]. }
  pose (q t := if lat =? 0 then ins t ARG1 else mem t (lat - 1)).
  assert (QR : forall t, in_range a1 (q t)) by (intros t; unfold q; destruct (lat =? 0); [apply IR|apply MR]).
  pose (R t := mkS (fun n => match n with CATW => cast_word res a1 (q t) (ins t ARG1)
            | RES1 => cast_word res a1 (q t) (ins t ARG1) mod 2 ^ p_width res | n => ins t n end) (fun _ i => mem t i)).
  exists R. split; [split; [|split; [|split]]|].
  - intros t n [-> | ->]; reflexivity.
  - intros t n e I. destruct (cast_assigns _ _ _ _ _ I) as [(-> & D & ->)|(-> & D & ->)];
      eexists _, _; (split; [exact D|]).
    + apply (cast_cat res a1 lat (R t) (q t)); auto. apply IR.
    + rewrite cast_res by assumption. reflexivity.
  - intros n w k i D. assert (w = p_width a1) as ->; [|apply MR].
    revert D. unfold cast_module. destruct (lat =? 0), n; cbn; intros D; try discriminate D; congruence.
  - intros L' e V. assert (NZ : lat <> 0) by (intros ->; discriminate V).
    unfold cast_module in V. destruct (Z.eqb_spec lat 0) as [?|_]; [lia|]. cbn in V. injection V as <- <-.
    exists (p_width a1), (lat - 1 + 1). split; [|split; [lia|]].
    + unfold cast_module. destruct (Z.eqb_spec lat 0) as [?|_]; [lia|]. reflexivity.
    + intros t. split; [intros i Hi; apply shift_mem_S; lia|].
      assert (D1 : v_decl (cast_module res a1 lat) ARG1 = Some (DNet false (p_width a1)))
            by (unfold cast_module; destruct (lat =? 0); reflexivity).
      unfold vassigned. cbn [vsize veval vsigned]. rewrite D1, Z.max_id, vext_same by (try apply IR; lia).
      f_equal. cbn [R s_mem s_net]. unfold mem. rewrite shift_mem_0. apply Z.mod_small, IR.
  - intros i Hi. apply shift_mem_init, Hi.
Qed.
