(** FIRRTL expressions compute the operations (proofs). *)
From Coq Require Import ZArith Bool String Lia.
From stdpp Require Import gmap list.
From Verif Require Import Types Word Value OpSpec Graph GraphSpec TypingSpec TypingProofs Dfcir StreamSpec HwSpec HwProofs Verilog Stubs Naming StubsSpec StubsProofs StubsFacts Firrtl Lower ProgTyping RtlSpec.
Local Open Scope Z_scope.

Lemma port_signed t : p_signed (port_type t) = is_signed t.
Proof. destruct t; reflexivity. Qed.
Lemma port_width t : 0 <= p_width (port_type t) < 65536 -> total_bits t = p_width (port_type t).
Proof. destruct t as [s i f|e f|n]; cbn; intro H; unfold u16; try rewrite Z.mod_small; lia. Qed.
Lemma proper_port t : proper t -> port_type t = mkP (is_signed t) (total_bits t) /\ 1 <= total_bits t < 65536.
Proof.
  intro H. unfold proper in H. assert (E := port_width t ltac:(lia)). split; [|lia]. rewrite E, <- port_signed. destruct (port_type t); reflexivity.
Qed.
Lemma port_kind a b : kind a = kind b -> port_type a = port_type b.
Proof. destruct a as [s i f|e f|n], b as [s' i' f'|e' f'|n']; cbn; intro H; try discriminate H; injection H; intros; subst; try reflexivity; cbn; f_equal; lia. Qed.
Lemma kind_idem t : kind (kind t) = kind t.
Proof. destruct t; reflexivity. Qed.
Lemma kind_proper t : proper t -> total_bits (kind t) = total_bits t /\ is_signed (kind t) = is_signed t.
Proof.
  intro H. split; [|apply kind_signed, kind_idem]. assert (E := port_kind (kind t) t (kind_idem t)). unfold proper in H.
  rewrite (port_width t), (port_width (kind t)) by (rewrite ?E; lia). now rewrite E.
Qed.
Lemma kind_num t x : proper t -> h_num (kind t, x) = h_num (t, x).
Proof. intro H. destruct (kind_proper t H) as [E1 E2]. unfold h_num. cbn. now rewrite E1, E2. Qed.
Lemma kind_isfloat t : is_float (kind t) = is_float t.
Proof. destruct t; reflexivity. Qed.
Lemma same_kind_proper a b : kind a = kind b -> proper a -> proper b.
Proof. intros E H. unfold proper in *. now rewrite <- (port_kind _ _ E). Qed.
Lemma same_kind_bits a b : kind a = kind b -> proper a -> total_bits a = total_bits b.
Proof. intros E H. rewrite <- (proj1 (kind_proper a H)), <- (proj1 (kind_proper b (same_kind_proper a b E H))), E. reflexivity. Qed.
Lemma ptype_eqb_refl p : ptype_eqb p p = true.
Proof. unfold ptype_eqb. rewrite eqb_reflx, Z.eqb_refl. reflexivity. Qed.
Lemma as_type_ok p x : as_type p (p, x) = Some (p, x).
Proof. unfold as_type. cbn. rewrite ptype_eqb_refl. reflexivity. Qed.
Lemma fext_id p x k : 0 <= p_width p -> word (p_width p) x -> p_width p = k -> fext (p, x) k = x.
Proof. intros H X <-. unfold fext, fnum. cbn. rewrite num_mod by lia. apply Z.mod_small. exact X. Qed.
Lemma fext_unsigned w x k : 0 <= w <= k -> word w x -> fext (mkP false w, x) k = x.
Proof. intros H X. unfold fext, fnum. cbn. apply Z.mod_small. unfold word in X. pose proof (pow_le w k ltac:(lia)). lia. Qed.

(** shifts *)
Lemma shl_unsigned w n x : 1 <= w -> 0 <= n -> word w x ->
  feval [(mkP false w, x)] (lower_shl (mkP false w) n) = Some (mkP false w, (x * 2 ^ n) mod 2 ^ w).
Proof.
  intros W N X. cbn. unfold f_shl. destruct (Z.leb_spec 0 n); [|lia]. cbn. unfold f_bits. cbn.
  destruct (Z.leb_spec 0 (w - 1)); [|lia]. destruct (Z.ltb_spec (w - 1) (w + n)); [|lia]. cbn.
  rewrite Z.div_1_r. repeat f_equal; lia.
Qed.
(** what a signed shift computes: the sign bit stays *)
Lemma shl_signed w n x : 2 <= w -> 0 <= n -> word w x ->
  feval [(mkP true w, x)] (lower_shl (mkP true w) n) =
  Some (mkP true w, (x / 2 ^ (w - 1)) * 2 ^ (w - 1) + (x * 2 ^ n) mod 2 ^ (w - 1)).
Proof.
  intros W N X. cbn. unfold f_bits at 1. cbn. destruct (Z.leb_spec 0 (w - 1)); [|lia]. destruct (Z.leb_spec (w - 1) (w - 1)); [|lia].
  destruct (Z.ltb_spec (w - 1) w); [|lia]. cbn. unfold f_shl. destruct (Z.leb_spec 0 n); [|lia]. cbn. unfold f_bits. cbn.
  destruct (Z.leb_spec 0 (w - 2)); [|lia]. destruct (Z.ltb_spec (w - 2) (w + n)); [|lia]. cbn. unfold f_cat, f_cast. cbn.
  unfold word in X. assert (E : 2 ^ w = 2 * 2 ^ (w - 1)) by (rewrite <- Z.pow_succ_r by lia; f_equal; lia).
  assert (0 < 2 ^ (w - 1)) by (apply pow_pos; lia).
  replace (w - 1 - (w - 1) + 1) with 1 by lia. replace (w - 2 - 0 + 1) with (w - 1) by lia. change (2 ^ 1) with 2. rewrite Z.div_1_r.
  replace (1 + (w - 1)) with w by lia.
  rewrite (Z.mod_small (x / 2 ^ (w - 1)) 2); [reflexivity|]. split; [apply Z.div_pos; lia|apply Z.div_lt_upper_bound; lia].
Qed.
Lemma shr_value s w n x : 1 <= w -> 0 <= n -> word w x ->
  feval [(mkP s w, x)] (FPad (mkP s w) (FShr (FArg 0) n) w) = Some (mkP s w, (num s w x / 2 ^ n) mod 2 ^ w).
Proof.
  intros W N X. cbn. unfold f_shr. destruct (Z.leb_spec 0 n); [|lia]. cbn. unfold f_pad. cbn.
  set (k := Z.max (w - n) 1). replace (Z.max k w) with w by lia. unfold fext, fnum. cbn. rewrite as_type_ok.
  do 2 f_equal.
  assert (R := num_range w x s W X). assert (0 < 2 ^ n) by (apply pow_pos; lia).
  set (q := num s w x / 2 ^ n).
  (* the quotient fits [k] bits *)
  assert (0 < 2 ^ (k - 1)) by (apply pow_pos; lia). assert (EK : 2 ^ k = 2 * 2 ^ (k - 1)) by (rewrite <- Z.pow_succ_r by lia; f_equal; lia).
  assert (EW : 2 ^ w = 2 * 2 ^ (w - 1)) by (rewrite <- Z.pow_succ_r by lia; f_equal; lia).
  assert (FQ : if s then - 2 ^ (k - 1) <= q < 2 ^ (k - 1) else 0 <= q < 2 ^ k).
  { assert (SP : w <= k + n) by lia. unfold word in X. destruct s.
    - assert (NR : - 2 ^ (w - 1) <= num true w x < 2 ^ (w - 1)) by (unfold num; cbn [andb]; destruct (Z.leb_spec (2 ^ (w - 1)) x); lia).
      assert (PW : 2 ^ (w - 1) <= 2 ^ n * 2 ^ (k - 1)) by (rewrite <- pow_split by lia; apply pow_le; lia).
      unfold q. split; [apply Z.div_le_lower_bound; nia|apply Z.div_lt_upper_bound; nia].
    - unfold q, num in *. cbn [andb] in *. assert (PW : 2 ^ w <= 2 ^ n * 2 ^ k) by (rewrite <- pow_split by lia; apply pow_le; lia).
      split; [apply Z.div_pos; lia|apply Z.div_lt_upper_bound; lia]. }
  assert (NQ : num s k (q mod 2 ^ k) = q).
  { unfold num. destruct s; cbn [andb].
    - destruct (Z.lt_ge_cases q 0).
      + replace (q mod 2 ^ k) with (q + 2 ^ k) by (apply (Z.mod_unique_pos _ _ (-1)); lia). destruct (Z.leb_spec (2 ^ (k - 1)) (q + 2 ^ k)); lia.
      + rewrite Z.mod_small by lia. destruct (Z.leb_spec (2 ^ (k - 1)) q); lia.
    - apply Z.mod_small. lia. }
  rewrite NQ. reflexivity.
Qed.
Lemma bits_value p x l r : 0 <= r <= l -> l < p_width p -> word (p_width p) x ->
  feval [(p, x)] (lower_bits l r) = Some (mkP false (l - r + 1), (x / 2 ^ r) mod 2 ^ (l - r + 1)).
Proof.
  intros H L X. unfold lower_bits. destruct (Z.ltb_spec l r); [lia|]. cbn. unfold f_bits. cbn.
  destruct (Z.leb_spec 0 r); [|lia]. destruct (Z.leb_spec r l); [|lia]. destruct (Z.ltb_spec l (p_width p)); [|lia]. reflexivity.
Qed.
Lemma cat_value s w1 w2 x y : 
  feval [(mkP s w1, x); (mkP s w2, y)] (FCat (FArg 0) (FArg 1)) = Some (mkP false (w1 + w2), x * 2 ^ w2 + y).
Proof. cbn. unfold f_cat. cbn. rewrite eqb_reflx. reflexivity. Qed.
Definition bit_of (o : bop) : option fbit := match o with AND => Some Fand | OR => Some For | XOR => Some Fxor | _ => None end.
Lemma bitwise_fun o b x y : bit_of o = Some b -> fbit_fun b x y = bin_math o x y.
Proof. destruct o; intro H; try discriminate H; injection H as <-; reflexivity. Qed.
Lemma bitwise_range o x y w : is_bitwise o = true -> 0 <= w -> word w x -> word w y -> word w (bin_math o x y).
Proof.
  unfold word. intros B W X Y. assert (P := pow_pos w W).
  assert (bin_math o x y mod 2 ^ w = bin_math o x y) as <-; [|apply Z.mod_pos_bound; lia].
  destruct o; try discriminate B; cbn; rewrite ?land_mod, ?lor_mod, ?lxor_mod by lia; now rewrite !Z.mod_small by lia.
Qed.
Lemma bitwise_value o b w1 w2 x y : bit_of o = Some b -> 1 <= w1 -> 0 <= w2 <= w1 -> word w1 x -> word w2 y ->
  feval [(mkP false w1, x); (mkP false w2, y)] (FBitwise b (mkP false w1) (FArg 0) (FArg 1)) = Some (mkP false w1, bin_math o x y).
Proof.
  intros B W1 W2 X Y. cbn. unfold f_bitwise. cbn. replace (Z.max w1 w2) with w1 by lia.
  rewrite !fext_unsigned by (assumption || lia). rewrite (bitwise_fun o b) by exact B. apply as_type_ok.
Qed.
(** a multiplexer *)
Lemma nth_error_lookup {A} (l : list A) : forall k, nth_error l k = l !! k.
Proof. induction l as [|a l IH]; intros [|k]; cbn; auto. Qed.
Lemma sequence_args l : forall k, sequence (map (nth_error (A := fval) l) (seq k (length l - k))) = Some (drop k l).
Proof.
  intro k. remember (length l - k)%nat as n eqn:E. revert k E. induction n as [|n IH]; intros k E; cbn.
  - rewrite drop_ge by lia. reflexivity.
  - destruct (nth_error l k) as [a|] eqn:Ea; [|apply nth_error_None in Ea; lia]. rewrite (IH (S k)) by lia.
    f_equal. rewrite nth_error_lookup in Ea. fold (@drop fval). symmetry. apply drop_S. exact Ea.
Qed.
Lemma mux_value cs cw x p (arms : list fval) : arms <> [] -> Forall (fun a => fst a = p) arms -> 0 <= x ->
  feval ((mkP cs cw, x) :: arms) (lower_mux cs (length arms)) =
  if x <? Z.of_nat (length arms) then arms !! (length arms - 1 - Z.to_nat x)%nat else None.
Proof.
  intros NE FA X. unfold lower_mux. cbn [feval].
  assert (C : feval ((mkP cs cw, x) :: arms) (if cs then FAsUInt (FArg 0) else FArg 0) = Some (mkP false cw, x)) by (destruct cs; reflexivity).
  rewrite C. cbn [obind]. rewrite map_map. cbn [feval].
  pose proof (sequence_args ((mkP cs cw, x) :: arms) 1) as S1. cbn [length drop] in S1. replace (S (length arms) - 1)%nat with (length arms) in S1 by lia.
  match goal with |- obind ?a _ = _ => replace a with (Some arms) by (symmetry; exact S1) end. cbn [obind]. destruct arms as [|a r]; [contradiction|]. unfold f_mux. cbn [fst p_signed negb andb].
  assert (FB : forallb (fun b : fval => ptype_eqb (fst b) (fst a)) r = true).
  { inversion FA as [|? ? Ha Hr]. subst. apply forallb_forall. intros b Hb. apply elem_of_list_In in Hb. rewrite Forall_forall in Hr.
    rewrite (Hr b Hb). apply ptype_eqb_refl. }
  rewrite FB. cbn [snd]. destruct (x <? _); [|reflexivity]. apply nth_error_lookup.
Qed.

(** ** All unscheduled operations *)
Lemma num_uns t x : is_signed t = false -> h_num (t, x) = x.
Proof. intro H. unfold h_num. cbn. rewrite H. reflexivity. Qed.
Lemma compare_bool b : is_compare b = is_comp b.
Proof. destruct b; reflexivity. Qed.

Lemma zip_lookup_inv {A B} : forall (l : list A) (k : list B) i p, zip l k !! i = Some p -> exists a b, l !! i = Some a /\ k !! i = Some b /\ p = (a, b).
Proof.
  induction l as [|a l IH]; intros [|b k] [|i] p H; try discriminate H; cbn in *; [injection H as <-; eauto|eauto].
Qed.
Lemma zip_lookup_some {A B} : forall (l : list A) (k : list B) i a b, l !! i = Some a -> k !! i = Some b -> zip l k !! i = Some (a, b).
Proof. induction l as [|a0 l IH]; intros [|b0 k] [|i] a b H H'; try discriminate; cbn in *; [congruence|auto]. Qed.
Lemma map_lookup_eq {A B} (f : A -> B) : forall l i x, l !! i = Some x -> map f l !! i = Some (f x).
Proof. induction l as [|a l IH]; intros [|i] x H; try discriminate H; cbn in *; [injection H as ->; reflexivity|auto]. Qed.
Lemma map_lookup_inv {A B} (f : A -> B) : forall l i y, map f l !! i = Some y -> exists x, l !! i = Some x /\ y = f x.
Proof. induction l as [|a l IH]; intros [|i] y H; try discriminate H; cbn in *; [injection H as <-; eauto|auto]. Qed.

(** [arg_ok t x]: a proper type and a pattern of it *)
Definition arg_ok (t : dftype) (x : Z) : Prop := proper t /\ word (p_width (port_type t)) x.

Theorem prim_correct e o t ts lat xs y :
  base_name o = None -> is_oper o = true -> dtyping o t ts -> op_fits (match o with DMux => MUX | _ => opk_of o end) t ts lat ->
  proper t -> Forall2 arg_ok ts xs -> d_op (hw e) o t (zip (map kind ts) xs) = Some y ->
  exists ex, lower o (map port_type ts) (port_type t) = Some ex /\
    feval (zip (map port_type ts) xs) ex = Some (port_type t, snd y) /\ fst y = kind t.
Proof.
  intros BN OP DT FT PT A E.
  destruct (proper_port t PT) as [EP BW].
  destruct o as [sc nm|sc nm|c|f| |b|u| |n|n|l r| |]; try discriminate BN; try discriminate OP; cbn in DT.
  - (* mux *)
    destruct DT as (tc & arms' & ta & -> & _). cbn in FT. set (arms := arms' ++ [ta]) in *. destruct FT as [NE FA]. inversion A as [|? xc ? xs' HC HA]. subst. clear A.
    cbn [map lower]. eexists. split; [reflexivity|]. cbn in E. unfold mux_hw in E. rewrite map_length.
    destruct HC as [PC XC]. destruct (proper_port tc PC) as [EC _]. rewrite EC in XC. cbn in XC.
    set (av := zip (map port_type arms) xs').
    assert (LA := Forall2_length _ _ _ HA).
    assert (LV : length av = length arms) by (unfold av; rewrite zip_with_length, map_length; lia).
    assert (LZ : length (zip (map kind arms) xs') = length arms) by (rewrite zip_with_length, map_length; lia).
    change (zip (_ :: _) (_ :: _)) with ((port_type tc, xc) :: av). rewrite EC. cbn [p_signed].
    rewrite <- LV. rewrite (mux_value _ _ _ (port_type t)); [| | |exact (proj1 XC)].
    + change (foldr _ _ _) with (zip (map kind arms) xs') in E. rewrite LZ in E. destruct (Nat.ltb_spec (Z.to_nat xc) (length arms)) as [LT|]; [|discriminate].
      rewrite LV. destruct (Z.ltb_spec xc (Z.of_nat (length arms))); [|lia].
      set (j := (length arms - 1 - Z.to_nat xc)%nat) in *.
      destruct (zip_lookup_inv _ _ _ _ E) as (kj & xj & Ht & Hx & ->). apply map_lookup_inv in Ht as (tj & Ht & ->).
      assert (KJ : kind tj = kind t) by (rewrite Forall_forall in FA; apply FA; eapply elem_of_list_lookup_2; exact Ht).
      split; [|exact KJ]. cbn [snd]. apply zip_lookup_some; [|exact Hx]. rewrite <- (port_kind _ _ KJ). apply map_lookup_eq. exact Ht.
    + destruct av; [cbn in LV; unfold arms in LV; rewrite app_length in LV; cbn in LV; lia|discriminate].
    + apply Forall_forall. intros q Hq. apply elem_of_list_lookup in Hq as (j & Hq). destruct (zip_lookup_inv _ _ _ _ Hq) as (p0 & x0 & Hp & _ & ->).
      cbn. apply map_lookup_inv in Hp as (tj & Hj & ->). rewrite Forall_forall in FA. apply port_kind, FA. eapply elem_of_list_lookup_2; exact Hj.
  - (* binary *)
    destruct DT as (t1 & t2 & -> & ET). cbn in FT.
    assert (BB : is_bitwise b = true) by (destruct b; try discriminate BN; reflexivity). rewrite BB in FT. destruct FT as (S1 & S2 & W).
    assert (is_comp b = false) as IC by (destruct b; try discriminate BB; reflexivity). rewrite IC in ET.
    inversion A as [|? x ? ? H1 A']. subst. inversion A' as [|? z ? ? H2 A'']. subst. inversion A''. subst.
    destruct H1 as [P1 X1], H2 as [P2 X2]. destruct (proper_port t2 P2) as [E2 B2].
    assert (ST : is_signed t = false) by (rewrite (kind_signed _ _ ET); exact S1). assert (WT := same_kind_bits _ _ ET PT). rewrite <- WT in W.
    rewrite <- (port_kind _ _ ET) in X1. rewrite EP in X1 |- *. rewrite E2 in X2. cbn in X1, X2.
    cbn in E. rewrite BB in E. cbn [negb andb] in E. rewrite !kind_num, !num_uns in E by assumption. cbn [map]. rewrite <- (port_kind _ _ ET), EP, E2, ST, S2.
    assert (WR : word (total_bits t) (bin_math b x z)).
    { apply bitwise_range; [exact BB|lia|exact X1|]. unfold word in *. pose proof (pow_le (total_bits t2) (total_bits t) ltac:(lia)). lia. }
    unfold word in WR. rewrite Z.mod_small in E by exact WR.
    destruct b; try discriminate BB; injection E as <-; (eexists; split; [reflexivity|]); (split; [|reflexivity]); cbn [zip zip_with snd]; unfold maybe_sint; cbn [p_signed].
    + apply (bitwise_value AND Fand); auto; lia.
    + apply (bitwise_value OR For); auto; lia.
    + apply (bitwise_value XOR Fxor); auto; lia.
  - (* unary *)
    destruct u; try discriminate BN. destruct DT as (a & -> & KA). cbn in FT. inversion A as [|? x ? ? H1 A']. subst. inversion A'. subst. destruct H1 as [_ X1].
    cbn in E. injection E as <-. eexists. split; [reflexivity|]. split; [|reflexivity]. cbn [map zip zip_with snd]. rewrite (port_kind _ _ KA), EP, FT. cbn. unfold f_not. cbn. apply as_type_ok.
  - (* shl *)
    destruct DT as (a & -> & KA). cbn in FT. destruct FT as [N US]. inversion A as [|? x ? ? H1 A']. subst. inversion A'. subst. destruct H1 as [_ X1]. rewrite (port_kind _ _ KA), EP in X1. cbn in X1.
    cbn in E. injection E as <-. eexists. split; [reflexivity|]. split; [|reflexivity]. cbn [map zip zip_with snd]. rewrite (port_kind _ _ KA), EP, US. apply shl_unsigned; (exact X1 || lia).
  - (* shr *)
    destruct DT as (a & -> & KA). cbn in FT. inversion A as [|? x ? ? H1 A']. subst. inversion A'. subst. destruct H1 as [_ X1]. rewrite (port_kind _ _ KA), EP in X1. cbn in X1.
    cbn in E. rewrite KA, kind_num in E by exact PT. injection E as <-. eexists. split; [reflexivity|]. split; [|reflexivity]. cbn [map zip zip_with snd]. rewrite (port_kind _ _ KA), EP. apply shr_value; (exact X1 || lia).
  - (* bits *)
    destruct DT as (a & -> & LR & LT & ET). inversion A as [|? x ? ? H1 A']. subst. inversion A'. subst. destruct H1 as [PA X1].
    destruct (proper_port a PA) as [EA BA]. rewrite EA in X1. cbn in X1. cbn in E. injection E as <-. eexists. split; [reflexivity|]. split; [|reflexivity].
    cbn [map zip zip_with snd]. rewrite EA. rewrite bits_value; [|exact LR|exact LT|exact X1]. cbn [port_type]. rewrite (Z.mod_small (l - r + 1)) by lia. reflexivity.
  - (* cat *)
    destruct DT as (a & b & -> & ET). cbn in FT. destruct FT as [SS SU]. inversion A as [|? x ? ? H1 A']. subst. inversion A' as [|? z ? ? H2 A'']. subst. inversion A''. subst.
    destruct H1 as [PA X1], H2 as [PB X2]. destruct (proper_port a PA) as [EA BA], (proper_port b PB) as [EB BB]. cbn in E. rewrite (proj1 (kind_proper b PB)) in E. injection E as <-.
    eexists. split; [reflexivity|]. split; [|reflexivity]. cbn [map zip zip_with snd fst]. rewrite EA, EB, <- SS, cat_value. cbn [port_type]. rewrite Z.mod_small by lia. reflexivity.
Qed.
