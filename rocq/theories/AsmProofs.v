(** * Printing and parsing: proofs. *)
From Coq Require Import ZArith Bool String Lia.
From stdpp Require Import gmap list.
From Verif Require Import Types Graph GraphSpec Verify Asm AsmSpec.
Local Open Scope Z_scope.

Lemma pstep {A B} (p : parser A) (f : A -> parser B) l a l' R : p l = Some (a, l') -> f a l' = R -> pbind p f l = R.
Proof. intros E. unfold pbind. rewrite E. exact id. Qed.

Lemma unsigned_ok z l : 0 <= z < 2 ^ 32 -> p_unsigned (KInt z :: l) = Some (z, l).
Proof. intro H. cbn [p_unsigned]. destruct (Z.leb_spec 0 z), (Z.ltb_spec z (2 ^ 32)); try lia. reflexivity. Qed.

Lemma dftype_ok t l : type_ok t -> p_dftype (print_dftype t ++ l)%list = Some (t, l).
Proof.
  destruct t as [s i f|e f|n]; cbn [type_ok print_dftype app p_dftype]; intro H.
  - change (String.eqb "dfcir.fixed" "dfcir.fixed") with true. cbv iota.
    eapply pstep; [reflexivity|]. eapply (pstep _ _ _ s); [destruct s; reflexivity|]. eapply pstep; [reflexivity|].
    eapply pstep; [apply unsigned_ok; tauto|]. eapply pstep; [reflexivity|]. eapply pstep; [apply unsigned_ok; tauto|]. eapply pstep; reflexivity.
  - change (String.eqb "dfcir.float" "dfcir.fixed") with false. change (String.eqb "dfcir.float" "dfcir.float") with true. cbv iota.
    eapply pstep; [reflexivity|]. eapply pstep; [apply unsigned_ok; tauto|]. eapply pstep; [reflexivity|]. eapply pstep; [apply unsigned_ok; tauto|]. eapply pstep; reflexivity.
  - change (String.eqb "dfcir.rawbits" "dfcir.fixed") with false. change (String.eqb "dfcir.rawbits" "dfcir.float") with false. change (String.eqb "dfcir.rawbits" "dfcir.rawbits") with true. cbv iota.
    eapply pstep; [reflexivity|]. eapply pstep; [apply unsigned_ok; tauto|]. eapply pstep; reflexivity.
Qed.
Lemma vtype_ok v l : type_ok (snd v) -> p_vtype (print_vtype v ++ l)%list = Some (v, l).
Proof.
  destruct v as [k t]. cbn [snd fst]. intro H. unfold print_vtype. cbn [app p_vtype fst snd]. rewrite <- app_assoc.
  assert (B : forall k' : vkind, pbind (expect KLess) (fun _ => pbind p_dftype (fun t0 => pbind (expect KGreater) (fun _ => pret ((k', t0) : vtype)))) (KLess :: print_dftype t ++ [KGreater] ++ l)%list = Some ((k', t), l)).
  { intro k'. eapply pstep; [reflexivity|]. eapply pstep; [apply dftype_ok, H|]. eapply pstep; reflexivity. }
  destruct k; cbn [kind_name]; [apply (B VStream)|apply (B VScalar)|apply (B VConst)].
Qed.

Lemma build_int_ok s w b : 0 <= w -> 0 <= b < 2 ^ w ->
  build_int (printed_value (mkIA s w b)) s w = Some (mkIA s w b).
Proof.
  intros W B. unfold build_int, printed_value, sint. cbn [ia_sgn ia_width ia_bits].
  assert (T : Z.testbit b (w - 1) = true -> 2 ^ (w - 1) <= b /\ 0 < w).
  { intro T. assert (0 < w). { destruct (Z.eq_dec w 0) as [->|]; [|lia]. rewrite Z.testbit_neg_r in T by lia. discriminate. }
    split; [|lia]. destruct (Z.le_gt_cases (2 ^ (w - 1)) b) as [|L]; [assumption|]. apply Z.testbit_true in T; [|lia].
    rewrite Z.div_small in T by lia. discriminate T. }
  assert (T' : Z.testbit b (w - 1) = false -> b < 2 ^ (w - 1) \/ w = 0).
  { intro F. destruct (Z.eq_dec w 0) as [->|]; [right; reflexivity|left]. apply Z.testbit_false in F; [|lia].
    destruct (Z.le_gt_cases (2 ^ (w - 1)) b) as [L|]; [|lia]. exfalso.
    assert (2 ^ w = 2 * 2 ^ (w - 1)) by (rewrite <- Z.pow_succ_r by lia; f_equal; lia).
    assert (D : b / 2 ^ (w - 1) = 1) by (symmetry; apply (Z.div_unique _ _ _ (b - 2 ^ (w - 1))); lia). rewrite D in F. discriminate F. }
  destruct s.
  - destruct (Z.testbit b (w - 1)) eqn:E.
    + destruct (T eq_refl) as [T1 T2]. assert (2 ^ w = 2 * 2 ^ (w - 1)) by (rewrite <- Z.pow_succ_r by lia; f_equal; lia).
      destruct (Z.leb_spec (2 ^ w) (Z.abs (b - 2 ^ w))); [lia|]. destruct (Z.ltb_spec (b - 2 ^ w) 0); [|lia].
      replace (2 ^ w - Z.abs (b - 2 ^ w)) with b by lia. rewrite E. reflexivity.
    + destruct (Z.leb_spec (2 ^ w) (Z.abs b)); [lia|]. destruct (Z.ltb_spec b 0); [lia|]. rewrite Z.abs_eq by lia. reflexivity.
  - destruct (Z.testbit b (w - 1)) eqn:E.
    + destruct (T eq_refl) as [T1 T2]. assert (2 ^ w = 2 * 2 ^ (w - 1)) by (rewrite <- Z.pow_succ_r by lia; f_equal; lia).
      destruct (Z.leb_spec (2 ^ w) (Z.abs (b - 2 ^ w))); [lia|]. destruct (Z.ltb_spec (b - 2 ^ w) 0); [|lia].
      replace (2 ^ w - Z.abs (b - 2 ^ w)) with b by lia. rewrite E. reflexivity.
    + destruct (Z.leb_spec (2 ^ w) (Z.abs b)); [lia|]. destruct (Z.ltb_spec b 0); [lia|]. rewrite Z.abs_eq by lia. rewrite E. reflexivity.
  - destruct (Z.leb_spec (2 ^ w) (Z.abs b)); [lia|]. destruct (Z.ltb_spec b 0); [lia|]. rewrite Z.abs_eq by lia. reflexivity.
Qed.
Lemma iattr_ok a l : attr_ok a -> p_iattr (print_iattr a ++ l)%list = Some (a, l).
Proof.
  destruct a as [s w b]. unfold attr_ok. cbn [ia_width ia_bits]. intros [W B]. unfold print_iattr.
  destruct (is_i1 (mkIA s w b)) eqn:I.
  - unfold is_i1 in I. cbn in I. destruct s; try discriminate. apply Z.eqb_eq in I. subst w. cbn [ia_bits app p_iattr]. change (2 ^ 1) with 2 in B.
    destruct (Z.eqb_spec b 0) as [->|N]; [reflexivity|]. assert (b = 1) as -> by lia. reflexivity.
  - cbn [app p_iattr]. cbn [ia_sgn ia_width]. rewrite build_int_ok by assumption. reflexivity.
Qed.
(** what can follow an operation *)
Definition follows (l : list tok) : Prop :=
  match l with (KRBrace | KVal _ | KWord _) :: _ => True | _ => False end.
Lemma no_dict l : follows l -> p_dict l = Some ([], l).
Proof. destruct l as [|[] l]; cbn; try contradiction; reflexivity. Qed.
Lemma lat_dict a l : attr_ok a -> p_dict (print_lat a ++ l)%list = Some ([("latency"%string, AInt a)], l).
Proof.
  intro H. unfold print_lat. cbn [app p_dict]. rewrite <- app_assoc. cbn [length p_attrs].
  assert (A : forall r, p_attr (print_iattr a ++ KRBrace :: r) = Some (AInt a, KRBrace :: r)).
  { intro r. assert (D := iattr_ok a (KRBrace :: r) H). unfold p_attr.
    assert (X : forall q, pbind p_iattr (fun a0 => pret (AInt a0)) (print_iattr a ++ KRBrace :: r)%list = q -> q = Some (AInt a, KRBrace :: r)).
    { intros q <-. eapply pstep; [exact D|]. reflexivity. }
    unfold print_iattr in *. destruct (is_i1 a); cbn [app] in *; (apply X; reflexivity). }
  eapply pstep; [apply A|]. eapply pstep; [reflexivity|]. cbv iota. eapply pstep; reflexivity.
Qed.

Section Env.
Variable E : names_env.
Variable G : penv.
Definition name_of (v : nat) : nat := match E !! v with Some (n, _) => n | None => 0%nat end.
Definition known (v : nat) : Prop := exists n t, E !! v = Some (n, t) /\ G !! n = Some t /\ type_ok (snd t).

Lemma val_ok v l : known v -> p_name (print_val E v ++ l)%list = Some (name_of v, l).
Proof. intros (n & t & H & _). unfold print_val, name_of. rewrite H. reflexivity. Qed.
Lemma arg_ok v l : known v -> exists t, G !! name_of v = Some t /\ (exists n, E !! v = Some (n, t)) /\ p_arg (print_arg E v ++ l)%list = Some ((name_of v, t), l).
Proof.
  intros K. destruct (K) as (n & t & H & H1 & H2). exists t. unfold name_of at 1. rewrite H. split; [exact H1|]. split; [exists n; reflexivity|].
  unfold print_arg. rewrite <- app_assoc. unfold p_arg. eapply pstep; [apply val_ok, K|]. eapply pstep; [reflexivity|]. unfold print_ty. rewrite H.
  eapply pstep; [apply vtype_ok, H2|]. reflexivity.
Qed.
Lemma resolve_ok n t l : G !! n = Some t -> resolve1 G n t l = Some (tt, l).
Proof. intro H. unfold resolve1. rewrite H. destruct (vtype_dec t t); [reflexivity|contradiction]. Qed.

Lemma ctrl_ok c l : (forall v, c = Some v -> known v) ->
  exists x, p_opt_ctrl (match c with Some v => KComma :: print_arg E v | None => [] end ++ KRParen :: l)%list = Some (x, KRParen :: l) /\
    fst x = name_of <$> c /\ forall l', resolve_opt G x l' = Some (tt, l').
Proof.
  intro K. destruct c as [v|].
  - destruct (K v eq_refl) as (n & t & H & H1 & H2). exists (Some (name_of v), Some t). split; [|split; [reflexivity|]].
    + unfold p_opt_ctrl. eapply pstep; [reflexivity|]. cbv iota. unfold p_opt_arg, print_arg, print_val, print_ty, name_of. rewrite H. cbn [app].
      eapply pstep; [reflexivity|]. eapply pstep; [reflexivity|]. eapply pstep; [|reflexivity].
      assert (D := vtype_ok t (KRParen :: l) H2). unfold print_vtype in *. cbn [app p_opt_type] in *. eapply pstep; [exact D|reflexivity].
    + intro l'. unfold resolve_opt. cbn. eapply pstep; [|reflexivity]. apply resolve_ok. unfold name_of. rewrite H. exact H1.
  - exists (None, None). split; [reflexivity|]. split; [reflexivity|]. intro l'. reflexivity.
Qed.
Definition not_less (l : list tok) : Prop := match l with KLess :: _ => False | _ => True end.
Lemma stream_ok c l : (forall v, c = Some v -> known v) -> not_less l ->
  exists x, p_opt_stream (match c with Some v => KLess :: KEqual :: print_arg E v | None => [] end ++ l)%list = Some (x, l) /\
    fst x = name_of <$> c /\ forall l', resolve_opt G x l' = Some (tt, l').
Proof.
  intros K N. destruct c as [v|].
  - destruct (K v eq_refl) as (n & t & H & H1 & H2). exists (Some (name_of v), Some t). split; [|split; [reflexivity|]].
    + unfold p_opt_stream. eapply pstep; [reflexivity|]. cbv iota. eapply pstep; [reflexivity|]. unfold p_opt_arg, print_arg, print_val, print_ty, name_of. rewrite H. cbn [app].
      eapply pstep; [reflexivity|]. eapply pstep; [reflexivity|]. eapply pstep; [|reflexivity].
      assert (D := vtype_ok t l H2). unfold print_vtype in *. cbn [app p_opt_type] in *. eapply pstep; [exact D|reflexivity].
    + intro l'. unfold resolve_opt. cbn. eapply pstep; [|reflexivity]. apply resolve_ok. unfold name_of. rewrite H. exact H1.
  - exists (None, None). split; [|split; [reflexivity|intro l'; reflexivity]]. unfold p_opt_stream. cbn [app].
    destruct l as [|[] l]; try (eapply pstep; reflexivity). contradiction.
Qed.
Lemma latency_ok a l : attr_ok a -> exists x, p_latency (print_latency a ++ l)%list = Some (x, l).
Proof.
  intro H. unfold print_latency, p_latency. cbn [app]. rewrite <- app_assoc. destruct (_ =? 0).
  - exists minus_one. reflexivity.
  - exists a. eapply pstep; [reflexivity|]. eapply (pstep _ _ _ false (print_iattr a ++ [KRSquare] ++ l)%list).
    + unfold print_iattr. destruct (is_i1 a); reflexivity.
    + cbv iota. eapply pstep; [apply iattr_ok, H|]. eapply pstep; reflexivity.
Qed.
Lemma result_ok r l : type_ok (snd r) -> p_result (KRParen :: KColon :: print_vtype r ++ l)%list = Some (r, l).
Proof. intro H. unfold p_result. eapply pstep; [reflexivity|]. eapply pstep; [reflexivity|]. apply vtype_ok, H. Qed.

Lemma unary_ok v r dict d l : known v -> type_ok (snd r) -> p_dict (dict ++ l)%list = Some (d, l) ->
  p_unary_body G (KLParen :: print_arg E v ++ KRParen :: KColon :: print_vtype r ++ dict ++ l)%list = Some ((name_of v, r, d), l).
Proof.
  intros K T D. unfold p_unary_body. eapply pstep; [reflexivity|]. destruct (arg_ok v (KRParen :: KColon :: print_vtype r ++ dict ++ l) K) as (t & G1 & _ & P).
  eapply pstep; [exact P|]. eapply pstep; [apply result_ok, T|]. eapply pstep; [exact D|]. eapply pstep; [apply resolve_ok, G1|]. reflexivity.
Qed.
Lemma binary_ok u v r dict d l : known u -> known v -> type_ok (snd r) -> p_dict (dict ++ l)%list = Some (d, l) ->
  p_binary_body G (KLParen :: print_arg E u ++ KComma :: print_arg E v ++ KRParen :: KColon :: print_vtype r ++ dict ++ l)%list = Some ((name_of u, name_of v, r, d), l).
Proof.
  intros Ku Kv T D. unfold p_binary_body. eapply pstep; [reflexivity|].
  destruct (arg_ok u (KComma :: print_arg E v ++ KRParen :: KColon :: print_vtype r ++ dict ++ l) Ku) as (t & G1 & _ & P).
  destruct (arg_ok v (KRParen :: KColon :: print_vtype r ++ dict ++ l) Kv) as (t' & G2 & _ & P').
  eapply pstep; [exact P|]. eapply pstep; [reflexivity|]. eapply pstep; [exact P'|]. eapply pstep; [apply result_ok, T|]. eapply pstep; [exact D|].
  cbn [fst snd resolve_all]. eapply pstep.
  - eapply pstep; [apply resolve_ok, G1|]. eapply pstep; [apply resolve_ok, G2|]. reflexivity.
  - reflexivity.
Qed.
Lemma port_ok t s l : type_ok t -> p_port (KLess :: print_dftype t ++ KGreater :: KLParen :: KStr s :: l)%list = Some ((t, s), l).
Proof. intro H. unfold p_port. eapply pstep; [reflexivity|]. eapply pstep; [apply dftype_ok, H|]. eapply pstep; [reflexivity|]. eapply pstep; reflexivity. Qed.

(** the inputs of a multiplexer *)
Definition var_toks (r : vtype) (v : nat) : list tok :=
  (print_val E v ++ match E !! v with Some (_, t) => if vtype_eqb t r then [] else KColon :: print_vtype t | None => [KUnknown] end)%list.
Lemma vtype_eqb_eq a b : vtype_eqb a b = true <-> a = b.
Proof.
  destruct a as [k t], b as [k' t']. unfold vtype_eqb. cbn. rewrite andb_true_iff.
  assert (X : vkind_eqb k k' = true <-> k = k') by (destruct k, k'; cbn; split; congruence).
  assert (Y : dftype_eqb t t' = true <-> t = t').
  { destruct t, t'; cbn; try (split; congruence); rewrite ?andb_true_iff, ?Bool.eqb_true_iff, ?Z.eqb_eq; split; intros; [intuition congruence|inversion H; auto|intuition congruence|inversion H; auto|congruence|congruence]. }
  rewrite X, Y. split; [intros [-> ->]; reflexivity|intro H; injection H; auto].
Qed.
Lemma one_var r v l : known v -> match l with KColon :: _ => False | _ => True end ->
  exists t o, G !! name_of v = Some t /\ default r o = t /\
    forall (B : Type) (f : nat -> option vtype -> parser B),
      pbind p_name (fun n => pbind (optional KColon) (fun c => pbind (if c : bool then pbind p_vtype (fun t => pret (Some t)) else pret None) (f n))) (var_toks r v ++ l)%list = f (name_of v) o l.
Proof.
  intros (n & t & H & H1 & H2) NL. exists t, (if vtype_eqb t r then None else Some t).
  split; [unfold name_of; rewrite H; exact H1|]. split.
  - destruct (vtype_eqb t r) eqn:Q; [|reflexivity]. apply vtype_eqb_eq in Q. cbn. congruence.
  - intros B f. unfold var_toks, print_val, name_of. rewrite H. cbn [app]. eapply pstep; [reflexivity|].
    destruct (vtype_eqb t r) eqn:Q.
    + cbn [app]. eapply (pstep _ _ _ false l); [destruct l as [|[] l']; (reflexivity || contradiction)|]. cbv iota. eapply pstep; reflexivity.
    + eapply pstep; [reflexivity|]. cbv iota. eapply pstep; [eapply pstep; [apply vtype_ok, H2|reflexivity]|]. reflexivity.
Qed.
End Env.

Section Ops.
Variable E : names_env.
Variable G : penv.
Notation known := (known E G).
Notation name_of := (name_of E).

Lemma vars_ok r vs l : vs <> [] -> (forall v, v ∈ vs -> known v) -> forall fuel, (length vs <= fuel)%nat ->
  exists xs, p_mux_vars fuel (tail (flat_map (fun v => KComma :: var_toks E r v) vs) ++ KRParen :: l)%list = Some (xs, KRParen :: l) /\
    map fst xs = map name_of vs /\ forall l', resolve_all G (map fst xs) (map (fun x => default r (snd x)) xs) l' = Some (tt, l').
Proof.
  induction vs as [|v vs IH]; [contradiction|]. intros _ K fuel L. destruct fuel as [|fuel]; [cbn in L; lia|].
  cbn [flat_map tail]. rewrite <- app_comm_cons. cbn [tail]. rewrite <- app_assoc.
  destruct vs as [|v' vs].
  - cbn [flat_map app].
    destruct (one_var E G r v (KRParen :: l) (K v ltac:(left)) I) as (t & o & G1 & O & P).
    exists [(name_of v, o)]. split; [|split; [reflexivity|]].
    + cbn [p_mux_vars]. rewrite (P _ (fun n t0 => pbind (optional KComma) (fun more => if more then pbind (p_mux_vars fuel) (fun r0 => pret ((n, t0) :: r0)) else pret [(n, t0)]))). reflexivity.
    + intro l'. cbn. eapply pstep; [apply resolve_ok; rewrite O; exact G1|]. reflexivity.
  - cbn [flat_map] in IH |- *. destruct (IH ltac:(discriminate) (fun u H => K u ltac:(right; exact H)) fuel ltac:(cbn in *; lia)) as (xs & P' & M & R).
    rewrite <- app_comm_cons in P'. cbn [tail] in P'. rewrite <- app_comm_cons.
    destruct (one_var E G r v (KComma :: (var_toks E r v' ++ flat_map (fun v => KComma :: var_toks E r v) vs) ++ KRParen :: l) (K v ltac:(left)) I) as (t & o & G1 & O & P).
    exists ((name_of v, o) :: xs). split; [|split; [cbn; f_equal; exact M|]].
    + cbn [p_mux_vars]. rewrite <- app_comm_cons. rewrite (P _ (fun n t0 => pbind (optional KComma) (fun more => if more then pbind (p_mux_vars fuel) (fun r0 => pret ((n, t0) :: r0)) else pret [(n, t0)]))).
      eapply pstep; [reflexivity|]. cbv iota. eapply pstep; [exact P'|]. reflexivity.
    + intro l'. cbn [map resolve_all fst snd]. eapply pstep; [apply resolve_ok; rewrite O; exact G1|]. apply R.
Qed.

Ltac dispatch :=
  cbn [print_op mnemonic rename_op bin_name logic_name]; unfold p_op;
  repeat match goal with |- context [String.eqb ?a ?b] => let v := eval vm_compute in (String.eqb a b) in change (String.eqb a b) with v end; cbv iota beta zeta;
  repeat progress (rewrite <- ?app_comm_cons, <- ?app_assoc; cbn [app]).
Lemma op_ok o l : follows l ->
  (forall u, u ∈ uses o -> known u) -> (forall a, a ∈ attributes o -> attr_ok a) -> type_ok (snd (result_type o)) ->
  (forall a f r, o = OOffset a f r -> G !! name_of a = Some r /\ fst r = VStream) ->
  (forall c r, o <> OMux c [] r) ->
  (forall t m, o = OCounter t m -> exists t', G !! name_of m = Some (VScalar, t')) ->
  p_op G (mnemonic o) (print_op E o ++ l)%list = Some (rename_op name_of o, l).
Proof.
  intros F K A T OO OM OC.
  assert (ND := no_dict l F).
  assert (NL : not_less l) by (destruct l as [|[] l']; cbn in *; auto).
  destruct o as [t s|t s i|t s c|t s c i|t v|la a r|b la a r|o la a b r|a f r|a r|c vs r|o a b r|a r|a x y r|left a n r|t m]; cbn [result_type snd uses attributes] in *.
  - dispatch. eapply pstep; [apply port_ok, T|]. eapply pstep; [reflexivity|]. eapply pstep; [exact ND|]. reflexivity.
  - dispatch. eapply pstep; [apply port_ok, T|]. eapply pstep; [reflexivity|].
    destruct (stream_ok E G i l) as (x & P & X & R); [intros v ->; apply K; left|exact NL|].
    eapply pstep; [exact P|]. eapply pstep; [exact ND|]. eapply pstep; [apply R|]. rewrite X. reflexivity.
  - dispatch. eapply pstep; [apply port_ok, T|].
    destruct (ctrl_ok E G c l) as (x & P & X & R); [intros v ->; apply K; left|].
    eapply pstep; [exact P|]. eapply pstep; [reflexivity|]. eapply pstep; [exact ND|]. eapply pstep; [apply R|]. rewrite X. reflexivity.
  - dispatch. eapply pstep; [apply port_ok, T|].
    assert (Kc : forall v, c = Some v -> known v) by (intros v ->; apply K; left).
    assert (Ki : forall v, i = Some v -> known v) by (intros v ->; apply K, elem_of_app; right; left).
    match goal with |- context [KRParen :: ?q] => destruct (ctrl_ok E G c q Kc) as (x & P & X & R) end.
    eapply pstep; [exact P|]. eapply pstep; [reflexivity|].
    match goal with |- context [KLBrace :: ?q] => destruct (stream_ok E G i (KLBrace :: q) Ki I) as (y & P' & Y & R') end.
    eapply pstep; [exact P'|]. eapply pstep; [reflexivity|]. eapply pstep; [apply R|]. eapply pstep; [apply R'|]. rewrite X, Y. reflexivity.
  - dispatch. eapply pstep; [reflexivity|]. eapply pstep; [apply dftype_ok, T|]. eapply pstep; [reflexivity|]. eapply pstep; [apply iattr_ok, A; left|]. eapply pstep; [exact ND|]. reflexivity.
  - assert (AO : attr_ok la) by (apply A; left). dispatch. eapply pstep; [reflexivity|]. eapply pstep; [apply iattr_ok, AO|]. eapply pstep; [reflexivity|].
    eapply pstep; [apply unary_ok; [apply K; left|exact T|apply lat_dict, AO]|]. reflexivity.
  - assert (AO : attr_ok la) by (apply A; left). destruct b; dispatch;
    (match goal with |- context [(print_latency la ++ ?q)%list] => destruct (latency_ok la q AO) as (x & P) end;
     eapply pstep; [exact P|]; eapply pstep; [apply unary_ok; [apply K; left|exact T|apply lat_dict, AO]|]; reflexivity).
  - assert (AO : attr_ok la) by (apply A; left). destruct o; dispatch;
    (match goal with |- context [(print_latency la ++ ?q)%list] => destruct (latency_ok la q AO) as (x & P) end;
     eapply pstep; [exact P|]; eapply pstep; [apply binary_ok; [apply K; left|apply K; right; left|exact T|apply lat_dict, AO]|]; reflexivity).
  - destruct (OO a f r eq_refl) as [O1 O2]. dispatch. eapply pstep; [reflexivity|]. eapply pstep; [apply (val_ok E G), K; left|]. eapply pstep; [reflexivity|].
    eapply pstep; [apply iattr_ok, A; left|]. eapply pstep; [reflexivity|]. eapply pstep; [reflexivity|]. eapply pstep; [reflexivity|]. eapply pstep; [apply vtype_ok, T|].
    replace (is_stream_ty r) with true by (unfold is_stream_ty; rewrite O2; reflexivity). eapply pstep; [apply resolve_ok, O1|]. reflexivity.
  - dispatch. eapply pstep; [reflexivity|]. 
    match goal with |- context [(print_arg E a ++ ?q)%list] => destruct (arg_ok E G a q (K a ltac:(left))) as (t & G1 & _ & P) end.
    eapply pstep; [exact P|]. eapply pstep; [reflexivity|]. eapply pstep; [reflexivity|]. eapply pstep; [reflexivity|]. eapply pstep; [apply vtype_ok, T|]. eapply pstep; [apply resolve_ok, G1|]. reflexivity.
  - assert (NE : vs <> []) by (intros ->; exact (OM c r eq_refl)). dispatch. unfold p_mux. eapply pstep; [reflexivity|].
    match goal with |- context [(print_arg E c ++ ?q)%list] => destruct (arg_ok E G c q (K c ltac:(left))) as (t & G1 & _ & P) end.
    eapply pstep; [exact P|]. clear P.
    change (fun v => KComma :: print_val E v ++ match E !! v with Some (_, t0) => if vtype_eqb t0 r then [] else KColon :: print_vtype t0 | None => [KUnknown] end) with (fun v => KComma :: var_toks E r v).
    match goal with |- context [length ?q] => set (N := length q) end.
    assert (LN : (length vs <= N)%nat).
    { subst N. cbn [length]. rewrite !app_length. assert (H : (length vs <= length (flat_map (fun v => KComma :: var_toks E r v) vs))%nat).
      { clear. induction vs as [|v vs IH]; cbn; [lia|]. rewrite app_length. lia. } lia. }
    destruct (vars_ok r vs (KColon :: print_vtype r ++ l) NE (fun v H => K v ltac:(right; exact H)) N LN) as (xs & P & M & R).
    destruct vs as [|v0 vs]; [contradiction|]. cbn [flat_map] in *. rewrite <- app_comm_cons in *. cbn [tail] in P. rewrite <- app_comm_cons. eapply pstep; [reflexivity|]. eapply pstep; [exact P|].
    eapply pstep; [reflexivity|]. eapply pstep; [reflexivity|]. eapply pstep; [apply vtype_ok, T|]. eapply pstep; [exact ND|]. eapply pstep; [apply resolve_ok, G1|]. eapply pstep; [apply R|].
    rewrite M. reflexivity.
  - destruct o; dispatch; (eapply pstep; [apply (binary_ok E G a b r [] []); [apply K; left|apply K; right; left|exact T|exact ND]|]; reflexivity).
  - dispatch. eapply pstep; [apply (unary_ok E G a r [] []); [apply K; left|exact T|exact ND]|]. reflexivity.
  - dispatch. eapply pstep; [reflexivity|].
    match goal with |- context [(print_arg E a ++ ?q)%list] => destruct (arg_ok E G a q (K a ltac:(left))) as (t & G1 & _ & P) end.
    eapply pstep; [exact P|]. eapply pstep; [reflexivity|]. eapply pstep; [apply iattr_ok, A; left|]. eapply pstep; [reflexivity|]. eapply pstep; [apply iattr_ok, A; right; left|].
    eapply pstep; [apply result_ok, T|]. eapply pstep; [exact ND|]. eapply pstep; [apply resolve_ok, G1|]. reflexivity.
  - destruct left; dispatch; (eapply pstep; [reflexivity|];
    match goal with |- context [(print_arg E a ++ ?q)%list] => destruct (arg_ok E G a q (K a ltac:(left))) as (t & G1 & _ & P) end;
    eapply pstep; [exact P|]; eapply pstep; [reflexivity|]; eapply pstep; [apply iattr_ok, A; left|];
    eapply pstep; [apply result_ok, T|]; eapply pstep; [exact ND|]; eapply pstep; [apply resolve_ok, G1|]; reflexivity).
  - destruct (OC t m eq_refl) as (t' & C). dispatch. eapply pstep; [reflexivity|]. eapply pstep; [apply dftype_ok, T|]. eapply pstep; [reflexivity|]. eapply pstep; [reflexivity|].
    match goal with |- context [(print_arg E m ++ ?q)%list] => destruct (arg_ok E G m q (K m ltac:(left))) as (t0 & G1 & _ & P) end.
    eapply pstep; [exact P|]. eapply pstep; [reflexivity|]. eapply pstep; [exact ND|]. rewrite C in G1. injection G1 as <-. cbn [fst snd]. eapply pstep; [apply resolve_ok, C|]. reflexivity.
Qed.
End Ops.

(** ** The whole module *)
Lemma wf_fresh G P : wellformed G P -> forall v n, is_Some (G !! v) -> numbering n P !! v = None.
Proof.
  induction 1 as [G|G d s P _ _ _ IH|G v o P N U A T OO OM OC _ IH]; intros u n S; cbn [numbering].
  - apply lookup_empty.
  - apply IH, S.
  - rewrite lookup_insert_ne by (intros ->; rewrite N in S; destruct S; discriminate). apply IH. destruct (decide (v = u)) as [->|D]; [rewrite lookup_insert; eexists; reflexivity|rewrite lookup_insert_ne by exact D; exact S].
Qed.
Lemma print_stmt_cons E s : exists x l, print_stmt E s = x :: l /\ follows (print_stmt E s) \/ exists v o, s = ADef v o /\ E !! v = None.
Proof.
  destruct s as [v o|d s].
  - unfold print_stmt, print_val. destruct (E !! v) as [[n t]|] eqn:H.
    + eexists _, _. left. split; [reflexivity|exact I].
    + exists KUnknown, []. right. eauto.
  - eexists _, _. left. split; [reflexivity|exact I].
Qed.

Lemma body_ok E P Gs : wellformed Gs P -> forall n G fuel l,
  (forall v t, Gs !! v = Some t -> exists m, E !! v = Some (m, t) /\ G !! m = Some t /\ type_ok (snd t)) ->
  (forall m, is_Some (G !! m) -> (m < n)%nat) ->
  (forall v x, numbering n P !! v = Some x -> E !! v = Some x) ->
  (length P < fuel)%nat ->
  p_body fuel G (flat_map (print_stmt E) P ++ KRBrace :: l)%list = Some (map (rename_stmt (name_of E)) P, l).
Proof.
  induction 1 as [Gs|Gs d s P Hd Hs W IH|Gs v o P N U A T OO OM OC W IH]; intros n G fuel l EG GN NE L; (destruct fuel as [|fuel]; [cbn in L; lia|]).
  - reflexivity.
  - assert (Kd : known E G d) by (destruct Hd as [t Hd]; destruct (EG _ _ Hd) as (m & ? & ? & ?); exists m, t; auto).
    assert (Ks : known E G s) by (destruct Hs as [t Hs]; destruct (EG _ _ Hs) as (m & ? & ? & ?); exists m, t; auto).
    assert (FO : follows (flat_map (print_stmt E) P ++ KRBrace :: l)%list).
    { destruct W; [exact I|exact I|]. cbn [flat_map]. cbn [numbering] in NE. assert (X := NE v _ (lookup_insert _ _ _)). unfold print_stmt, print_val. rewrite X. exact I. }
    cbn [flat_map map rename_stmt print_stmt]. repeat progress (rewrite <- ?app_comm_cons, <- ?app_assoc; cbn [app]). cbn [p_body].
    change (String.eqb "dfcir.connect" "dfcir.connect") with true. cbv iota.
    eapply pstep; [reflexivity|].
    match goal with |- context [(print_arg E d ++ ?q)%list] => destruct (arg_ok E G d q Kd) as (t & G1 & _ & P1) end. eapply pstep; [exact P1|]. eapply pstep; [reflexivity|].
    match goal with |- context [(print_arg E s ++ ?q)%list] => destruct (arg_ok E G s q Ks) as (t' & G2 & _ & P2) end. eapply pstep; [exact P2|]. eapply pstep; [reflexivity|].
    eapply pstep; [apply no_dict, FO|]. cbn [fst snd]. eapply pstep; [cbn [resolve_all]; eapply pstep; [apply resolve_ok, G1|]; eapply pstep; [apply resolve_ok, G2|]; reflexivity|].
    eapply pstep; [apply (IH n); [exact EG|exact GN|exact NE|cbn in L; lia]|]. reflexivity.
  - assert (Ev : E !! v = Some (n, result_type o)) by (apply NE; cbn [numbering]; apply lookup_insert).
    assert (NE' : forall u x, numbering (S n) P !! u = Some x -> E !! u = Some x).
    { intros u x H. apply NE. cbn [numbering]. rewrite lookup_insert_ne; [exact H|]. intros ->. rewrite (wf_fresh _ _ W u (S n)) in H; [discriminate|rewrite lookup_insert; eexists; reflexivity]. }
    assert (FO : follows (flat_map (print_stmt E) P ++ KRBrace :: l)%list).
    { destruct W; [exact I|exact I|]. cbn [flat_map]. cbn [numbering] in NE'. assert (X := NE' v0 _ (lookup_insert _ _ _)). unfold print_stmt, print_val. rewrite X. exact I. }
    cbn [flat_map map rename_stmt print_stmt]. unfold print_val at 1. rewrite Ev. repeat progress (rewrite <- ?app_comm_cons, <- ?app_assoc; cbn [app]). cbn [p_body].
    assert (Gn : G !! n = None). { destruct (G !! n) eqn:Q; [|reflexivity]. exfalso. assert (n < n)%nat by (apply GN; rewrite Q; eexists; reflexivity). lia. }
    rewrite Gn. eapply pstep.
    + apply (op_ok E G o); [exact FO| |exact A|exact T| |exact OM|].
      * intros u Hu. destruct (U u Hu) as [t Ht]. destruct (EG _ _ Ht) as (m & ? & ? & ?). exists m, t. auto.
      * intros a f r ->. destruct (OO a f r eq_refl) as [O1 O2]. split; [|exact O2]. destruct (EG _ _ O1) as (m & X & Y & _). unfold name_of. rewrite X. exact Y.
      * intros t m ->. destruct (OC t m eq_refl) as [t' C]. exists t'. destruct (EG _ _ C) as (k & X & Y & _). unfold name_of. rewrite X. exact Y.
    + assert (RT : result_type (rename_op (name_of E) o) = result_type o) by (destruct o; reflexivity). rewrite RT. eapply pstep.
      * apply (IH (S n)); [| |exact NE'|cbn in L; lia].
        -- intros u t H. destruct (decide (v = u)) as [->|D].
           ++ rewrite lookup_insert in H. injection H as <-. exists n. split; [exact Ev|]. split; [apply lookup_insert|exact T].
           ++ rewrite lookup_insert_ne in H by exact D. destruct (EG _ _ H) as (m & X & Y & Z). exists m. split; [exact X|]. split; [|exact Z].
              rewrite lookup_insert_ne; [exact Y|]. intros ->. rewrite Gn in Y. discriminate.
        -- intros m H. destruct (decide (n = m)) as [->|D]; [lia|]. rewrite lookup_insert_ne in H by exact D. specialize (GN m H). lia.
      * unfold pret. do 4 f_equal. unfold name_of. rewrite Ev. reflexivity.
Qed.

Lemma numbering_range P : forall n v m t, numbering n P !! v = Some (m, t) -> (n <= m)%nat /\ v ∈ adefs P.
Proof.
  induction P as [|[v o|d s] P IH]; intros n u m t H; cbn [numbering adefs omap list_omap] in *.
  - rewrite lookup_empty in H. discriminate.
  - destruct (decide (v = u)) as [->|D].
    + rewrite lookup_insert in H. injection H as <- _. split; [lia|left].
    + rewrite lookup_insert_ne in H by exact D. destruct (IH _ _ _ _ H). split; [lia|right; assumption].
  - destruct (IH _ _ _ _ H). split; [lia|assumption].
Qed.
Lemma numbering_inj P : forall n u v m t t', numbering n P !! u = Some (m, t) -> numbering n P !! v = Some (m, t') -> u = v.
Proof.
  induction P as [|[w o|d s] P IH]; intros n u v m t t' H H'; cbn [numbering] in *.
  - rewrite lookup_empty in H. discriminate.
  - destruct (decide (w = u)) as [->|D], (decide (u = v)) as [->|D']; try reflexivity; rewrite ?lookup_insert in *.
    + injection H as <- _. rewrite lookup_insert_ne in H' by exact D'. apply numbering_range in H' as [? _]. lia.
    + rewrite lookup_insert_ne in H by exact D. destruct (decide (w = v)) as [->|D2].
      * rewrite lookup_insert in H'. injection H' as <- _. apply numbering_range in H as [? _]. lia.
      * rewrite lookup_insert_ne in H' by exact D2. exact (IH _ _ _ _ _ _ H H').
  - exact (IH _ _ _ _ _ _ H H').
Qed.
Lemma numbering_defs P : forall n v, v ∈ adefs P -> is_Some (numbering n P !! v).
Proof.
  induction P as [|[w o|d s] P IH]; intros n v H; cbn [numbering adefs omap list_omap] in *.
  - apply elem_of_nil in H. contradiction.
  - destruct (decide (w = v)) as [->|D]; [rewrite lookup_insert; eexists; reflexivity|]. rewrite lookup_insert_ne by exact D. apply elem_of_cons in H as [->|H]; [contradiction|]. apply IH, H.
  - apply IH, H.
Qed.
Lemma result_rename f o : result_type (rename_op f o) = result_type o.
Proof. destruct o; reflexivity. Qed.
Lemma numbering_rename f P : forall n v, (forall u w, u ∈ v :: adefs P -> w ∈ v :: adefs P -> f u = f w -> u = w) ->
  numbering n (map (rename_stmt f) P) !! f v = numbering n P !! v.
Proof.
  induction P as [|[w o|d s] P IH]; intros n v I; cbn [numbering map rename_stmt adefs omap list_omap] in *.
  - rewrite !lookup_empty. reflexivity.
  - rewrite result_rename. destruct (decide (w = v)) as [->|D]; [rewrite !lookup_insert; reflexivity|].
    rewrite !lookup_insert_ne; [|exact D|intro Q; apply D, I; [right; left|left|exact Q]]. apply IH. intros a b Ha Hb. apply I; (apply elem_of_cons in Ha as [->|Ha]; [left|right; right; exact Ha]) + (apply elem_of_cons in Hb as [->|Hb]; [left|right; right; exact Hb]).
  - apply IH, I.
Qed.

(** all values of a well-formed program are defined in it *)
Definition values (s : astmt) : list nat := match s with ADef v o => v :: uses o | AConnect d s => [d; s] end.
Lemma wf_values G P : wellformed G P -> forall s v, s ∈ P -> v ∈ values s -> is_Some (G !! v) \/ v ∈ adefs P.
Proof.
  induction 1 as [G|G d s P Hd Hs W IH|G v o P N U A T OO OM OC W IH]; intros x u X H; cbn [adefs omap list_omap].
  - apply elem_of_nil in X. contradiction.
  - apply elem_of_cons in X as [->|X]; [|exact (IH x u X H)]. left. cbn in H. apply elem_of_cons in H as [->|H]; [exact Hd|]. apply elem_of_list_singleton in H as ->. exact Hs.
  - apply elem_of_cons in X as [->|X].
    + cbn in H. apply elem_of_cons in H as [->|H]; [right; left|left; apply U, H].
    + destruct (IH x u X H) as [I|I]; [|right; right; exact I]. destruct (decide (v = u)) as [->|D]; [right; left|]. rewrite lookup_insert_ne in I by exact D. left. exact I.
Qed.
Lemma print_rename E E' f s : (forall v, v ∈ values s -> E' !! f v = E !! v) -> print_stmt E' (rename_stmt f s) = print_stmt E s.
Proof.
  intro H. assert (PV : forall v, v ∈ values s -> print_val E' (f v) = print_val E v) by (intros v I; unfold print_val; rewrite (H v I); reflexivity).
  assert (PA : forall v, v ∈ values s -> print_arg E' (f v) = print_arg E v) by (intros v I; unfold print_arg, print_ty; rewrite (PV v I), (H v I); reflexivity).
  destruct s as [v o|d s]; cbn [print_stmt rename_stmt values] in *.
  - rewrite (PV v) by left. replace (mnemonic (rename_op f o)) with (mnemonic o) by (destruct o as [| | | | | |[]|[]| | | |[]| | |[]|]; reflexivity).
    enough (X : print_op E' (rename_op f o) = print_op E o) by (rewrite X; reflexivity).
    destruct o as [t x|t x i|t x c|t x c i|t y|la a r|b la a r|o la a b r|a x r|a r|k vs r|o a b r|a r|a x y r|left a n r|t m]; cbn [print_op rename_op uses] in *;
      try (destruct i as [i|]); try (destruct c as [c|]); cbn [fmap option_fmap option_map app] in *;
      first [rewrite ?PV, ?PA by (set_solver); reflexivity|idtac].
    rewrite (PA k) by set_solver. do 2 f_equal.
    assert (Q : forall us, (forall u, u ∈ us -> u ∈ vs) ->
      flat_map (fun v0 => KComma :: print_val E' v0 ++ match E' !! v0 with Some (_, t) => if vtype_eqb t r then [] else KColon :: print_vtype t | None => [KUnknown] end) (map f us) =
      flat_map (fun v0 => KComma :: print_val E v0 ++ match E !! v0 with Some (_, t) => if vtype_eqb t r then [] else KColon :: print_vtype t | None => [KUnknown] end) us).
    { induction us as [|u us IH]; intro Q; [reflexivity|]. cbn [map flat_map]. rewrite (H u), (PV u) by (right; right; apply Q; left). rewrite IH by (intros w Hw; apply Q; right; exact Hw). reflexivity. }
    rewrite Q by auto. reflexivity.
  - rewrite !PA by set_solver. reflexivity.
Qed.

Theorem roundtrip name P : wellformed ∅ P ->
  exists P', parse_module (print_module name P) = Some (name, P') /\ same P P' /\ print_module name P' = print_module name P.
Proof.
  intro W. set (E := numbering 0 P). exists (map (rename_stmt (name_of E)) P).
  assert (INJ : forall u v, u ∈ adefs P -> v ∈ adefs P -> name_of E u = name_of E v -> u = v).
  { intros u v Hu Hv Q. destruct (numbering_defs P 0 u Hu) as [[m t] X], (numbering_defs P 0 v Hv) as [[m' t'] Y]. unfold name_of, E in Q. rewrite X, Y in Q. subst m'. exact (numbering_inj P _ _ _ _ _ _ X Y). }
  split; [|split; [exists (name_of E); split; [exact INJ|reflexivity]|]].
  - unfold parse_module, print_module. fold E. cbn [app].
    assert (B : forall fuel l, (length P < fuel)%nat -> p_body fuel ∅ (flat_map (print_stmt E) P ++ KRBrace :: l)%list = Some (map (rename_stmt (name_of E)) P, l)).
    { intros fuel l L. apply (body_ok E P ∅ W 0); [intros v t H; rewrite lookup_empty in H; discriminate| |intros v x H; exact H|exact L]. intros m [t H]. rewrite lookup_empty in H. discriminate. }
    match goal with |- match ?q with _ => _ end = _ => assert (Q : q = Some ((name, map (rename_stmt (name_of E)) P), [])) end.
    { eapply pstep; [reflexivity|]. eapply pstep; [reflexivity|]. eapply pstep; [reflexivity|]. eapply pstep; [reflexivity|]. eapply pstep; [reflexivity|].
      eapply pstep; [apply B|eapply pstep; reflexivity].
      cbn [length]. rewrite app_length. cbn [length]. assert (X : (length P <= length (flat_map (print_stmt E) P))%nat); [|lia].
      clearbody E. clear. induction P as [|s P IH]; [cbn; lia|]. cbn [flat_map length]. rewrite app_length. assert (1 <= length (print_stmt E s))%nat; [|lia].
      destruct s; unfold print_stmt; rewrite ?app_length; cbn [length]; lia. }
    rewrite Q. reflexivity.
  - unfold print_module. fold E.
    assert (X : forall v, v ∈ adefs P -> numbering 0 (map (rename_stmt (name_of E)) P) !! name_of E v = E !! v).
    { intros v Hv. apply numbering_rename. intros a b Ha Hb. apply INJ; [apply elem_of_cons in Ha as [->|Ha]|apply elem_of_cons in Hb as [->|Hb]]; assumption. }
    assert (Y : forall s, s ∈ P -> print_stmt (numbering 0 (map (rename_stmt (name_of E)) P)) (rename_stmt (name_of E) s) = print_stmt E s).
    { intros s Hs. apply print_rename. intros v Hv. apply X. destruct (wf_values _ _ W s v Hs Hv) as [[t H]|H]; [rewrite lookup_empty in H; discriminate|exact H]. }
    assert (Z : forall R, (forall s, s ∈ R -> s ∈ P) -> flat_map (print_stmt (numbering 0 (map (rename_stmt (name_of E)) P))) (map (rename_stmt (name_of E)) R) = flat_map (print_stmt E) R).
    { induction R as [|s R IH]; intro I; [reflexivity|]. cbn [map flat_map]. rewrite (Y s) by (apply I; left). rewrite IH by (intros x Hx; apply I; right; exact Hx). reflexivity. }
    rewrite Z by auto. reflexivity.
Qed.

(** two programs with the same text *)
Lemma rename_stmt_cancel (f g f' : nat -> nat) s s' : (forall v v', v' ∈ values s' -> f v = g v' -> f' v = v') -> rename_stmt f s = rename_stmt g s' -> rename_stmt f' s = s'.
Proof.
  intros H E. destruct s as [v o|d x], s' as [v' o'|d' x']; try discriminate E; cbn [rename_stmt values] in *.
  - injection E as E1 E2. rewrite (H v v') by (left || exact E1). f_equal.
    assert (H2 : forall v v', v' ∈ uses o' -> f v = g v' -> f' v = v') by (intros u u' I; apply H; right; exact I). clear H E1 v v'.
    assert (HL : forall l l', (forall u, u ∈ l' -> u ∈ uses o') -> map f l = map g l' -> map f' l = l').
    { induction l as [|u l IH]; intros [|u' l'] I Q; try discriminate Q; [reflexivity|]. cbn in Q |- *. injection Q as Q1 Q2. rewrite (H2 u u') by (exact Q1 || (apply I; left)). f_equal. apply IH; [|exact Q2]. intros y Hy. apply I. right. exact Hy. }
    assert (HO : forall i i', (forall u, i' = Some u -> u ∈ uses o') -> f <$> i = g <$> i' -> f' <$> i = i').
    { intros [i|] [i'|] I Q; try discriminate Q; [|reflexivity]. cbn in *. injection Q as Q. rewrite (H2 i i'); auto. }
    destruct o, o'; try discriminate E2; cbn [rename_op uses] in *; injection E2; intros; subst; f_equal;
      try (apply H2; [set_solver|assumption]); try (apply HO; [intros u ->; set_solver|assumption]); try (apply HL; [intros u Hu; set_solver|assumption]).
  - injection E as E1 E2. rewrite (H d d'), (H x x'); (assumption || set_solver).
Qed.
Theorem print_injective n n' P P' : wellformed ∅ P -> wellformed ∅ P' -> print_module n P = print_module n' P' -> n = n' /\ same P P'.
Proof.
  intros W W' E. destruct (roundtrip n P W) as (Q & E1 & (f & FI & ->) & _). destruct (roundtrip n' P' W') as (Q' & E2 & (g & GI & ->) & _). rewrite E, E2 in E1. injection E1 as <- E1. split; [reflexivity|].
  set (f' := fun v => match List.find (fun u => Nat.eqb (g u) (f v)) (adefs P') with Some u => u | None => 0%nat end).
  assert (HF : forall v v', v' ∈ adefs P' -> f v = g v' -> f' v = v').
  { intros v v' I Q. unfold f'. destruct (List.find _ _) as [u|] eqn:EF.
    - apply List.find_some in EF as [I' X]. apply Nat.eqb_eq in X. apply elem_of_list_In in I'. apply GI; [exact I'|exact I|congruence].
    - apply elem_of_list_In in I. apply (List.find_none _ _ EF) in I. apply Nat.eqb_neq in I. congruence. }
  assert (HR : P' = map (rename_stmt f') P).
  { assert (V : forall s v, s ∈ P' -> v ∈ values s -> v ∈ adefs P') by (intros s v Hs Hv; destruct (wf_values _ _ W' s v Hs Hv) as [[t X]|X]; [rewrite lookup_empty in X; discriminate|exact X]).
    assert (G : forall A B, (forall s v, s ∈ B -> v ∈ values s -> v ∈ adefs P') -> map (rename_stmt g) B = map (rename_stmt f) A -> B = map (rename_stmt f') A).
    { induction A as [|a A IH]; intros [|b B] I Q; try discriminate Q; [reflexivity|]. cbn in Q |- *. injection Q as Q1 Q2. f_equal.
      - symmetry. eapply rename_stmt_cancel; [|symmetry; exact Q1]. intros v v' Hv. apply HF. apply (I b); [left|exact Hv].
      - apply IH; [|exact Q2]. intros s v Hs. apply I. right. exact Hs. }
    exact (G P P' V E1). }
  exists f'. split; [|exact HR]. intros u v Hu Hv Q.
  assert (B : forall A, map (rename_stmt g) (map (rename_stmt f') A) = map (rename_stmt f) A -> forall u, u ∈ adefs A -> g (f' u) = f u).
  { induction A as [|a A IH]; intros X y Hy; cbn in Hy; [inversion Hy|]. cbn in X. injection X as X1 X2. destruct a as [z o|d s]; [|exact (IH X2 y Hy)]. cbn in Hy. apply elem_of_cons in Hy as [->|Hy]; [|exact (IH X2 y Hy)]. cbn in X1. injection X1 as X1 _. exact X1. }
  apply FI; [exact Hu|exact Hv|]. rewrite HR in E1. pose proof (B P E1) as B'. rewrite <- (B' u Hu), <- (B' v Hv), Q. reflexivity.
Qed.
