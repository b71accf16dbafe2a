(** Proofs about library module names. *)
From Coq Require Import ZArith Bool String Ascii DecimalString DecimalN Decimal List Lia.
From Verif Require Import Types Word Value Graph Dfcir Verilog Stubs Naming.
Import ListNotations.
Local Open Scope Z_scope.
Local Arguments String.append : simpl nomatch.

(** ** Decimal numbers *)
Definition is_digit (c : ascii) : bool := (48 <=? nat_of_ascii c)%nat && (nat_of_ascii c <=? 57)%nat.
Fixpoint digits (s : string) : bool :=
  match s with EmptyString => true | String c r => is_digit c && digits r end.
Lemma string_of_uint_digits u : digits (NilEmpty.string_of_uint u) = true.
Proof. induction u; cbn; auto. Qed.
Lemma decZ_digits z : digits (decZ z) = true.
Proof. apply string_of_uint_digits. Qed.
Lemma decZ_nonempty z : decZ z <> EmptyString.
Proof.
  unfold decZ. intros H.
  assert (E : N.to_uint (Z.to_N z) = Nil) by (destruct (N.to_uint (Z.to_N z)); cbn in H; congruence).
  pose proof (DecimalN.Unsigned.of_to (Z.to_N z)) as O. rewrite E in O. cbn in O. rewrite <- O in E.
  discriminate E.
Qed.
Lemma decZ_inj a b : 0 <= a -> 0 <= b -> decZ a = decZ b -> a = b.
Proof.
  unfold decZ. intros Ha Hb H.
  assert (E : Some (N.to_uint (Z.to_N a)) = Some (N.to_uint (Z.to_N b))) by (rewrite <- !NilEmpty.usu; now rewrite H).
  injection E as E.
  assert (N' : Z.to_N a = Z.to_N b) by (rewrite <- (DecimalN.Unsigned.of_to (Z.to_N a)), <- (DecimalN.Unsigned.of_to (Z.to_N b)); now rewrite E).
  lia.
Qed.

(** two digit strings followed by an underscore *)
Lemma digits_split a : forall b r s, digits a = true -> digits b = true ->
  (a ++ String "_" r = b ++ String "_" s)%string -> a = b /\ r = s.
Proof.
  induction a as [|c a IH]; intros [|d b] r s Ha Hb H; cbn in *.
  - injection H as ->. auto.
  - injection H as <- H. apply andb_true_iff in Hb as [Hb _]. discriminate Hb.
  - injection H as -> H. apply andb_true_iff in Ha as [Ha _]. discriminate Ha.
  - injection H as -> H. apply andb_true_iff in Ha as [_ Ha]. apply andb_true_iff in Hb as [_ Hb].
    destruct (IH _ _ _ Ha Hb H) as [-> ->]. auto.
Qed.
Lemma decZ_split a b r s : 0 <= a -> 0 <= b -> (decZ a ++ String "_" r = decZ b ++ String "_" s)%string -> a = b /\ r = s.
Proof.
  intros Ha Hb H. apply digits_split in H as [H ->]; auto using decZ_digits. split; [|reflexivity].
  now apply decZ_inj.
Qed.

Lemma app_assoc_s a b c : ((a ++ b) ++ c = a ++ b ++ c)%string.
Proof. induction a as [|x a IH]; cbn; [reflexivity|now rewrite IH]. Qed.
Lemma app_empty_s a : (a ++ "" = a)%string.
Proof. induction a as [|x a IH]; cbn; [reflexivity|now rewrite IH]. Qed.

(** ** Types are determined by their signature, followed by an underscore *)
Definition pos_fields (t : dftype) : Prop :=
  match t with TFixed _ i f => 0 <= i /\ 0 <= f | TFloat e f => 0 <= e /\ 0 <= f | TRaw n => 0 <= n end.
Lemma sig_split t u r s : pos_fields t -> pos_fields u ->
  (sv_signature t ++ String "_" r = sv_signature u ++ String "_" s)%string -> t = u /\ r = s.
Proof.
  intros Ht Hu H. destruct t as [sg i f|e f|n], u as [sg' i' f'|e' f'|n']; unfold sv_signature in H;
    rewrite ?app_assoc_s in H; cbn in H; try discriminate H; cbn in Ht, Hu.
  - repeat (injection H as H).
    apply decZ_split in H as [S H]; [|destruct sg; lia|destruct sg'; lia].
    apply decZ_split in H as [-> H]; [|lia..]. apply decZ_split in H as [-> H]; [|lia..].
    destruct sg, sg'; try discriminate S; auto.
  - repeat (injection H as H). apply decZ_split in H as [-> H]; [|lia..]. apply decZ_split in H as [-> H]; [|lia..]. auto.
  - repeat (injection H as H). apply decZ_split in H as [-> H]; [|lia..]. auto.
Qed.

Lemma pos_latency_nonneg l : 0 <= pos_latency l.
Proof. unfold pos_latency. destruct (Z.leb_spec 0 l); lia. Qed.

(** the part of a name after the base *)
Definition tail (ins : list dftype) (out : dftype) (lat : Z) : string :=
  fold_right (fun t r => "_IN_" ++ sv_signature t ++ r)%string
             ("_OUT_" ++ sv_signature out ++ "_" ++ decZ (pos_latency lat))%string ins.
Lemma op_name_tail b ins out lat : op_name b ins out lat = (b ++ tail ins out lat)%string.
Proof. reflexivity. Qed.
Lemma tail_under ins out lat : exists r, tail ins out lat = String "_" r.
Proof. destruct ins; cbn; eauto. Qed.
Lemma tail_inj : forall ins ins' out out' lat lat',
  Forall pos_fields (out :: ins) -> Forall pos_fields (out' :: ins') ->
  tail ins out lat = tail ins' out' lat' -> ins = ins' /\ out = out' /\ pos_latency lat = pos_latency lat'.
Proof.
  induction ins as [|t ins IH]; intros [|t' ins'] out out' lat lat' F F' H; cbn [tail fold_right] in H.
  - inversion F; subst. inversion F'; subst. cbn in H. repeat (injection H as H).
    apply sig_split in H as [-> H]; [|assumption..]. apply decZ_inj in H; auto using pos_latency_nonneg.
  - discriminate H.
  - discriminate H.
  - inversion F as [|? ? F1 F2]; subst. inversion F2 as [|? ? F3 F4]; subst.
    inversion F' as [|? ? G1 G2]; subst. inversion G2 as [|? ? G3 G4]; subst.
    fold (tail ins out lat) in H. fold (tail ins' out' lat') in H.
    destruct (tail_under ins out lat) as [r R]. destruct (tail_under ins' out' lat') as [r' R'].
    pose proof H as K. cbn in H. repeat (injection H as H). rewrite R, R' in H.
    apply sig_split in H as [-> H]; [|assumption..].
    destruct (IH ins' out out' lat lat') as (-> & -> & E); [now constructor|now constructor| |auto].
    rewrite R, R'. now rewrite H.
Qed.

(** ** Base names *)
Lemma base_names o b : base_name o = Some b ->
  In b [ADD_MODULE; SUB_MODULE; MUL_MODULE; DIV_MODULE; NEG_MODULE; LESS_MODULE; LESSEQ_MODULE;
        GREATER_MODULE; GREATEREQ_MODULE; EQ_MODULE; NEQ_MODULE; CAST_MODULE; BUF_MODULE].
Proof. destruct o as [| | | | |[]|[]| | | | | |]; cbn; intros H; inversion H; subst; cbn; tauto. Qed.
Lemma base_tail_inj o o' b b' r r' : base_name o = Some b -> base_name o' = Some b' ->
  (exists x, r = String "_" x) -> (exists x, r' = String "_" x) ->
  (b ++ r = b' ++ r')%string -> o = o' /\ r = r'.
Proof.
  intros B B' [x ->] [y ->] H.
  assert (D : (base_name o = base_name o' -> o = o')).
  { destruct o as [| | | | |[]|[]| | | | | |], o' as [| | | | |[]|[]| | | | | |]; cbn in *;
      try reflexivity; try discriminate B; try discriminate B'; intros E; discriminate E. }
  apply base_names in B as C. apply base_names in B' as C'. cbn in C, C'.
  repeat match type of C with _ \/ _ => destruct C as [C|C] end;
    repeat match type of C' with _ \/ _ => destruct C' as [C'|C'] end;
    try contradiction; subst b b'; cbn in H; try discriminate H;
    (split; [apply D; congruence|congruence]).
Qed.

(** ** Where a name contains two adjacent underscores *)
Fixpoint scan (p : bool) (s : string) : option bool :=
  match s with
  | EmptyString => Some p
  | String c r => if Ascii.eqb c "_" then if p then None else scan true r else scan false r
  end.
Lemma scan_app : forall a p b, scan p (a ++ b) = match scan p a with Some q => scan q b | None => None end.
Proof.
  induction a as [|c a IH]; intros p b; cbn; [reflexivity|].
  destruct (Ascii.eqb c "_"); [|apply IH]. destruct p; [reflexivity|apply IH].
Qed.
Lemma scan_digits s : digits s = true -> s <> EmptyString -> forall p, scan p s = Some false.
Proof.
  induction s as [|c s IH]; intros D N p; [congruence|]. cbn in *. apply andb_true_iff in D as [D1 D2].
  destruct (Ascii.eqb_spec c "_") as [->|_]; [discriminate D1|].
  destruct s as [|c' s]; [reflexivity|]. apply IH; [exact D2|discriminate].
Qed.
Lemma scan_dec p z : scan p (decZ z) = Some false.
Proof. apply scan_digits; [apply decZ_digits|apply decZ_nonempty]. Qed.
Lemma scan_sig t p : scan p (sv_signature t) = Some false.
Proof.
  destruct t; unfold sv_signature; repeat (rewrite ?scan_app, ?scan_dec; cbn); reflexivity.
Qed.
Lemma scan_tail ins out lat : scan false (tail ins out lat) = Some false.
Proof.
  induction ins as [|t ins IH]; cbn [tail fold_right].
  - repeat (rewrite ?scan_app, ?scan_sig, ?scan_dec; cbn). reflexivity.
  - fold (tail ins out lat). cbn. now rewrite scan_app, scan_sig.
Qed.
Lemma prefix_scan pat s p : prefix (String "_" (String "_" pat)) s = true -> scan p s = None.
Proof.
  destruct s as [|c s]; [discriminate|]. cbn [prefix]. destruct (ascii_dec "_" c) as [<-|]; [|discriminate].
  destruct s as [|c s]; [discriminate|]. cbn [prefix]. destruct (ascii_dec "_" c) as [<-|]; [|discriminate].
  intros _. destruct p; reflexivity.
Qed.
Lemma scan_contains pat : forall s p q, scan p s = Some q -> contains s (String "_" (String "_" pat)) = false.
Proof.
  induction s as [|c s IH]; intros p q H; cbn [contains].
  - reflexivity.
  - destruct (prefix (String "_" (String "_" pat)) (String c s)) eqn:E.
    + apply (prefix_scan _ _ p) in E. congruence.
    + cbn [orb]. cbn [scan] in H. destruct (Ascii.eqb c "_").
      * destruct p; [discriminate H|]. eauto.
      * eauto.
Qed.
Lemma contains_cons c r pat : contains (String c r) pat = prefix pat (String c r) || contains r pat.
Proof. reflexivity. Qed.
Lemma contains_name pat rest : scan false (String "_" rest) = Some false ->
  contains (String "_" (String "_" rest)) (String "_" (String "_" pat)) =
  prefix pat rest.
Proof.
  intros H. rewrite contains_cons, (scan_contains pat _ _ _ H), orb_false_r.
  cbn [prefix]. destruct (ascii_dec "_" "_"); [|congruence]. reflexivity.
Qed.

(** ** The dispatch of the generator on names *)
Definition lib_vop (o : bop) : option vop :=
  match o with
  | ADD => Some Vadd | SUB => Some Vsub | MUL => Some Vmul | DIV => None
  | LESS => Some Vlt | LESSEQ => Some Vle | GREATER => Some Vgt | GREATEREQ => Some Vge
  | EQ => Some Veq | NEQ => Some Vne
  | AND => Some Vand | OR => Some Vor | XOR => Some Vxor
  end.
Lemma contains_base b pat ins out lat :
  (exists c d r, b = String "_" (String "_" (String c (String d r)))) ->
  scan false (match b with String _ r => r | _ => b end) = Some false ->
  contains (op_name b ins out lat) (String "_" (String "_" pat)) =
  prefix pat (match b with String _ (String _ r) => r | _ => b end ++ tail ins out lat)%string.
Proof.
  intros (c & d & r & ->) H. rewrite op_name_tail. cbn [append].
  rewrite contains_name; [reflexivity|].
  change (String "_" (String c (String d (r ++ tail ins out lat))))%string
    with (String "_" (String c (String d r)) ++ tail ins out lat)%string.
  rewrite scan_app. rewrite H. apply scan_tail.
Qed.
Lemma prefix_cons_s a b s t : prefix (String a s) (String b t) = (if ascii_dec a b then prefix s t else false).
Proof. reflexivity. Qed.
Lemma prefix_nil_s s : prefix "" s = true.
Proof. destruct s; reflexivity. Qed.

Ltac unf := unfold bin_op_of_name, ADD_MODULE, SUB_MODULE, MUL_MODULE, DIV_MODULE, NEG_MODULE, AND_MODULE, OR_MODULE,
  XOR_MODULE, LESS_MODULE, LESSEQ_MODULE, GREATER_MODULE, GREATEREQ_MODULE, EQ_MODULE, NEQ_MODULE, CAST_MODULE, BUF_MODULE.

Lemma bin_dispatch o b ins out lat : base_name (DBin o) = Some b ->
  contains (op_name b ins out lat) BUF_MODULE = false /\
  contains (op_name b ins out lat) CAST_MODULE = false /\
  bin_op_of_name (op_name b ins out lat) = lib_vop o.
Proof.
  intros B. destruct (tail_under ins out lat) as [x T].
  destruct o; inversion B; subst b; unf;
    repeat (rewrite contains_base by (cbn; eauto 10)); rewrite T; cbn; auto.
Qed.
Lemma neg_dispatch ins out lat :
  contains (op_name NEG_MODULE ins out lat) BUF_MODULE = false /\
  contains (op_name NEG_MODULE ins out lat) CAST_MODULE = false /\
  bin_op_of_name (op_name NEG_MODULE ins out lat) = None.
Proof.
  destruct (tail_under ins out lat) as [x T]. unf;
    repeat (rewrite contains_base by (cbn; eauto 10)); rewrite T; cbn; auto.
Qed.
Lemma cast_dispatch ins out lat :
  contains (op_name CAST_MODULE ins out lat) BUF_MODULE = false /\
  contains (op_name CAST_MODULE ins out lat) CAST_MODULE = true.
Proof.
  destruct (tail_under ins out lat) as [x T]. unf.
  repeat (rewrite contains_base by (cbn; eauto 10)); rewrite T; cbn; auto.
Qed.
Lemma fifo_dispatch t lat : contains (fifo_name t lat) BUF_MODULE = true.
Proof. unfold fifo_name. cbn. reflexivity. Qed.

Lemma gen_bin o v r a1 a2 lat : lib_vop o = Some v -> is_bitwise o = false ->
  exists name, ext_module (DBin o) [a1; a2] r lat = Some (name, [port_type r; port_type a1; port_type a2], pos_latency lat) /\
  gen_module name [port_type r; port_type a1; port_type a2] (pos_latency lat) =
    Some (bin_module v (port_type r) (port_type a1) (port_type a2) (pos_latency lat)).
Proof.
  intros V BW. assert (B : exists b, base_name (DBin o) = Some b) by (destruct o; cbn in *; try discriminate; eauto).
  destruct B as [b B]. exists (op_name b [a1; a2] r lat). split.
  - unfold ext_module, module_name. now rewrite B.
  - destruct (bin_dispatch o b [a1; a2] r lat B) as (E1 & E2 & E3).
    unfold gen_module. now rewrite E1, E2, E3, V.
Qed.
Lemma gen_cast r a1 lat : exists name,
  ext_module DCast [a1] r lat = Some (name, [port_type r; port_type a1], pos_latency lat) /\
  gen_module name [port_type r; port_type a1] (pos_latency lat) = Some (cast_module (port_type r) (port_type a1) (pos_latency lat)).
Proof.
  eexists. split; [reflexivity|]. destruct (cast_dispatch [a1] r lat) as (E1 & E2).
  unfold gen_module. now rewrite E1, E2.
Qed.
Lemma gen_fifo r a1 lat : exists name,
  ext_module DLatency [a1] r lat = Some (name, [port_type r; port_type a1], pos_latency lat) /\
  gen_module name [port_type r; port_type a1] (pos_latency lat) = Some (fifo_module (port_type r) (pos_latency lat)).
Proof.
  eexists. split; [reflexivity|]. unfold gen_module. now rewrite fifo_dispatch.
Qed.

(** ** Names are injective *)
Lemma module_name_inj o o' ins ins' out out' lat lat' n :
  o <> DLatency -> Forall pos_fields (out :: ins) -> Forall pos_fields (out' :: ins') ->
  module_name o ins out lat = Some n -> module_name o' ins' out' lat' = Some n ->
  o = o' /\ ins = ins' /\ out = out' /\ pos_latency lat = pos_latency lat'.
Proof.
  intros L F F' H H'.
  assert (B : exists b, base_name o = Some b /\ n = (b ++ tail ins out lat)%string).
  { unfold module_name in H. destruct o; try congruence;
      match type of H with match ?x with _ => _ end = _ => destruct x eqn:E; [|discriminate H] end;
      injection H as <-; eauto. }
  destruct B as (b & B & ->).
  assert (B' : o' = DLatency \/ exists b', base_name o' = Some b' /\ (b ++ tail ins out lat = b' ++ tail ins' out' lat')%string).
  { unfold module_name in H'. destruct o'; auto; right;
      match type of H' with match ?x with _ => _ end = _ => destruct x eqn:E; [|discriminate H'] end;
      injection H' as H'; eauto. }
  destruct B' as [->|(b' & B' & E)].
  - exfalso. injection H' as H'. unfold fifo_name in H'.
    assert (K : o = DLatency /\ ("_IN_" ++ decZ (p_width (port_type out')) ++ "_OUT_" ++ decZ (p_width (port_type out')) ++ "_" ++ decZ (pos_latency lat') = tail ins out lat)%string).
    { destruct (base_tail_inj DLatency o BUF_MODULE b _ _ eq_refl B ltac:(cbn; eauto) (tail_under ins out lat) H'). auto. }
    destruct K as [-> _]. congruence.
  - destruct (base_tail_inj o o' b b' _ _ B B' (tail_under _ _ _) (tail_under _ _ _) E) as [-> T].
    split; [reflexivity|]. now apply tail_inj.
Qed.
Lemma fifo_name_inj t t' lat lat' : 0 <= p_width (port_type t) -> 0 <= p_width (port_type t') ->
  fifo_name t lat = fifo_name t' lat' <->
  p_width (port_type t) = p_width (port_type t') /\ pos_latency lat = pos_latency lat'.
Proof.
  intros P P'. split.
  - unfold fifo_name. cbn. intros H. repeat (injection H as H).
    apply decZ_split in H as [E H]; [|assumption..]. repeat (injection H as H).
    apply decZ_split in H as [_ H]; [|assumption..]. apply decZ_inj in H; auto using pos_latency_nonneg.
  - intros [E L]. unfold fifo_name. now rewrite E, L.
Qed.
