(** * From the programs of Dfcir.v to dialect operations with their attributes.

    The attributes are those dfcir_builder.cpp:92-354 and the builders of
    DFCIROperations.td give: offsets are i64, shift amounts, bit ranges and latencies i32, a
    constant is [si]/[ui] of the width of its type (signless for other than fixed types,
    :134-160; a value of more than 64 bits is extended from 64).  [None] where the kinds or the
    number of operands do not fit the operation: such a program does not verify. *)
From Coq Require Import ZArith Bool String Lia.
From stdpp Require Import gmap list.
From Verif Require Import Types Word Value Graph GraphSpec OpSpec Dfcir StreamSpec Sched SchedSpec TypesProofs ProgTyping Verify VerifyProofs Asm AsmSpec AsmProofs.
Local Open Scope Z_scope.

(** IntegerAttr::get: the bits of the value *)
Definition int_attr (s : isgn) (w z : Z) : iattr := mkIA s w (z mod 2 ^ w).
(** dfcir_builder.cpp:134-163 *)
Definition const_attr (t : dftype) (v : Z) : iattr :=
  match t with
  | TFixed true _ _ => int_attr SignedInt (total_bits t) (num true 64 v)
  | TFixed false _ _ => int_attr UnsignedInt (total_bits t) (num false 64 v)
  | _ => int_attr Signless (total_bits t) (num false 64 v)
  end.
(** DFCIROperations.td:137, 163, 266; DFCIROpInterfaces.td:116 *)
Definition latency_attr (l : Z) : iattr := int_attr Signless 32 l.

(** dfcir_builder.cpp:178-300 *)
Definition bin_op (b : bop) (l : Z) (x y : nat) (r : vtype) : aop :=
  match b with
  | ADD => OBinary AAdd (latency_attr l) x y r | SUB => OBinary ASub (latency_attr l) x y r
  | MUL => OBinary AMul (latency_attr l) x y r | DIV => OBinary ADiv (latency_attr l) x y r
  | LESS => OBinary ALess (latency_attr l) x y r | LESSEQ => OBinary ALessEq (latency_attr l) x y r
  | GREATER => OBinary AGreater (latency_attr l) x y r | GREATEREQ => OBinary AGreaterEq (latency_attr l) x y r
  | EQ => OBinary AEq (latency_attr l) x y r | NEQ => OBinary ANotEq (latency_attr l) x y r
  | AND => OLogic AAnd x y r | OR => OLogic AOr x y r | XOR => OLogic AXor x y r
  end.
Definition asm_op (o : dop) (k : vkind) (t : dftype) (l : Z) (a : list nat) : option aop :=
  match o, k, a with
  | DIn false n, VStream, [] => Some (OInput t n None)                                  (** :113-124 *)
  | DIn true n, VScalar, [] => Some (OScalarInput t n)
  | DOut false n, VStream, [] => Some (OOutput t n None None)                           (** :125-138 *)
  | DOut true n, VScalar, [] => Some (OScalarOutput t n None)
  | DConst v, VConst, [] => Some (OConstant t (const_attr t v))                         (** :139-171 *)
  | DOffset d, _, [x] => Some (OOffset x (int_attr Signless 64 d) (k, t))               (** :102-112 *)
  | DMux, _, c :: vs => Some (OMux c vs (k, t))                                         (** :172-189 *)
  | DBin b, _, [x; y] => Some (bin_op b l x y (k, t))
  | DUn NOT, _, [x] => Some (ONot x (k, t))
  | DUn NEG, _, [x] => Some (OUnary false (latency_attr l) x (k, t))
  | DCast, _, [x] => Some (OUnary true (latency_attr l) x (k, t))
  | DShl n, _, [x] => Some (OShift true x (int_attr Signless 32 n) (k, t))
  | DShr n, _, [x] => Some (OShift false x (int_attr Signless 32 n) (k, t))
  | DBits h i, _, [x] => Some (OBits x (int_attr Signless 32 h) (int_attr Signless 32 i) (k, t))
  | DCat, _, [x; y] => Some (OLogic ACat x y (k, t))
  | DLatency, _, [x] => Some (OLatency (latency_attr l) x (k, t))                       (** DFCIRGraph.h:166-183 *)
  | _, _, _ => None
  end.
Definition asm_stmt (s : stmt) : option astmt :=
  match s with
  | Def r o k t l a => match asm_op o k t l a with Some x => Some (ADef r x) | None => None end
  | Con d s => Some (AConnect d s)
  end.
Definition to_asm (P : program) : option aprog := mapM asm_stmt P.

(** ** Programs that verify *)
Lemma int_attr_ok s w z : 0 <= w -> attr_ok (int_attr s w z).
Proof. intro H. split; [exact H|]. cbn. apply Z.mod_pos_bound. apply Z.pow_pos_nonneg; lia. Qed.
Lemma total_bits_nonneg t : wf_type t -> 0 <= total_bits t.
Proof. intro H. apply total_bits_range in H. lia. Qed.
Lemma const_attr_ok t v : wf_type t -> attr_ok (const_attr t v).
Proof. intro H. apply total_bits_nonneg in H. destruct t as [[]| |]; apply int_attr_ok; exact H. Qed.
Lemma wf_type_ok t : wf_type t -> type_ok t.
Proof. destruct t; cbn; lia. Qed.

Lemma asm_op_some o k t l a r : asm_op o k t l a = Some r ->
  result_type r = (k, t) /\ (forall u, u ∈ uses r -> u ∈ a) /\ (wf_type t -> forall x, x ∈ attributes r -> attr_ok x) /\
  (forall x f y, r = OOffset x f y -> exists d, o = DOffset d /\ a = [x] /\ y = (k, t)) /\
  (forall c y, r = OMux c [] y -> o = DMux /\ a = [c]) /\ (forall t' m, r <> OCounter t' m).
Proof.
  intro E.
  assert (I32 : forall s z, attr_ok (int_attr s 32 z)) by (intros; apply int_attr_ok; lia).
  assert (I64 : forall s z, attr_ok (int_attr s 64 z)) by (intros; apply int_attr_ok; lia).
  assert (CA : forall v, wf_type t -> attr_ok (const_attr t v)) by (intros; apply const_attr_ok; assumption).
  unfold latency_attr in *.
  destruct o as [[] n|[] n|v|d| |b|[]| |n|n|x y| |]; cbn in E;
    try (destruct k; try discriminate E); destruct a as [|x1 [|x2 [|x3 a]]]; try discriminate E; injection E as <-;
    try (destruct b); cbn;
    (split; [reflexivity|]); (split; [set_solver|]);
    (split; [intros WT z Hz; rewrite ?elem_of_cons, ?elem_of_nil in Hz; repeat destruct Hz as [->|Hz]; try contradiction; try exact (I32 _ _); try exact (I64 _ _); try (apply CA; exact WT)|]);
    (split; [intros x0 f0 y0 Q; try discriminate Q; injection Q as <- <- <-; eauto|]);
    (split; [intros c0 y0 Q; try discriminate Q; injection Q as <- <-; auto|]); try discriminate.
Qed.
Lemma verify_asm o k t l a vs : verify_op o (k, t) vs = true -> length a = length vs -> is_Some (asm_op o k t l a).
Proof.
  intros V L. destruct o as [[] n|[] n|v|d| |b|[]| |n|n|x y| |]; cbn in V;
    destruct vs as [|v1 [|v2 [|v3 vs]]]; try discriminate V; destruct a as [|a1 [|a2 [|a3 a]]]; try discriminate L; cbn; destruct k; try discriminate V; eauto.
Qed.

(** every offset is of the type of its operand *)
Definition offsets_typed (P : program) : Prop := forall r d k t l a, Def r (DOffset d) k t l a ∈ P -> exists s, a = [s] /\ val_ty P s = (k, t).
Lemma verified_wellformed P : verified P -> ptyped P -> offsets_typed P -> exists D, to_asm P = Some D /\ wellformed ∅ D.
Proof.
  intros V T O. pose proof (pt_defs P T) as ND.
  assert (G : forall q p, P = p ++ q -> check_program verify_op (binds ∅ p) q = true -> exists D, to_asm q = Some D /\ wellformed (binds ∅ p) D); [|exact (G P [] eq_refl V)].
  induction q as [|s q IH]; intros p E C; [exists []; split; [reflexivity|constructor]|].
  assert (E' : P = (p ++ [s]) ++ q) by (rewrite <- app_assoc; exact E). specialize (IH _ E'). rewrite binds_app in IH. cbn [binds fold_left] in IH. fold (binds ∅ p) in IH.
  destruct s as [r o k t l a|d y]; cbn [check_program bind] in C, IH.
  - destruct (binds ∅ p !! r) as [z|] eqn:Er; [discriminate|]. destruct (mapM _ a) as [vs|] eqn:Ea; [|discriminate]. apply andb_prop in C as [C1 C2].
    destruct (IH C2) as (D & ED & WD). apply mapM_Some in Ea. pose proof (Forall2_length _ _ _ Ea) as La.
    assert (HD : Def r o k t l a ∈ P) by (rewrite E; apply elem_of_app; right; left).
    assert (WT : wf_type t) by (apply (pt_wf P T r); unfold has_ty; eauto 10).
    destruct (verify_asm o k t l a vs C1 La) as (x & Ex). destruct (asm_op_some _ _ _ _ _ _ Ex) as (R1 & R2 & R3 & R4 & R5 & R6).
    assert (LK : forall u, u ∈ a -> is_Some (binds ∅ p !! u)).
    { intros u Hu. apply elem_of_list_lookup in Hu as (i & Hi). destruct (Forall2_lookup_l _ _ _ _ _ Ea Hi) as (z & _ & Hz). eauto. }
    exists (ADef r x :: D). split; [unfold to_asm in *; cbn [mapM asm_stmt]; rewrite Ex; cbn; rewrite ED; reflexivity|].
    constructor.
    + exact Er.
    + intros u Hu. apply LK, R2, Hu.
    + exact (R3 WT).
    + rewrite R1. exact (wf_type_ok t WT).
    + intros b f y Ey. destruct (R4 _ _ _ Ey) as (d & -> & -> & ->). destruct (O _ _ _ _ _ _ HD) as (s & Es & Ts). injection Es as <-.
      destruct (LK b ltac:(left)) as (z & Hz). pose proof (binds_val_ty P p _ b z ND E Hz) as X. rewrite Ts in X. subst z. split; [exact Hz|].
      destruct vs as [|v1 [|]]; try discriminate La. cbn in C1. apply andb_prop in C1 as [_ C1]. cbn. unfold is_stream_ty in C1. cbn in C1. destruct k; congruence.
    + intros c y Ey. destruct (R5 _ _ Ey) as (-> & ->). destruct (pt_args P T _ _ _ _ _ _ HD) as (ts & F2 & c' & arms & b & -> & _). apply Forall2_length in F2. cbn in F2. rewrite app_length in F2. cbn in F2. lia.
    + intros t' m Ey. destruct (R6 t' m Ey).
    + rewrite R1. exact WD.
  - destruct (binds ∅ p !! d) eqn:Ed; [|discriminate]. destruct (binds ∅ p !! y) eqn:Ey; [|discriminate]. destruct (IH C) as (D & ED & WD).
    exists (AConnect d y :: D). split; [unfold to_asm in *; cbn [mapM asm_stmt]; cbn; rewrite ED; reflexivity|]. constructor; eauto.
Qed.

(** ** The text determines the program *)
Definition back_bin (o : abin) : option bop :=
  match o with
  | AAdd => Some ADD | ASub => Some SUB | AMul => Some MUL | ADiv => Some DIV | ALess => Some LESS | ALessEq => Some LESSEQ
  | AGreater => Some GREATER | AGreaterEq => Some GREATEREQ | AEq => Some EQ | ANotEq => Some NEQ | _ => None
  end.
Definition back_op (r : nat) (o : aop) : option stmt :=
  match o with
  | OScalarInput t n => Some (Def r (DIn true n) VScalar t 0 [])
  | OInput t n None => Some (Def r (DIn false n) VStream t 0 [])
  | OScalarOutput t n None => Some (Def r (DOut true n) VScalar t 0 [])
  | OOutput t n None None => Some (Def r (DOut false n) VStream t 0 [])
  | OConstant t v => Some (Def r (DConst (ia_bits v)) VConst t 0 [])
  | OLatency l a (k, t) => Some (Def r DLatency k t (ia_bits l) [a])
  | OUnary false l a (k, t) => Some (Def r (DUn NEG) k t (ia_bits l) [a])
  | OUnary true l a (k, t) => Some (Def r DCast k t (ia_bits l) [a])
  | OBinary b l x y (k, t) => match back_bin b with Some b => Some (Def r (DBin b) k t (ia_bits l) [x; y]) | None => None end
  | OOffset a f (k, t) => Some (Def r (DOffset (ia_bits f)) k t 0 [a])
  | OMux c vs (k, t) => Some (Def r DMux k t 0 (c :: vs))
  | OLogic AAnd x y (k, t) => Some (Def r (DBin AND) k t 0 [x; y])
  | OLogic AOr x y (k, t) => Some (Def r (DBin OR) k t 0 [x; y])
  | OLogic AXor x y (k, t) => Some (Def r (DBin XOR) k t 0 [x; y])
  | OLogic ACat x y (k, t) => Some (Def r DCat k t 0 [x; y])
  | ONot x (k, t) => Some (Def r (DUn NOT) k t 0 [x])
  | OBits x h i (k, t) => Some (Def r (DBits (ia_bits h) (ia_bits i)) k t 0 [x])
  | OShift true x n (k, t) => Some (Def r (DShl (ia_bits n)) k t 0 [x])
  | OShift false x n (k, t) => Some (Def r (DShr (ia_bits n)) k t 0 [x])
  | _ => None
  end.
Definition back (s : astmt) : option stmt := match s with ADef r o => back_op r o | AConnect d s => Some (Con d s) end.
Lemma back_rename f s : back (rename_stmt f s) = rename_def f <$> back s.
Proof.
  destruct s as [r o|d s]; [|reflexivity]. cbn. destruct o as [| ? ? []| ? ? []| ? ? [] []| |? ? []|[] ? ? []|b ? ? ? []|? ? []| |? ? []|[] ? ? []|? []|? ? ? []|[] ? ? []|]; try reflexivity.
  destruct b; reflexivity.
Qed.
Lemma back_asm s x : asm_stmt s = Some x -> back x = Some (reduce_stmt s).
Proof.
  destruct s as [r o k t l a|d s]; cbn [asm_stmt]; [|injection 1 as <-; reflexivity]. destruct (asm_op o k t l a) as [y|] eqn:E; [|discriminate]. intro H. injection H as <-.
  destruct o as [[] n|[] n|v|d| |b|[]| |n|n|h i| |]; cbn in E; try (destruct k; try discriminate E);
    destruct a as [|x1 [|x2 [|x3 a]]]; try discriminate E; injection E as <-; try (destruct b; reflexivity); try reflexivity; destruct t as [[]| |]; reflexivity.
Qed.
Lemma mapM_cons_inv {A B} (f : A -> option B) x l k : mapM f (x :: l) = Some k -> exists y k', f x = Some y /\ mapM f l = Some k' /\ k = y :: k'.
Proof. cbn. destruct (f x) as [y|]; cbn; [|discriminate]. destruct (mapM f l) as [k'|]; cbn; [|discriminate]. intro H. injection H as <-. eauto. Qed.
Lemma to_asm_defs : forall P D, to_asm P = Some D -> adefs D = defs P.
Proof.
  induction P as [|s P IH]; intros D E; [injection E as <-; reflexivity|]. apply mapM_cons_inv in E as (x & D' & E1 & E2 & ->). specialize (IH D' E2).
  destruct s as [r o k t l a|d s]; cbn in E1; [destruct (asm_op o k t l a); [|discriminate]|]; injection E1 as <-; cbn; unfold defs in *; cbn; rewrite <- IH; reflexivity.
Qed.
Theorem same_asm P P' D D' : to_asm P = Some D -> to_asm P' = Some D' -> same D D' -> same_program P P'.
Proof.
  intros E E' (f & I & ->). exists f. split; [rewrite <- (to_asm_defs P D E); exact I|]. clear I. revert P' D E E'.
  induction P as [|s P IH]; intros P' D E E'.
  - injection E as <-. destruct P' as [|s' P']; [reflexivity|]. apply mapM_cons_inv in E' as (? & ? & _ & _ & X). discriminate X.
  - apply mapM_cons_inv in E as (x & D1 & E1 & E2 & ->). destruct P' as [|s' P']; [discriminate E'|]. apply mapM_cons_inv in E' as (x' & D2 & E1' & E2' & X). cbn in X. injection X as <- <-.
    cbn [map]. f_equal; [|exact (IH P' D1 E2 E2')]. apply back_asm in E1, E1'. rewrite back_rename, E1 in E1'. cbn in E1'. injection E1' as <-. reflexivity.
Qed.

(** the numbers in the text *)
Lemma top_bit w b : 0 < w -> 0 <= b < 2 ^ w -> Z.testbit b (w - 1) = (2 ^ (w - 1) <=? b).
Proof.
  intros W B. assert (P : 2 ^ w = 2 * 2 ^ (w - 1)) by (rewrite <- Z.pow_succ_r by lia; f_equal; lia). assert (Q : 0 < 2 ^ (w - 1)) by (apply Z.pow_pos_nonneg; lia).
  rewrite Z.testbit_odd, Z.shiftr_div_pow2 by lia. destruct (Z.leb_spec (2 ^ (w - 1)) b) as [L|L].
  - replace (b / 2 ^ (w - 1)) with 1; [reflexivity|]. apply (Z.div_unique b (2 ^ (w - 1)) 1 (b - 2 ^ (w - 1))); lia.
  - rewrite Z.div_small by lia. reflexivity.
Qed.
Lemma sint_num s w b : 0 < w -> 0 <= b < 2 ^ w -> sint (mkIA s w b) = num true w b.
Proof. intros W B. unfold sint, num. cbn. rewrite top_bit by assumption. reflexivity. Qed.
Lemma sint_attr s w z : 0 < w -> - 2 ^ (w - 1) <= z < 2 ^ (w - 1) -> sint (int_attr s w z) = z.
Proof.
  intros W H. assert (P : 2 ^ w = 2 * 2 ^ (w - 1)) by (rewrite <- Z.pow_succ_r by lia; f_equal; lia). assert (Q : 0 < 2 ^ (w - 1)) by (apply Z.pow_pos_nonneg; lia).
  assert (B : 0 <= z mod 2 ^ w < 2 ^ w) by (apply Z.mod_pos_bound; lia). unfold int_attr. rewrite sint_num by assumption. unfold num. cbn [andb].
  destruct (Z.ltb_spec z 0) as [N|N].
  - assert (E : z mod 2 ^ w = z + 2 ^ w) by (symmetry; apply (Z.mod_unique z (2 ^ w) (-1)); lia). rewrite E. destruct (Z.leb_spec (2 ^ (w - 1)) (z + 2 ^ w)); lia.
  - rewrite Z.mod_small by lia. destruct (Z.leb_spec (2 ^ (w - 1)) z); lia.
Qed.
Lemma const_printed s i f v : 0 < total_bits (TFixed s i f) -> printed_value (const_attr (TFixed s i f) v) = num s (total_bits (TFixed s i f)) (num s 64 v mod 2 ^ total_bits (TFixed s i f)).
Proof.
  intro W. set (w := total_bits (TFixed s i f)) in *. assert (B : forall z, 0 <= z mod 2 ^ w < 2 ^ w) by (intro z; apply Z.mod_pos_bound, Z.pow_pos_nonneg; lia).
  destruct s; cbn [const_attr]; fold w; unfold printed_value, int_attr; cbn [ia_sgn ia_bits]; [|reflexivity]. apply sint_num; [exact W|apply B].
Qed.
Lemma asm_says o k t l a x : asm_op o k t l a = Some x -> fit t o l ->
  mnemonic x = spelling o /\ map printed_value (attributes x) = numbers t o l /\ uses x = a /\ result_type x = (k, t).
Proof.
  intros E F.
  assert (I32 : forall z, - 2 ^ 31 <= z < 2 ^ 31 -> printed_value (int_attr Signless 32 z) = z) by (intros z H; apply sint_attr; [lia|exact H]).
  assert (I64 : forall z, - 2 ^ 63 <= z < 2 ^ 63 -> printed_value (int_attr Signless 64 z) = z) by (intros z H; apply sint_attr; [lia|exact H]).
  destruct o as [[] n|[] n|v|d| |b|[]| |n|n|h i| |]; cbn in E; try (destruct k; try discriminate E);
    destruct a as [|x1 [|x2 [|x3 a]]]; try discriminate E; injection E as <-; try (destruct b); (split; [reflexivity|]); (split; [|split; reflexivity]); cbn [fit] in F;
    try (cbn [attributes bin_op map numbers timed]; unfold latency_attr; rewrite ?I32, ?I64 by (try apply F; exact F); reflexivity).
  all: destruct t as [s i f| |]; try contradiction; cbn [attributes map numbers is_signed]; rewrite const_printed by exact F; reflexivity.
Qed.

Theorem asm_text P D : to_asm P = Some D -> forall r o k t l a, Def r o k t l a ∈ P -> fit t o l ->
  exists x, ADef r x ∈ D /\ mnemonic x = spelling o /\ map printed_value (attributes x) = numbers t o l /\ uses x = a /\ result_type x = (k, t).
Proof.
  revert D. induction P as [|s P IH]; intros D E r o k t l a I F; [inversion I|]. apply mapM_cons_inv in E as (x & D1 & E1 & E2 & ->).
  apply elem_of_cons in I as [<-|I].
  - cbn in E1. destruct (asm_op o k t l a) as [y|] eqn:EA; [|discriminate]. injection E1 as <-. exists y. split; [left|]. exact (asm_says _ _ _ _ _ _ EA F).
  - destruct (IH D1 E2 _ _ _ _ _ _ I F) as (y & IY & R). exists y. split; [right; exact IY|exact R].
Qed.
