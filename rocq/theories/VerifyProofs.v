(** * The verifier and the schedulers (proofs). *)
From Coq Require Import ZArith Bool String Lia.
From stdpp Require Import gmap list.
From Verif Require Import Types Word Value Graph GraphSpec Dfcir Sched SchedSpec SchedStream SchedFinal DfcirProofs ProgTyping Verify.
Local Open Scope Z_scope.

Definition bind (env : gmap nat vtype) (s : stmt) : gmap nat vtype := match s with Def r _ k t _ _ => <[r := (k, t)]> env | Con _ _ => env end.
Definition binds (env : gmap nat vtype) (P : program) : gmap nat vtype := fold_left bind P env.
(** an extension with other names *)
Lemma mapM_ext {A B} (f g : A -> option B) l : (forall x, x ∈ l -> f x = g x) -> mapM f l = mapM g l.
Proof. induction l as [|a l IH]; intro E; [reflexivity|]. cbn. rewrite (E a) by constructor. destruct (g a); [|reflexivity]. cbn. rewrite IH; [reflexivity|]. intros x Hx. apply E. right. exact Hx. Qed.
Lemma mapM_map {A B C} (f : B -> option C) (g : A -> B) l : mapM f (map g l) = mapM (fun x => f (g x)) l.
Proof. induction l as [|a l IH]; [reflexivity|]. cbn. destruct (f (g a)); [|reflexivity]. cbn. rewrite IH. reflexivity. Qed.

Lemma mapM_one {A B} (f : A -> option B) v x : f v = Some x -> mapM f [v] = Some [x].
Proof. intro E. cbn. rewrite E. reflexivity. Qed.

Section Check.
Variable chk : dop -> vtype -> list vtype -> bool.
Notation ck := (check_program chk).
Lemma ck_app : forall p env q, ck env (p ++ q) = ck env p && ck (binds env p) q.
Proof.
  induction p as [|s p IH]; intros env q; [reflexivity|]. destruct s as [r o k t l a|d s]; cbn [app check_program binds fold_left bind].
  - destruct (env !! r); [reflexivity|]. destruct (mapM _ a); [|reflexivity]. rewrite IH, andb_assoc. reflexivity.
  - destruct (env !! d); [|reflexivity]. destruct (env !! s); [|reflexivity]. apply IH.
Qed.
(** a name the program does not mention *)
Definition mentions (s : stmt) : list nat := match s with Def r _ _ _ _ a => r :: a | Con d x => [d; x] end.
Lemma ck_weaken f x : forall P env, (forall s, s ∈ P -> f ∉ mentions s) -> ck (<[f := x]> env) P = ck env P.
Proof.
  induction P as [|s P IH]; intros env N; [reflexivity|]. pose proof (N s ltac:(constructor)) as Ns. assert (NP : forall s, s ∈ P -> f ∉ mentions s) by (intros s' Hs; apply N; right; exact Hs). destruct s as [r o k t l a|d s]; cbn [check_program mentions] in *.
  - rewrite not_elem_of_cons in Ns. destruct Ns as [N1 N2]. rewrite lookup_insert_ne by congruence. destruct (env !! r); [reflexivity|].
    rewrite (mapM_ext (fun y => <[f := x]> env !! y) (fun y => env !! y)); [|intros y Hy; apply lookup_insert_ne; intros ->; exact (N2 Hy)].
    destruct (mapM _ a); [|reflexivity]. rewrite insert_commute by congruence. rewrite IH by exact NP. reflexivity.
  - rewrite !not_elem_of_cons in Ns. destruct Ns as (N1 & N2 & _). rewrite !lookup_insert_ne by congruence. destruct (env !! d); [|reflexivity]. destruct (env !! s); [|reflexivity]. apply IH, NP.
Qed.
(** a name that stands for another value of the same type *)
Lemma ck_subst v s x : forall P env, env !! v = None -> env !! s = Some x -> v ∉ defs P -> ck (<[v := x]> env) P = ck env (map (subst_stmt v s) P).
Proof.
  assert (L : forall env y, env !! v = None -> env !! s = Some x -> <[v := x]> env !! y = (env : gmap nat vtype) !! subst_val v s y).
  { intros env y Hv Hs. unfold subst_val. destruct (Nat.eqb_spec y v) as [->|N]; [rewrite lookup_insert; congruence|apply lookup_insert_ne; congruence]. }
  induction P as [|st P IH]; intros env Hv Hs N; [reflexivity|]. destruct st as [r o k t l a|d y]; cbn [map subst_stmt check_program].
  - unfold defs in N. cbn in N. fold (defs P) in N. rewrite not_elem_of_cons in N. destruct N as [N1 N2]. rewrite (lookup_insert_ne env v r) by congruence. destruct (env !! r) as [z|] eqn:Er; [reflexivity|].
    rewrite mapM_map. rewrite (mapM_ext (fun z => <[v := x]> env !! z) (fun z => env !! subst_val v s z)) by (intros z _; apply L; assumption).
    destruct (mapM _ a); [|reflexivity]. rewrite insert_commute by congruence. rewrite IH; [reflexivity| | |exact N2].
    + rewrite lookup_insert_ne by congruence. exact Hv.
    + rewrite lookup_insert_ne by congruence. exact Hs.
  - assert (N2 : v ∉ defs P) by exact N. rewrite !L by assumption. destruct (env !! subst_val v s d); [|reflexivity]. destruct (env !! subst_val v s y); [|reflexivity]. apply IH; assumption.
Qed.
End Check.

(** programs whose names are in scope *)
Definition scoped (P : program) : Prop := check_program (fun _ _ _ => true) ∅ P = true.
Lemma binds_def : forall P env v x, binds env P !! v = Some x -> (exists o l a, Def v o (fst x) (snd x) l a ∈ P) \/ env !! v = Some x.
Proof.
  induction P as [|s P IH]; intros env v x H; [right; exact H|]. cbn in H. apply IH in H as [(o & l & a & H)|H]; [left; exists o, l, a; right; exact H|].
  destruct s as [r o k t l a|d y]; [|right; exact H]. cbn in H. destruct (decide (r = v)) as [->|N]; [|rewrite lookup_insert_ne in H by congruence; right; exact H].
  rewrite lookup_insert in H. injection H as <-. left. exists o, l, a. constructor.
Qed.
Lemma binds_some : forall P env v, v ∈ defs P \/ is_Some (env !! v) -> is_Some (binds env P !! v).
Proof.
  induction P as [|s P IH]; intros env v H; cbn.
  - destruct H as [H|H]; [inversion H|exact H].
  - apply IH. destruct s as [r o k t l a|d y]; cbn in *; [|exact H]. unfold defs in H. cbn in H. fold (defs P) in H. rewrite elem_of_cons in H. destruct (decide (v = r)) as [->|N]; [right; rewrite lookup_insert; eauto|].
    rewrite lookup_insert_ne by congruence. tauto.
Qed.
Lemma scoped_nodup : forall P env, check_program (fun _ _ _ => true) env P = true -> NoDup (defs P) /\ forall v, v ∈ defs P -> env !! v = None.
Proof.
  induction P as [|s P IH]; intros env H; [split; [constructor|intros v Hv; inversion Hv]|]. destruct s as [r o k t l a|d y]; cbn in H.
  - destruct (env !! r) eqn:Er; [discriminate|]. destruct (mapM _ a); [|discriminate]. apply IH in H as [A B]. unfold defs. cbn. fold (defs P). split.
    + constructor; [|exact A]. intro I. pose proof (B _ I) as X. rewrite lookup_insert in X. discriminate.
    + intros v Hv. rewrite elem_of_cons in Hv. destruct Hv as [->|Hv]; [exact Er|]. pose proof (B _ Hv) as X. destruct (decide (v = r)) as [->|N]; [exact Er|]. rewrite lookup_insert_ne in X by congruence. exact X.
  - destruct (env !! d); [|discriminate]. destruct (env !! y); [|discriminate]. exact (IH _ H).
Qed.
Lemma scoped_defs P : scoped P -> NoDup (defs P).
Proof. intro H. apply (scoped_nodup P ∅ H). Qed.
Lemma scoped_reads p s q : scoped (p ++ s :: q) -> forall v, v ∈ reads s -> is_Some (binds ∅ p !! v).
Proof.
  intros H v Hv. unfold scoped in H. rewrite ck_app in H. apply andb_prop in H as [_ H]. destruct s as [r o k t l a|d y]; cbn in H, Hv.
  - destruct (binds ∅ p !! r); [discriminate|]. destruct (mapM _ a) as [vs|] eqn:E; [|discriminate]. apply mapM_Some in E. apply elem_of_list_lookup in Hv as (i & Hi). destruct (Forall2_lookup_l _ _ _ _ _ E Hi) as (z & _ & Hz). eauto.
  - apply elem_of_list_singleton in Hv as ->. destruct (binds ∅ p !! d); [|discriminate]. destruct (binds ∅ p !! y); [eauto|discriminate].
Qed.
Lemma binds_val_ty P p q v x : NoDup (defs P) -> P = p ++ q -> binds ∅ p !! v = Some x -> val_ty P v = x.
Proof.
  intros ND -> H. apply binds_def in H as [(o & l & a & H)|H]; [|rewrite lookup_empty in H; discriminate]. unfold val_ty. rewrite (def_of_def _ v o (fst x) (snd x) l a ND); [destruct x; reflexivity|]. apply elem_of_app. auto.
Qed.
(** the checks, statement by statement *)
Lemma check_each chk P : scoped P -> (check_program chk ∅ P = true <-> forall r o k t l a, Def r o k t l a ∈ P -> chk o (k, t) (map (val_ty P) a) = true).
Proof.
  intro SC. pose proof (scoped_defs P SC) as ND.
  assert (G : forall q p, P = p ++ q -> check_program chk (binds ∅ p) q = true <-> forall r o k t l a, Def r o k t l a ∈ q -> chk o (k, t) (map (val_ty P) a) = true).
  { induction q as [|s q IH]; intros p E.
    - cbn. split; [intros _ r o k t l a H; inversion H|reflexivity].
    - assert (E' : P = (p ++ [s]) ++ q) by (rewrite <- app_assoc; exact E). specialize (IH _ E'). unfold binds in IH. rewrite fold_left_app in IH. cbn in IH. fold (binds ∅ p) in IH.
      assert (SC' : scoped (p ++ s :: q)) by (rewrite <- E; exact SC). pose proof (scoped_reads p s q SC') as RD. unfold scoped in SC'. rewrite ck_app in SC'. apply andb_prop in SC' as [_ SC'].
      destruct s as [r o k t l a|d y]; cbn [check_program bind reads] in *.
      + destruct (binds ∅ p !! r); [discriminate|]. destruct (mapM (fun x => binds ∅ p !! x) a) as [vs|] eqn:Em; [|discriminate]. rewrite andb_true_iff, IH.
        assert (EV : map (val_ty P) a = vs).
        { assert (BV : forall x v, binds ∅ p !! x = Some v -> val_ty P x = v) by (intros x v; exact (binds_val_ty P p _ x v ND E)).
          apply mapM_Some in Em. clear -Em BV. induction Em as [|x v a vs H F2 IH]; [reflexivity|]. cbn. rewrite (BV x v H), IH. reflexivity. }
        split.
        * intros [H1 H2] r' o' k' t' l' a' H. apply elem_of_cons in H as [H|H]; [injection H as -> -> -> -> -> ->; rewrite EV; exact H1|eauto].
        * intro H. split; [rewrite <- EV; eapply H; left|]. intros r' o' k' t' l' a' H'. eapply H. right. exact H'.
      + destruct (binds ∅ p !! d); [|discriminate]. destruct (binds ∅ p !! y); [|discriminate]. rewrite IH. split; intros H r' o' k' t' l' a' H'; [apply elem_of_cons in H' as [H'|H']; [discriminate|]; eauto|eapply H; right; exact H']. }
  exact (G P [] eq_refl).
Qed.
Lemma wfp_scoped P : wfp P -> scoped P.
Proof.
  intros [W1 W2 W3 W4 _ _]. unfold scoped.
  assert (G : forall q p, P = p ++ q -> check_program (fun _ _ _ => true) (binds ∅ p) q = true); [|exact (G P [] eq_refl)].
  induction q as [|s q IH]; intros p E; [reflexivity|]. assert (E' : P = (p ++ [s]) ++ q) by (rewrite <- app_assoc; exact E). specialize (IH _ E'). unfold binds in IH. rewrite fold_left_app in IH. cbn in IH. fold (binds ∅ p) in IH.
  pose proof (fun v H => binds_some p ∅ v (or_introl (W3 _ _ _ E v H))) as RD. destruct s as [r o k t l a|d y]; cbn [check_program bind reads] in *.
  - destruct (binds ∅ p !! r) as [x|] eqn:Er.
    + exfalso. apply binds_def in Er as [(o' & l' & a' & Er)|Er]; [|rewrite lookup_empty in Er; discriminate]. rewrite E in W1. unfold defs in W1. rewrite omap_app in W1. cbn in W1. apply NoDup_app in W1 as (_ & W1 & _). apply (W1 r); [apply defs_elem; eauto 10|constructor].
    + destruct (mapM (fun x => binds ∅ p !! x) a) as [vs|] eqn:Em; [exact IH|]. exfalso. revert Em RD. clear. induction a as [|x a IH]; cbn; [discriminate|]. intros Em RD. destruct (RD x ltac:(constructor)) as (v & Hv). rewrite Hv in Em. cbn in Em. destruct (mapM _ a); [discriminate|]. apply IH; [reflexivity|]. intros y Hy. apply RD. right. exact Hy.
  - destruct (RD y ltac:(constructor)) as (z & ->). destruct (binds_some p ∅ d (or_introl (W4 _ _ _ _ E))) as (z' & ->). exact IH.
Qed.

(** ** Buffers and offsets *)
Lemma binds_app env p q : binds env (p ++ q) = binds (binds env p) q.
Proof. apply fold_left_app. Qed.
Lemma binds_none P v : v ∉ defs P -> binds ∅ P !! v = None.
Proof.
  intro N. destruct (binds ∅ P !! v) as [x|] eqn:E; [|reflexivity]. apply binds_def in E as [(o & l & a & E)|E]; [|rewrite lookup_empty in E; discriminate].
  exfalso. apply N. apply defs_elem. eauto 10.
Qed.
Lemma scoped_mentions P : scoped P -> forall s v, s ∈ P -> v ∈ mentions s -> v ∈ defs P.
Proof.
  intros SC s v Hs Hv. apply elem_of_list_split in Hs as (p & q & ->).
  assert (RD : forall x, x ∈ reads s -> x ∈ defs (p ++ s :: q)).
  { intros x Hx. destruct (scoped_reads p s q SC x Hx) as (y & Hy). apply binds_def in Hy as [(o & l & a & Hy)|Hy]; [|rewrite lookup_empty in Hy; discriminate].
    rewrite defs_app, elem_of_app. left. apply defs_elem. eauto 10. }
  destruct s as [r o k t l a|d y]; cbn in Hv; rewrite elem_of_cons in Hv; destruct Hv as [->|Hv]; try (apply RD; exact Hv).
  - rewrite defs_app, elem_of_app. right. left.
  - unfold scoped in SC. rewrite ck_app in SC. apply andb_prop in SC as [_ SC]. cbn in SC. destruct (binds ∅ p !! d) as [z|] eqn:E; [|discriminate].
    apply binds_def in E as [(o & l & a & E)|E]; [|rewrite lookup_empty in E; discriminate]. rewrite defs_app, elem_of_app. left. apply defs_elem. eauto 10.
Qed.
Lemma insert_split_ty Q c lat f Q' : NoDup (defs Q) -> NoDup (dests Q) -> insert_buffer Q c lat f = Some Q' ->
  (exists p q o k t l a v k' t', Q = p ++ Def (sc_tgt c) o k t l a :: q /\ a !! Z.to_nat (sc_ind c) = Some v /\ val_ty Q v = (k', t') /\
      Q' = p ++ Def f DLatency k' t' lat [v] :: Def (sc_tgt c) o k t l (<[Z.to_nat (sc_ind c) := f]> a) :: q) \/
  (exists p q v k' t', Q = p ++ Con (sc_tgt c) v :: q /\ val_ty Q v = (k', t') /\
      Q' = p ++ Def f DLatency k' t' lat [v] :: Con (sc_tgt c) f :: q).
Proof.
  intros ND DN E. unfold insert_buffer in E.
  destruct (Z.leb_spec lat 0) as [L|L]; [discriminate|].
  destruct (Z.leb_spec 0 (sc_ind c)) as [I|I].
  - left.
    destruct (def_of Q (sc_tgt c)) as [[[[[o k] t] l] a]|] eqn:Ed; [|discriminate].
    destruct (a !! Z.to_nat (sc_ind c)) as [v|] eqn:Ea; [|discriminate].
    destruct (val_ty Q v) as [k' t'] eqn:Ev. injection E as <-.
    apply def_of_in in Ed. pose proof Ev as EvQ. apply elem_of_list_split in Ed as (p & q & ->).
    exists p, q, o, k, t, l, a, v, k', t'. split; [reflexivity|]. split; [assumption|]. split; [exact EvQ|].
    rewrite defs_app in ND. cbn in ND. apply NoDup_app in ND as (_ & N2 & N3). apply NoDup_cons in N3 as [N3 _].
    rewrite mjoin_app. change (Def (sc_tgt c) o k t l a :: q) with ([Def (sc_tgt c) o k t l a] ++ q).
    rewrite mjoin_app. cbn [map mjoin list_join]. rewrite Nat.eqb_refl.
    rewrite (mjoin_id _ p), (mjoin_id _ q); [reflexivity| |].
    + intros [r o1 k1 t1 l1 a1|] Hs; [|reflexivity]. destruct (Nat.eqb_spec r (sc_tgt c)) as [->|]; [|reflexivity].
      exfalso. apply N3. apply defs_elem. eauto 10.
    + intros [r o1 k1 t1 l1 a1|] Hs; [|reflexivity]. destruct (Nat.eqb_spec r (sc_tgt c)) as [->|]; [|reflexivity].
      exfalso. apply (N2 (sc_tgt c)); [apply defs_elem; eauto 10|left].
  - destruct (Z.eqb_spec (sc_ind c) (-1)) as [I'|]; [|discriminate]. right.
    destruct (con_of Q (sc_tgt c)) as [v|] eqn:Ec; [|discriminate].
    destruct (val_ty Q v) as [k' t'] eqn:Ev. injection E as <-.
    apply con_of_in in Ec. pose proof Ev as EvQ. apply elem_of_list_split in Ec as (p & q & ->).
    exists p, q, v, k', t'. split; [reflexivity|]. split; [exact EvQ|].
    rewrite dests_app in DN. cbn in DN. apply NoDup_app in DN as (_ & N2 & N3). apply NoDup_cons in N3 as [N3 _].
    rewrite mjoin_app. change (Con (sc_tgt c) v :: q) with ([Con (sc_tgt c) v] ++ q).
    rewrite mjoin_app. cbn [map mjoin list_join]. rewrite Nat.eqb_refl.
    rewrite (mjoin_id _ p), (mjoin_id _ q); [reflexivity| |].
    + intros [|d x] Hs; [reflexivity|]. destruct (Nat.eqb_spec d (sc_tgt c)) as [->|]; [|reflexivity].
      exfalso. apply N3. apply dests_elem. eauto 10.
    + intros [|d x] Hs; [reflexivity|]. destruct (Nat.eqb_spec d (sc_tgt c)) as [->|]; [|reflexivity].
      exfalso. apply (N2 (sc_tgt c)); [apply dests_elem; eauto 10|left].
Qed.

Section Kept.
Variable chk : dop -> vtype -> list vtype -> bool.
Hypothesis buffers : forall r a, chk DLatency r [a] = true.
Notation ck := (check_program chk).
Lemma scoped_binds P p q s v : P = p ++ s :: q -> scoped P -> v ∈ reads s -> binds ∅ p !! v = Some (val_ty P v : vtype).
Proof.
  intros -> SC Hv. destruct (scoped_reads p s q SC v Hv) as (x & Hx). refine (eq_trans Hx _). f_equal. symmetry. exact (binds_val_ty _ p _ v x (scoped_defs _ SC) eq_refl Hx).
Qed.
Lemma mapM_insert (env : gmap nat vtype) a i v f x : a !! i = Some v -> env !! v = Some x -> f ∉ a -> 
  mapM (fun y => <[f := x]> env !! y) (<[i := f]> a) = mapM (fun y => env !! y) a.
Proof.
  intros Ha Hv N. revert i Ha. induction a as [|b a IH]; intros i Ha; [reflexivity|]. rewrite not_elem_of_cons in N. destruct N as [N1 N2].
  destruct i as [|i]; cbn in Ha |- *.
  - injection Ha as ->. rewrite lookup_insert, Hv. cbn. rewrite (mapM_ext (fun y => <[f := x]> env !! y) (fun y => env !! y)); [reflexivity|].
    intros y Hy. apply lookup_insert_ne. intros ->. exact (N2 Hy).
  - rewrite lookup_insert_ne by congruence. destruct (env !! b); [|reflexivity]. cbn. f_equal. exact (IH N2 i Ha).
Qed.
Lemma insert_check P c lat f P' : scoped P -> NoDup (dests P) -> (forall v, v ∈ defs P -> (v < f)%nat) -> insert_buffer P c lat f = Some P' ->
  ck ∅ P' = ck ∅ P.
Proof.
  intros SC DN LT E. pose proof (scoped_defs P SC) as ND. assert (NM : forall s, s ∈ P -> f ∉ mentions s).
  { intros s Hs X. pose proof (LT _ (scoped_mentions P SC s f Hs X)). lia. }
  assert (NF : forall p, (exists q, P = p ++ q) -> binds ∅ p !! f = None).
  { intros p (q & EQ). apply binds_none. intro X. assert (Y : f ∈ defs P) by (rewrite EQ, defs_app, elem_of_app; auto). apply LT in Y. lia. }
  destruct (insert_split_ty _ _ _ _ _ ND DN E) as [(p & q & o & k & t & l & a & v & k' & t' & EQ & Ea & Ev & EQ')|(p & q & v & k' & t' & EQ & Ev & EQ')].
  - assert (Bv : binds ∅ p !! v = Some (k', t')) by (rewrite <- Ev; eapply scoped_binds; [exact EQ|exact SC|]; cbn; eapply elem_of_list_lookup_2; exact Ea).
    rewrite EQ', EQ at 1. rewrite !ck_app. f_equal. cbn [check_program]. rewrite NF by eauto. rewrite (mapM_one (fun x => binds ∅ p !! x) v _ Bv). rewrite buffers. cbn.
    assert (Nm : f ∉ mentions (Def (sc_tgt c) o k t l a)) by (apply NM; rewrite EQ; apply elem_of_app; right; left). cbn in Nm. rewrite not_elem_of_cons in Nm. destruct Nm as [N1 N2].
    rewrite lookup_insert_ne by congruence. destruct (binds ∅ p !! sc_tgt c); [reflexivity|]. rewrite (mapM_insert _ _ _ _ _ _ Ea Bv N2). destruct (mapM _ a); [|reflexivity]. f_equal.
    rewrite insert_commute by congruence. apply ck_weaken. intros s Hs. apply NM. rewrite EQ. apply elem_of_app. right. right. exact Hs.
  - assert (Bv : binds ∅ p !! v = Some (k', t')) by (rewrite <- Ev; eapply scoped_binds; [exact EQ|exact SC|]; cbn; left).
    rewrite EQ', EQ at 1. rewrite !ck_app. f_equal. cbn [check_program]. rewrite NF by eauto. rewrite (mapM_one (fun x => binds ∅ p !! x) v _ Bv). rewrite buffers. cbn.
    assert (Nm : f ∉ mentions (Con (sc_tgt c) v)) by (apply NM; rewrite EQ; apply elem_of_app; right; left). cbn in Nm. rewrite not_elem_of_cons in Nm. destruct Nm as [N1 N2].
    rewrite lookup_insert_ne by congruence. destruct (binds ∅ p !! sc_tgt c); [|reflexivity]. rewrite lookup_insert, Bv.
    apply ck_weaken. intros s Hs. apply NM. rewrite EQ. apply elem_of_app. right. right. exact Hs.
Qed.
Lemma subst_mentions v s st : v ∉ mentions st -> subst_stmt v s st = st.
Proof.
  assert (S : forall x, x <> v -> subst_val v s x = x) by (intros x N; unfold subst_val; destruct (Nat.eqb_spec x v); [congruence|reflexivity]).
  destruct st as [r o k t l a|d y]; cbn; intro N.
  - f_equal. rewrite not_elem_of_cons in N. destruct N as [_ N]. induction a as [|x a IH]; [reflexivity|]. rewrite not_elem_of_cons in N. destruct N as [N1 N2]. cbn. rewrite S by congruence. f_equal. exact (IH N2).
  - rewrite !not_elem_of_cons in N. destruct N as (N1 & N2 & _). rewrite !S by congruence. reflexivity.
Qed.
Hypothesis offsets : forall d r, chk (DOffset d) r [r] = true.
(** an offset of the same type as its operand can be erased *)
Lemma erase_check P v : scoped P -> (forall r d k t l a, Def r (DOffset d) k t l a ∈ P -> exists s, a = [s] /\ val_ty P s = (k, t)) ->
  ck ∅ (erase_offset P v) = ck ∅ P.
Proof.
  intros SC PL. pose proof (scoped_defs P SC) as ND. unfold erase_offset. destruct (def_of P v) as [[[[[o k] t] l] a]|] eqn:Ed; [|reflexivity]. destruct o; try reflexivity. destruct a as [|s a]; [reflexivity|].
  apply def_of_in in Ed. destruct (PL _ _ _ _ _ _ Ed) as (s' & X & Es). injection X as <- ->. apply elem_of_list_split in Ed as (p & q & EQ).
  assert (NV : v ∉ defs p /\ v ∉ defs q).
  { rewrite EQ, defs_app in ND. cbn in ND. apply NoDup_app in ND as (_ & N2 & N3). apply NoDup_cons in N3 as [N3 _]. split; [|exact N3]. intro X. apply (N2 v X). left. }
  destruct NV as [Np Nq]. assert (Bs : binds ∅ p !! s = Some (k, t)) by (rewrite <- Es; eapply scoped_binds; [exact EQ|exact SC|left]).
  assert (FI : forall p, v ∉ defs p -> List.filter (fun x => negb (is_def v x)) p = p).
  { clear. induction p as [|[r o k t l a|d y] p IH]; intro N; [reflexivity| |cbn; f_equal; apply IH; exact N]. unfold defs in N. cbn in N. fold (defs p) in N. rewrite not_elem_of_cons in N. destruct N as [N1 N2].
    cbn. destruct (Nat.eqb_spec r v); [congruence|]. cbn. f_equal. exact (IH N2). }
  assert (SCp : scoped p) by (unfold scoped in SC |- *; rewrite EQ, ck_app in SC; apply andb_prop in SC as [SC _]; exact SC).
  rewrite EQ at 1. rewrite List.filter_app. cbn [List.filter is_def]. rewrite Nat.eqb_refl. cbn [negb]. rewrite (FI p Np), (FI q Nq), map_app.
  assert (Mp : map (subst_stmt v s) p = p).
  { rewrite <- (map_id p) at 2. apply map_ext_in. intros st Hst. apply subst_mentions. intro X. apply elem_of_list_In in Hst. exact (Np (scoped_mentions p SCp st v Hst X)). }
  rewrite Mp, EQ, !ck_app. f_equal. cbn [check_program]. rewrite (binds_none p v Np). rewrite (mapM_one (fun x => binds ∅ p !! x) s _ Bs). rewrite offsets. cbn. symmetry. apply ck_subst; [apply binds_none; exact Np|exact Bs|exact Nq].
Qed.
End Kept.

(** *** Offsets that keep the type *)
Definition plain_chk (o : dop) (r : vtype) (a : list vtype) : bool := match o, a with DOffset _, [x] => vtype_eqb x r | DOffset _, _ => false | _, _ => true end.
Definition plain (P : program) : Prop := check_program plain_chk ∅ P = true.
Lemma dftype_eqb_eq a b : dftype_eqb a b = true <-> a = b.
Proof.
  destruct a, b; cbn; try (split; congruence); rewrite ?andb_true_iff, ?Z.eqb_eq, ?eqb_true_iff; (split; [intuition congruence|injection 1; intros; subst; auto]).
Qed.
Lemma vtype_eqb_eq a b : vtype_eqb a b = true <-> a = b.
Proof.
  destruct a as [k t], b as [k' t']. unfold vtype_eqb. cbn. rewrite andb_true_iff, dftype_eqb_eq. split; [intros [X ->]; destruct k, k'; try discriminate; reflexivity|].
  injection 1 as -> ->. split; [destruct k'; reflexivity|reflexivity].
Qed.
Lemma ck_mono (c1 c2 : dop -> vtype -> list vtype -> bool) : (forall o r a, c1 o r a = true -> c2 o r a = true) -> forall P env, check_program c1 env P = true -> check_program c2 env P = true.
Proof.
  intros M. induction P as [|[r o k t l a|d y] P IH]; intros env H; [reflexivity| |]; cbn in *.
  - destruct (env !! r); [discriminate|]. destruct (mapM _ a); [|discriminate]. apply andb_prop in H as [H1 H2]. rewrite (M _ _ _ H1), (IH _ H2). reflexivity.
  - destruct (env !! d); [|discriminate]. destruct (env !! y); [|discriminate]. exact (IH _ H).
Qed.
Lemma plain_scoped P : plain P -> scoped P.
Proof. apply ck_mono. reflexivity. Qed.
Lemma plain_offsets P : plain P -> forall r d k t l a, Def r (DOffset d) k t l a ∈ P -> exists s, a = [s] /\ val_ty P s = (k, t).
Proof.
  intros PL r d k t l a H. pose proof (proj1 (check_each plain_chk P (plain_scoped P PL)) PL _ _ _ _ _ _ H) as X. cbn in X.
  destruct a as [|s [|]]; try discriminate X. exists s. split; [reflexivity|]. apply vtype_eqb_eq. exact X.
Qed.
Lemma cfg_check chk cfg : forall P env, check_program chk env (apply_config cfg P) = check_program chk env P.
Proof.
  induction P as [|[r o k t l a|d y] P IH]; intro env; [reflexivity| |]; cbn.
  - destruct (env !! r); [reflexivity|]. destruct (mapM _ a); [|reflexivity]. f_equal. apply IH.
  - destruct (env !! d); [|reflexivity]. destruct (env !! y); [|reflexivity]. apply IH.
Qed.
Section Passes.
Variable chk : dop -> vtype -> list vtype -> bool.
Hypothesis buffers : forall r a, chk DLatency r [a] = true.
Hypothesis offsets : forall d r, chk (DOffset d) r [r] = true.
Notation ck := (check_program chk).
Lemma insert_dests P c lat f P' : NoDup (defs P) -> NoDup (dests P) -> insert_buffer P c lat f = Some P' -> dests P' = dests P.
Proof.
  intros ND DN E. destruct (insert_split_ty _ _ _ _ _ ND DN E) as [(p & q & o & k & t & l & a & v & k' & t' & -> & Ea & Ev & ->)|(p & q & v & k' & t' & -> & Ev & ->)]; rewrite !dests_app; reflexivity.
Qed.
Lemma insert_fresh P c lat f P' : NoDup (defs P) -> NoDup (dests P) -> (forall v, v ∈ defs P -> (v < f)%nat) -> insert_buffer P c lat f = Some P' -> forall v, v ∈ defs P' -> (v < S f)%nat.
Proof.
  intros ND DN LT E v Hv. assert (X : v = f \/ v ∈ defs P); [|destruct X as [->|X]; [lia|apply LT in X; lia]].
  destruct (insert_split_ty _ _ _ _ _ ND DN E) as [(p & q & o & k & t & l & a & x & k' & t' & -> & Ea & Ev & ->)|(p & q & x & k' & t' & -> & Ev & ->)]; rewrite !defs_app in *; cbn in Hv |- *;
  rewrite ?elem_of_app, ?elem_of_cons in *; tauto.
Qed.
Lemma inserts_check : forall bs P f P', scoped P -> NoDup (dests P) -> (forall v, v ∈ defs P -> (v < f)%nat) -> insert_buffers P bs f = Some P' ->
  ck ∅ P' = ck ∅ P /\ scoped P'.
Proof.
  induction bs as [|[c lat] bs IH]; intros P f P' SC DN LT E; cbn in E; [injection E as <-; auto|].
  destruct (insert_buffer P c lat f) as [P1|] eqn:E1; [|discriminate]. pose proof (scoped_defs P SC) as ND.
  assert (SC1 : scoped P1) by (unfold scoped; rewrite (insert_check (fun _ _ _ => true) (fun _ _ => eq_refl) _ _ _ _ _ SC DN LT E1); exact SC).
  destruct (IH P1 (S f) P' SC1) as [H1 H2]; [rewrite (insert_dests _ _ _ _ _ ND DN E1); exact DN|eapply insert_fresh; eassumption|exact E|].
  split; [|exact H2]. rewrite H1. exact (insert_check chk buffers _ _ _ _ _ SC DN LT E1).
Qed.
End Passes.
Definition inserts_plain := inserts_check plain_chk (fun _ _ => eq_refl).
Section Passes2.
Variable chk : dop -> vtype -> list vtype -> bool.
Hypothesis buffers : forall r a, chk DLatency r [a] = true.
Hypothesis offsets : forall d r, chk (DOffset d) r [r] = true.
Notation ck := (check_program chk).
Lemma erases_check P : plain P -> ck ∅ (erase_offsets P) = ck ∅ P.
Proof.
  unfold erase_offsets. generalize (offset_ids P). intro ids. revert P. induction ids as [|v ids IH]; intros P PL; [reflexivity|]. cbn.
  pose proof (plain_scoped P PL) as SC. rewrite IH.
  - apply erase_check; [exact offsets|exact SC|exact (plain_offsets P PL)].
  - unfold plain. rewrite erase_check; [exact PL| |exact SC|exact (plain_offsets P PL)]. intros d r. cbn. apply vtype_eqb_eq. reflexivity.
Qed.
Lemma buffered_check cfg bs P P2 : plain P -> NoDup (dests P) -> insert_buffers (apply_config cfg P) bs (fresh (apply_config cfg P)) = Some P2 ->
  ck ∅ P2 = ck ∅ P /\ ck ∅ (erase_offsets P2) = ck ∅ P.
Proof.
  intros PL DN E. pose proof (plain_scoped P PL) as SC.
  assert (SC1 : scoped (apply_config cfg P)) by (unfold scoped; rewrite cfg_check; exact SC).
  assert (DN1 : NoDup (dests (apply_config cfg P))) by (rewrite cfg_dests; exact DN).
  destruct (inserts_check chk buffers _ _ _ _ SC1 DN1 (fresh_lt _) E) as [H1 H2]. rewrite cfg_check in H1. split; [exact H1|]. rewrite erases_check; [exact H1|].
  destruct (inserts_plain _ _ _ _ SC1 DN1 (fresh_lt _) E) as [H3 _]. unfold plain. rewrite H3, cfg_check. exact PL.
Qed.
End Passes2.
