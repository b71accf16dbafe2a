(** Buffer insertion, offset erasure and the stream theorem. *)
From Coq Require Import ZArith Bool Lia String.
From stdpp Require Import list.
From Verif Require Import Types Value Graph Dfcir StreamSpec Sched SchedSpec SchedProofs DfcirProofs.
Local Open Scope Z_scope.

(** ** Insertion *)
Section Insert.
Variables (P : program) (fr : nat).
Hypothesis FR : forall v, v ∈ defs P -> (v < fr)%nat.

Definition arg_ok (P2 : program) (b : Z) (v v2 : nat) : Prop :=
  (b = 0 /\ v2 = v) \/ (0 < b /\ (fr <= v2)%nat /\ exists k t, Def v2 DLatency k t b [v] ∈ P2).

Record buffered (B : nat -> Z -> Z) (P2 : program) (f : nat) : Prop := {
  bf_nd : NoDup (defs P2);
  bf_dn : NoDup (dests P2);
  bf_fr : (fr <= f)%nat;
  bf_lt : forall v, v ∈ defs P2 -> (v < f)%nat;
  bf_old : forall v o k t l a, Def v o k t l a ∈ P2 -> (v < fr)%nat ->
           exists a', Def v o k t l a' ∈ P /\ length a' = length a;
  bf_new : forall v o k t l a, Def v o k t l a ∈ P2 -> (fr <= v)%nat -> o = DLatency;
  bf_off : forall v d k t l a, Def v (DOffset d) k t l a ∈ P2 -> Def v (DOffset d) k t l a ∈ P;
  bf_def : forall v o k t l a, Def v o k t l a ∈ P -> exists a2, Def v o k t l a2 ∈ P2 /\
           length a2 = length a /\
           forall i x, a !! i = Some x -> exists y, a2 !! i = Some y /\ arg_ok P2 (B v (Z.of_nat i)) x y;
  bf_con : forall d s, Con d s ∈ P -> exists s2, Con d s2 ∈ P2 /\ arg_ok P2 (B d (-1)) s s2
}.

Definition updB (B : nat -> Z -> Z) (t : nat) (i z : Z) : nat -> Z -> Z :=
  fun x j => if Nat.eqb x t && (j =? i) then z else B x j.

Lemma defs_app A B : defs (A ++ B) = defs A ++ defs B.
Proof. unfold defs. apply omap_app. Qed.
Lemma dests_app A B : dests (A ++ B) = dests A ++ dests B.
Proof. unfold dests. apply omap_app. Qed.

Lemma mjoin_id (g : stmt -> list stmt) (Q : program) : (forall s, s ∈ Q -> g s = [s]) -> mjoin (map g Q) = Q.
Proof.
  induction Q as [|s Q IH]; intro H; [reflexivity|].
  change (mjoin (map g (s :: Q))) with (g s ++ mjoin (map g Q)).
  rewrite (H s ltac:(left)), IH; [reflexivity|]. intros; apply H; right; assumption.
Qed.
Lemma mjoin_app (g : stmt -> list stmt) (A B : program) : mjoin (map g (A ++ B)) = mjoin (map g A) ++ mjoin (map g B).
Proof. rewrite map_app. induction (map g A) as [|x l IH]; [reflexivity|]. change (x ++ mjoin (l ++ map g B) = (x ++ mjoin l) ++ mjoin (map g B)). rewrite IH. apply app_assoc. Qed.

Lemma insert_split Q c lat f Q' : NoDup (defs Q) -> NoDup (dests Q) -> insert_buffer Q c lat f = Some Q' ->
  0 < lat /\
  ((0 <= sc_ind c /\ exists p q o k t l a v k' t', Q = p ++ Def (sc_tgt c) o k t l a :: q /\
      a !! Z.to_nat (sc_ind c) = Some v /\
      Q' = p ++ Def f DLatency k' t' lat [v] :: Def (sc_tgt c) o k t l (<[Z.to_nat (sc_ind c) := f]> a) :: q) \/
   (sc_ind c = -1 /\ exists p q v k' t', Q = p ++ Con (sc_tgt c) v :: q /\
      Q' = p ++ Def f DLatency k' t' lat [v] :: Con (sc_tgt c) f :: q)).
Proof.
  intros ND DN E. unfold insert_buffer in E.
  destruct (Z.leb_spec lat 0) as [L|L]; [discriminate|]. split; [assumption|].
  destruct (Z.leb_spec 0 (sc_ind c)) as [I|I].
  - left. split; [assumption|].
    destruct (def_of Q (sc_tgt c)) as [[[[[o k] t] l] a]|] eqn:Ed; [|discriminate].
    destruct (a !! Z.to_nat (sc_ind c)) as [v|] eqn:Ea; [|discriminate].
    destruct (val_ty Q v) as [k' t'] eqn:Ev. injection E as <-.
    apply def_of_in in Ed. apply elem_of_list_split in Ed as (p & q & ->).
    exists p, q, o, k, t, l, a, v, k', t'. split; [reflexivity|]. split; [assumption|].
    rewrite defs_app in ND. cbn in ND. apply NoDup_app in ND as (_ & N2 & N3). apply NoDup_cons in N3 as [N3 _].
    rewrite mjoin_app. change (Def (sc_tgt c) o k t l a :: q) with ([Def (sc_tgt c) o k t l a] ++ q).
    rewrite mjoin_app. cbn [map mjoin list_join]. rewrite Nat.eqb_refl.
    rewrite (mjoin_id _ p), (mjoin_id _ q); [reflexivity| |].
    + intros [r o1 k1 t1 l1 a1|] Hs; [|reflexivity]. destruct (Nat.eqb_spec r (sc_tgt c)) as [->|]; [|reflexivity].
      exfalso. apply N3. apply defs_elem. eauto 10.
    + intros [r o1 k1 t1 l1 a1|] Hs; [|reflexivity]. destruct (Nat.eqb_spec r (sc_tgt c)) as [->|]; [|reflexivity].
      exfalso. apply (N2 (sc_tgt c)); [apply defs_elem; eauto 10|left].
  - destruct (Z.eqb_spec (sc_ind c) (-1)) as [I'|]; [|discriminate]. right. split; [assumption|].
    destruct (con_of Q (sc_tgt c)) as [v|] eqn:Ec; [|discriminate].
    destruct (val_ty Q v) as [k' t'] eqn:Ev. injection E as <-.
    apply con_of_in in Ec. apply elem_of_list_split in Ec as (p & q & ->).
    exists p, q, v, k', t'. split; [reflexivity|].
    rewrite dests_app in DN. cbn in DN. apply NoDup_app in DN as (_ & N2 & N3). apply NoDup_cons in N3 as [N3 _].
    rewrite mjoin_app. change (Con (sc_tgt c) v :: q) with ([Con (sc_tgt c) v] ++ q).
    rewrite mjoin_app. cbn [map mjoin list_join]. rewrite Nat.eqb_refl.
    rewrite (mjoin_id _ p), (mjoin_id _ q); [reflexivity| |].
    + intros [|d x] Hs; [reflexivity|]. destruct (Nat.eqb_spec d (sc_tgt c)) as [->|]; [|reflexivity].
      exfalso. apply N3. apply dests_elem. eauto 10.
    + intros [|d x] Hs; [reflexivity|]. destruct (Nat.eqb_spec d (sc_tgt c)) as [->|]; [|reflexivity].
      exfalso. apply (N2 (sc_tgt c)); [apply dests_elem; eauto 10|left].
Qed.

Lemma buffered_step B P2 f c lat P3 :
  buffered B P2 f -> insert_buffer P2 c lat f = Some P3 ->
  B (sc_tgt c) (sc_ind c) = 0 -> (sc_tgt c < fr)%nat ->
  (forall d k t l a, Def (sc_tgt c) (DOffset d) k t l a ∉ P) ->
  buffered (updB B (sc_tgt c) (sc_ind c) lat) P3 (S f).
Proof.
  intros H E HB Ht Hno. destruct H as [I1 I2 I3 I4 I5 I6 I7 I8 I9].
  destruct (insert_split _ _ _ _ _ I1 I2 E) as (L & [(Hi & p & q & o & k & t & l & a & v & k' & t' & -> & Ha & ->)
                                                    |(Hi & p & q & v & k' & t' & -> & ->)]).
  - set (Q := p ++ Def (sc_tgt c) o k t l a :: q) in *.
    set (a' := <[Z.to_nat (sc_ind c):=f]> a) in *.
    set (Q' := p ++ Def f DLatency k' t' lat [v] :: Def (sc_tgt c) o k t l a' :: q).
    assert (M : forall s, s ∈ Q' <-> s = Def f DLatency k' t' lat [v] \/ s = Def (sc_tgt c) o k t l a' \/ s ∈ p \/ s ∈ q).
    { intro s. unfold Q'. rewrite elem_of_app, !elem_of_cons. tauto. }
    assert (MQ : forall s, s ∈ Q <-> s = Def (sc_tgt c) o k t l a \/ s ∈ p \/ s ∈ q).
    { intro s. unfold Q. rewrite elem_of_app, !elem_of_cons. tauto. }
    assert (DQ : defs Q' = defs p ++ f :: sc_tgt c :: defs q) by (unfold Q'; rewrite defs_app; reflexivity).
    assert (DQ0 : defs Q = defs p ++ sc_tgt c :: defs q) by (unfold Q; rewrite defs_app; reflexivity).
    assert (Fn : f ∉ defs Q) by (intro X; apply I4 in X; lia).
    assert (Keep : forall s, s ∈ Q -> (forall o k t l a, s <> Def (sc_tgt c) o k t l a) -> s ∈ Q').
    { intros s Hs Hn. apply MQ in Hs as [->|Hs]; [exfalso; eapply Hn; reflexivity|]. apply M. tauto. }
    assert (Ain : forall b x y, arg_ok Q b x y -> arg_ok Q' b x y).
    { intros b x y [[X1 X2]|(X1 & X2 & k1 & t1 & X3)]; [left; auto|right]. split; [assumption|]. split; [assumption|].
      exists k1, t1. apply Keep; [assumption|]. intros o1 k2 t2 l1 a1 E1. injection E1. intros. subst. lia. }
    assert (UBne : forall x j, (x, j) <> (sc_tgt c, sc_ind c) -> updB B (sc_tgt c) (sc_ind c) lat x j = B x j).
    { intros x j N. unfold updB. destruct (Nat.eqb_spec x (sc_tgt c)), (Z.eqb_spec j (sc_ind c)); cbn; congruence. }
    constructor.
    + rewrite DQ. rewrite DQ0 in I1, Fn. clear -I1 Fn.
      apply NoDup_app in I1 as (N1 & N2 & N3). rewrite elem_of_app, elem_of_cons in Fn.
      apply NoDup_app. split; [assumption|]. split.
      * intros x Hx Hx'. apply elem_of_cons in Hx' as [->|Hx']; [tauto|apply (N2 x Hx Hx')].
      * apply NoDup_cons. split; [rewrite elem_of_cons; tauto|assumption].
    + unfold Q'. rewrite dests_app. cbn. unfold Q in I2. rewrite dests_app in I2. exact I2.
    + lia.
    + intros x Hx. rewrite DQ in Hx. rewrite elem_of_app, !elem_of_cons in Hx.
      destruct (decide (x = f)) as [->|]; [lia|]. assert (x ∈ defs Q) as Hx1.
      { rewrite DQ0, elem_of_app, elem_of_cons. tauto. }
      apply I4 in Hx1. lia.
    + intros x o1 k1 t1 l1 a1 Hx Lx. apply M in Hx as [Hx|[Hx|Hx]].
      * injection Hx. intros. subst. lia.
      * injection Hx as -> -> -> -> -> ->. destruct (I5 (sc_tgt c) o k t l a) as (a2 & X1 & X2); [apply MQ; tauto|assumption|].
        exists a2. split; [assumption|]. unfold a'. rewrite insert_length. assumption.
      * apply I5; [apply MQ; tauto|assumption].
    + intros x o1 k1 t1 l1 a1 Hx Lx. apply M in Hx as [Hx|[Hx|Hx]].
      * congruence.
      * injection Hx. intros. subst. lia.
      * eapply I6; [apply MQ; right; exact Hx|assumption].
    + intros x d k1 t1 l1 a1 Hx. apply M in Hx as [Hx|[Hx|Hx]].
      * congruence.
      * exfalso. injection Hx as -> <- -> -> -> ->. destruct (I5 (sc_tgt c) (DOffset d) k t l a) as (a2 & X1 & X2); [apply MQ; tauto|assumption|].
        apply (Hno _ _ _ _ _ X1).
      * apply I7. apply MQ. tauto.
    + intros x o1 k1 t1 l1 a1 Hx. destruct (I8 _ _ _ _ _ _ Hx) as (a2 & X1 & X2 & X3).
      destruct (Nat.eq_dec x (sc_tgt c)) as [->|Nx].
      * assert (X4 := X1). apply (def_unique Q (sc_tgt c) o k t l a) in X4; [|assumption|apply MQ; tauto].
        injection X4 as -> -> -> -> ->. exists a'. split; [apply M; tauto|].
        split; [unfold a'; rewrite insert_length; assumption|].
        intros i y Hy. destruct (Z.eq_dec (Z.of_nat i) (sc_ind c)) as [Ei|Ei].
        -- assert (Hii : Z.to_nat (sc_ind c) = i) by lia. exists f. split.
           ++ unfold a'. rewrite Hii. rewrite Hii in Ha. apply list_lookup_insert. apply lookup_lt_Some in Ha. assumption.
           ++ right. unfold updB. rewrite Nat.eqb_refl, Ei, Z.eqb_refl. cbn. split; [assumption|]. split; [lia|].
              exists k', t'. destruct (X3 i y Hy) as (z & Z1 & [[Z2 ->]|(Z2 & _)]).
              ** rewrite Hii in Ha. assert (v = y) as -> by congruence. apply M. tauto.
              ** rewrite Ei in Z2. lia.
        -- destruct (X3 i y Hy) as (z & Z1 & Z2). exists z. split.
           ++ unfold a'. rewrite list_lookup_insert_ne; [assumption|]. intro Ej. apply Ei. lia.
           ++ rewrite UBne by congruence. apply Ain. assumption.
      * exists a2. split; [apply Keep; [assumption|congruence]|]. split; [assumption|].
        intros i y Hy. destruct (X3 i y Hy) as (z & Z1 & Z2). exists z. split; [assumption|].
        rewrite UBne by congruence. apply Ain. assumption.
    + intros d s Hs. destruct (I9 d s Hs) as (s2 & X1 & X2). exists s2. split; [apply Keep; [assumption|congruence]|].
      rewrite UBne; [apply Ain; assumption|]. intros [= -> X]. lia.
  - set (Q := p ++ Con (sc_tgt c) v :: q) in *.
    set (Q' := p ++ Def f DLatency k' t' lat [v] :: Con (sc_tgt c) f :: q).
    assert (M : forall s, s ∈ Q' <-> s = Def f DLatency k' t' lat [v] \/ s = Con (sc_tgt c) f \/ s ∈ p \/ s ∈ q).
    { intro s. unfold Q'. rewrite elem_of_app, !elem_of_cons. tauto. }
    assert (MQ : forall s, s ∈ Q <-> s = Con (sc_tgt c) v \/ s ∈ p \/ s ∈ q).
    { intro s. unfold Q. rewrite elem_of_app, !elem_of_cons. tauto. }
    assert (DQ : defs Q' = defs p ++ f :: defs q) by (unfold Q'; rewrite defs_app; reflexivity).
    assert (DQ0 : defs Q = defs p ++ defs q) by (unfold Q; rewrite defs_app; reflexivity).
    assert (Fn : f ∉ defs Q) by (intro X; apply I4 in X; lia).
    assert (KeepD : forall v o k t l a, Def v o k t l a ∈ Q -> Def v o k t l a ∈ Q').
    { intros v1 o1 k1 t1 l1 a1 Hs. apply MQ in Hs as [Hs|Hs]; [discriminate|]. apply M. tauto. }
    assert (BackD : forall v o k t l a, Def v o k t l a ∈ Q' -> v <> f -> Def v o k t l a ∈ Q).
    { intros v1 o1 k1 t1 l1 a1 Hs N. apply M in Hs as [Hs|[Hs|Hs]]; [congruence|discriminate|]. apply MQ. tauto. }
    assert (Ain : forall b x y, arg_ok Q b x y -> arg_ok Q' b x y).
    { intros b x y [[X1 X2]|(X1 & X2 & k1 & t1 & X3)]; [left; auto|right]. split; [assumption|]. split; [assumption|].
      exists k1, t1. apply KeepD. assumption. }
    assert (UBne : forall x j, (x, j) <> (sc_tgt c, sc_ind c) -> updB B (sc_tgt c) (sc_ind c) lat x j = B x j).
    { intros x j N. unfold updB. destruct (Nat.eqb_spec x (sc_tgt c)), (Z.eqb_spec j (sc_ind c)); cbn; congruence. }
    constructor.
    + rewrite DQ. rewrite DQ0 in I1, Fn. clear -I1 Fn.
      apply NoDup_app in I1 as (N1 & N2 & N3). rewrite elem_of_app in Fn.
      apply NoDup_app. split; [assumption|]. split.
      * intros x Hx Hx'. apply elem_of_cons in Hx' as [->|Hx']; [tauto|apply (N2 x Hx Hx')].
      * apply NoDup_cons. split; [tauto|assumption].
    + unfold Q'. rewrite dests_app. cbn. unfold Q in I2. rewrite dests_app in I2. exact I2.
    + lia.
    + intros x Hx. rewrite DQ in Hx. rewrite elem_of_app, !elem_of_cons in Hx.
      destruct (decide (x = f)) as [->|]; [lia|]. assert (x ∈ defs Q) as Hx1.
      { rewrite DQ0, elem_of_app. tauto. }
      apply I4 in Hx1. lia.
    + intros x o1 k1 t1 l1 a1 Hx Lx. apply I5; [apply BackD; [assumption|lia]|assumption].
    + intros x o1 k1 t1 l1 a1 Hx Lx. destruct (Nat.eq_dec x f) as [->|N].
      * apply M in Hx as [Hx|[Hx|Hx]]; [congruence|discriminate|].
        exfalso. apply Fn. apply defs_elem. exists o1, k1, t1, l1, a1. apply MQ. tauto.
      * eapply I6; [apply BackD; eassumption|assumption].
    + intros x d k1 t1 l1 a1 Hx. apply I7. apply M in Hx as [Hx|[Hx|Hx]]; [congruence|discriminate|]. apply MQ. tauto.
    + intros x o1 k1 t1 l1 a1 Hx. destruct (I8 _ _ _ _ _ _ Hx) as (a2 & X1 & X2 & X3).
      exists a2. split; [apply KeepD; assumption|]. split; [assumption|].
      intros i y Hy. destruct (X3 i y Hy) as (z & Z1 & Z2). exists z. split; [assumption|].
      rewrite UBne; [apply Ain; assumption|]. intros [= _ X]. lia.
    + intros d s Hs. destruct (I9 d s Hs) as (s2 & X1 & X2).
      destruct (Nat.eq_dec d (sc_tgt c)) as [->|Nd].
      * assert (s2 = v) as -> by (apply (con_unique Q (sc_tgt c)); [assumption|assumption|apply MQ; tauto]).
        exists f. split; [apply M; tauto|]. right. unfold updB. rewrite Nat.eqb_refl, Hi. cbn. split; [assumption|]. split; [lia|].
        exists k', t'. rewrite Hi in HB. destruct X2 as [[_ ->]|(X & _)]; [apply M; tauto|lia].
      * exists s2. split.
        -- apply MQ in X1 as [X1|X1]; [congruence|]. apply M. tauto.
        -- rewrite UBne by congruence. apply Ain. assumption.
Qed.

Definition key (c : schan) : nat * Z := (sc_tgt c, sc_ind c).
Fixpoint Bof (bs : list (schan * Z)) (B : nat -> Z -> Z) : nat -> Z -> Z :=
  match bs with [] => B | (c, z) :: bs' => Bof bs' (updB B (sc_tgt c) (sc_ind c) z) end.

Lemma Bof_notin bs : forall B t i, (t, i) ∉ map (fun x => key (fst x)) bs -> Bof bs B t i = B t i.
Proof.
  induction bs as [|[c z] bs IH]; intros B t i H; [reflexivity|]. cbn in *.
  rewrite elem_of_cons in H. rewrite IH by tauto. unfold updB.
  destruct (Nat.eqb_spec t (sc_tgt c)), (Z.eqb_spec i (sc_ind c)); cbn; try reflexivity.
  subst. exfalso. apply H. left. reflexivity.
Qed.
Lemma Bof_in bs : forall B c z, NoDup (map (fun x => key (fst x)) bs) -> (c, z) ∈ bs ->
  Bof bs B (sc_tgt c) (sc_ind c) = z.
Proof.
  induction bs as [|[c0 z0] bs IH]; intros B c z N H; [inversion H|].
  cbn in *. apply NoDup_cons in N as [N1 N2]. apply elem_of_cons in H as [H|H].
  - injection H as -> ->. rewrite Bof_notin by exact N1. unfold updB. rewrite Nat.eqb_refl, Z.eqb_refl. reflexivity.
  - apply IH; assumption.
Qed.

Lemma buffered_all : forall bs B P2 f P3, buffered B P2 f -> insert_buffers P2 bs f = Some P3 ->
  NoDup (map (fun x => key (fst x)) bs) ->
  (forall c z, (c, z) ∈ bs -> B (sc_tgt c) (sc_ind c) = 0 /\ (sc_tgt c < fr)%nat /\
     forall d k t l a, Def (sc_tgt c) (DOffset d) k t l a ∉ P) ->
  exists f', buffered (Bof bs B) P3 f'.
Proof.
  induction bs as [|[c z] bs IH]; intros B P2 f P3 H E N Hc.
  - cbn in E. injection E as <-. eauto.
  - cbn in E. destruct (insert_buffer P2 c z f) as [P2'|] eqn:E1; [|discriminate].
    cbn in N. apply NoDup_cons in N as [N1 N2].
    destruct (Hc c z ltac:(left)) as (C1 & C2 & C3).
    cbn. eapply IH; [eapply buffered_step; eassumption|exact E|exact N2|].
    intros c' z' Hc'. destruct (Hc c' z' ltac:(right; assumption)) as (D1 & D2 & D3).
    split; [|split; assumption]. unfold updB.
    destruct (Nat.eqb_spec (sc_tgt c') (sc_tgt c)) as [Et|]; [|assumption].
    destruct (Z.eqb_spec (sc_ind c') (sc_ind c)) as [Ei|]; [|assumption].
    exfalso. apply N1. apply elem_of_list_fmap. exists (c', z'). split; [|assumption]. unfold key. cbn. congruence.
Qed.
End Insert.

(** ** Erasing offsets *)
Section Erase.
Context {V : Type} (I : interp V).

Definition wire (h : nat -> Z -> V) (v s : nat) : nat -> Z -> V := fun x => if Nat.eqb x v then h s else h x.
Lemma wire_subst h v s x : h (subst_val v s x) = wire h v s x.
Proof. unfold wire, subst_val. destruct (Nat.eqb x v); reflexivity. Qed.
Lemma wire_other h v s x : x <> v -> wire h v s x = h x.
Proof. intro N. unfold wire. destruct (Nat.eqb_spec x v); congruence. Qed.

Lemma stmt_subst h v s st : is_def v st = false -> s <> v ->
  stmt_holds I h (subst_stmt v s st) -> stmt_holds I (wire h v s) st.
Proof.
  intros ND NE H. destruct st as [r o k t l args|d x].
  - cbn in ND. assert (N : r <> v) by (intros ->; rewrite Nat.eqb_refl in ND; discriminate).
    assert (M : forall c, map (fun a => h a c) (map (subst_val v s) args) = map (fun a => wire h v s a c) args).
    { intro c. rewrite map_map. apply map_ext. intro a. rewrite wire_subst. reflexivity. }
    destruct o; cbn [subst_stmt stmt_holds] in H |- *; rewrite ?(wire_other h v s r N);
      try exact H; try (intros c x Hc; rewrite <- (M c); apply H; exact Hc).
    destruct args as [|a [|]]; cbn [map] in H; try exact Logic.I.
    intros c Hc. rewrite <- wire_subst. apply H. exact Hc.
  - cbn in H |- *. intros c Hc. rewrite <- !wire_subst. apply H. exact Hc.
Qed.

Record erasable (Q : program) : Prop := {
  er_nd : NoDup (defs Q);
  er_ar : forall v d k t l a, Def v (DOffset d) k t l a ∈ Q -> length a = 1%nat;
  er_rk : exists rk : nat -> nat, forall v d k t l s, Def v (DOffset d) k t l [s] ∈ Q -> (rk s < rk v)%nat
}.

Lemma defs_subst v s Q : defs (map (subst_stmt v s) Q) = defs Q.
Proof. induction Q as [|[|] Q IH]; cbn; [reflexivity| |]; unfold defs in IH |- *; cbn; rewrite ?IH; auto. Qed.
Lemma defs_filter Q (p : stmt -> bool) x : x ∈ defs (List.filter p Q) -> x ∈ defs Q.
Proof.
  intro H. apply defs_elem in H as (o & k & t & l & a & H). apply defs_elem. exists o, k, t, l, a.
  rewrite elem_of_list_In, List.filter_In, <- elem_of_list_In in H. tauto.
Qed.
Lemma defs_filter_nodup Q (p : stmt -> bool) : NoDup (defs Q) -> NoDup (defs (List.filter p Q)).
Proof.
  induction Q as [|s Q IH]; intro N; [assumption|]. cbn.
  destruct s as [r o k t l a|d x].
  - cbn in N. apply NoDup_cons in N as [N1 N2]. destruct (p _); [|auto].
    cbn. apply NoDup_cons. split; [|auto]. intro H. apply N1. eapply defs_filter. exact H.
  - destruct (p _); auto.
Qed.

Lemma erase_one Q v h : erasable Q -> circuit I (erase_offset Q v) h ->
  exists h', circuit I Q h' /\ forall x, x <> v -> h' x = h x.
Proof.
  intros [N A [rk R]] C. unfold erase_offset in C.
  destruct (def_of Q v) as [[[[[o k] t] l] a]|] eqn:Ed; [|exists h; auto].
  pose proof (def_of_in _ _ _ _ _ _ _ Ed) as Hd.
  destruct o as [| | |d0| | | | | | | | |]; try (exists h; split; [exact C|auto]; fail).
  pose proof (A _ _ _ _ _ _ Hd) as La. destruct a as [|s [|]]; cbn in La; try lia. clear La.
  pose proof (R _ _ _ _ _ _ Hd) as Rs. assert (NE : s <> v) by (intros ->; lia).
  exists (wire h v s). split; [|intros x Nx; apply wire_other; exact Nx].
  intros st Hst. destruct (is_def v st) eqn:Edef.
  - destruct st as [r o1 k1 t1 l1 a1|]; [|discriminate]. cbn in Edef. apply Nat.eqb_eq in Edef as ->.
    pose proof (def_unique _ _ _ _ _ _ _ _ _ _ _ _ N Hd Hst) as X. injection X as -> -> -> -> ->.
    cbn. intros c Hc. unfold wire at 1. rewrite Nat.eqb_refl. rewrite wire_other by exact NE. reflexivity.
  - apply stmt_subst; [assumption|assumption|]. apply C. apply elem_of_list_fmap. exists st. split; [reflexivity|].
    rewrite elem_of_list_In, List.filter_In, <- elem_of_list_In. split; [assumption|]. rewrite Edef. reflexivity.
Qed.

Lemma erase_erasable Q v : erasable Q -> erasable (erase_offset Q v).
Proof.
  intros [N A [rk R]]. unfold erase_offset.
  destruct (def_of Q v) as [[[[[o k] t] l] a]|] eqn:Ed; [|constructor; eauto].
  pose proof (def_of_in _ _ _ _ _ _ _ Ed) as Hd.
  destruct o as [| | |d0| | | | | | | | |]; try (constructor; eauto; fail).
  pose proof (A _ _ _ _ _ _ Hd) as La. destruct a as [|s [|]]; cbn in La; try lia. clear La.
  assert (Back : forall r o k t l a, Def r o k t l a ∈ map (subst_stmt v s) (List.filter (fun x => negb (is_def v x)) Q) ->
     exists a0, a = map (subst_val v s) a0 /\ Def r o k t l a0 ∈ Q).
  { intros r o k1 t1 l1 a1 H. apply elem_of_list_fmap in H as (st & E & H).
    destruct st as [r' o' k' t' l' a'|]; [|discriminate]. cbn in E. injection E as -> -> -> -> -> ->.
    exists a'. split; [reflexivity|]. rewrite elem_of_list_In, List.filter_In, <- elem_of_list_In in H. tauto. }
  constructor.
  - rewrite defs_subst. apply defs_filter_nodup. assumption.
  - intros r d k1 t1 l1 a1 H. apply Back in H as (a0 & -> & H). rewrite map_length. eauto.
  - exists rk. intros r d k1 t1 l1 s1 H. apply Back in H as (a0 & E & H).
    pose proof (A _ _ _ _ _ _ H) as La. destruct a0 as [|x [|]]; cbn in La; try lia.
    cbn in E. injection E as ->. pose proof (R _ _ _ _ _ _ H). unfold subst_val.
    destruct (Nat.eqb_spec x v) as [->|]; [|assumption]. pose proof (R _ _ _ _ _ _ Hd). lia.
Qed.

Lemma erase_many : forall ids Q h, erasable Q -> circuit I (fold_left erase_offset ids Q) h ->
  exists h', circuit I Q h' /\ forall x, x ∉ ids -> h' x = h x.
Proof.
  induction ids as [|v ids IH]; intros Q h E C; [exists h; auto|].
  cbn in C. destruct (IH _ _ (erase_erasable Q v E) C) as (h1 & C1 & X1).
  destruct (erase_one Q v h1 E C1) as (h2 & C2 & X2). exists h2. split; [assumption|].
  intros x Hx. rewrite elem_of_cons in Hx. rewrite X2 by (intros ->; tauto). apply X1. tauto.
Qed.

Lemma offset_ids_elem Q v : v ∈ offset_ids Q -> exists d k t l a, Def v (DOffset d) k t l a ∈ Q.
Proof.
  unfold offset_ids. intro H. apply elem_of_list_omap in H as (s & Hs & E).
  destruct s as [r o k t l a|]; [|discriminate]. destruct o; try discriminate E. injection E as <-. eauto 10.
Qed.

Theorem erase_circuit Q h : erasable Q -> circuit I (erase_offsets Q) h ->
  exists h', circuit I Q h' /\ forall x, (forall d k t l a, Def x (DOffset d) k t l a ∉ Q) -> h' x = h x.
Proof.
  intros E C. destruct (erase_many _ _ _ E C) as (h' & C' & X). exists h'. split; [assumption|].
  intros x Hx. apply X. intro Hi. apply offset_ids_elem in Hi as (d & k & t & l & a & Hi). eapply Hx; exact Hi.
Qed.
End Erase.

(** rank from dominance *)
Lemma wfp_rank P : wfp P -> exists rk : nat -> nat, forall s v x, s ∈ P ->
  (match s with Def r _ _ _ _ _ => r = v | Con _ _ => False end) -> x ∈ reads s -> (rk x < rk v)%nat.
Proof.
  intros W. 
  exists (fun x => match list_find (fun y => y = x) (defs P) with Some (i, _) => i | None => length (defs P) end).
  intros s v x Hs Hv Hx. destruct s as [r o k t l a|]; [|contradiction]. subst r.
  apply elem_of_list_split in Hs as (p & q & E). pose proof (wp_dom P W p _ q E x Hx) as Hp.
  pose proof (wp_defs P W) as ND. rewrite E in ND |- *. rewrite defs_app in *. 
  change (defs (Def v o k t l a :: q)) with (v :: defs q) in *.
  apply elem_of_list_lookup in Hp as (i & Hi).
  assert (Lx : list_find (fun y => y = x) (defs p ++ v :: defs q) = Some (i, x)).
  { apply list_find_Some. split; [rewrite lookup_app_l; [assumption|apply lookup_lt_Some in Hi; assumption]|].
    split; [reflexivity|]. intros j y Hj Lj ->. 
    assert (Hi' : (defs p ++ v :: defs q) !! i = Some x) by (rewrite lookup_app_l; [assumption|apply lookup_lt_Some in Hi; assumption]).
    pose proof (NoDup_lookup _ _ _ _ ND Hi' Hj). lia. }
  assert (Lv : list_find (fun y => y = v) (defs p ++ v :: defs q) = Some (length (defs p), v)).
  { apply list_find_Some. split; [rewrite lookup_app_r, Nat.sub_diag by lia; reflexivity|].
    split; [reflexivity|]. intros j y Hj Lj ->. 
    assert (Hi' : (defs p ++ v :: defs q) !! length (defs p) = Some v) by (rewrite lookup_app_r, Nat.sub_diag by lia; reflexivity).
    pose proof (NoDup_lookup _ _ _ _ ND Hi' Hj). lia. }
  rewrite Lx, Lv. apply lookup_lt_Some in Hi. assumption.
Qed.
