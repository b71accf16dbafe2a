(** The library of a program (proofs). *)
From Coq Require Import ZArith Bool String Lia.
From stdpp Require Import gmap list.
From Verif Require Import Types Word Value Graph TypesProofs Dfcir DfcirProofs Sched SchedFinal Linear Pipeline Latency LatencyProofs Verilog Stubs Naming NamingProofs StubsSpec ProgTyping.
Local Open Scope Z_scope.

Definition ext_name (m : extmod) : string := fst (fst m).
Definition ext_step (Q : program) (l : list extmod) (s : stmt) : list extmod :=
  match stmt_ext Q s with Some m => add_ext l m | None => l end.
Lemma find_ext_some l n m : find_ext l n = Some m -> m ∈ l /\ ext_name m = n.
Proof. intro H. apply List.find_some in H as [H E]. apply String.eqb_eq in E. split; [apply elem_of_list_In; exact H|exact E]. Qed.
Lemma find_ext_none l n : find_ext l n = None -> n ∉ map ext_name l.
Proof.
  intros H X. apply elem_of_list_In, in_map_iff in X as (m & E & X). apply (List.find_none _ _ H) in X. unfold ext_name in E. rewrite E, String.eqb_refl in X. discriminate.
Qed.
Lemma find_ext_in l n : n ∈ map ext_name l -> exists m, find_ext l n = Some m.
Proof. intro H. destruct (find_ext l n) eqn:E; [eauto|]. exfalso. eapply find_ext_none; eassumption. Qed.
Lemma ext_fold Q : forall p l, (forall m, m ∈ l -> exists s, s ∈ Q /\ stmt_ext Q s = Some m) -> NoDup (map ext_name l) -> p ⊆ Q ->
  let r := fold_left (ext_step Q) p l in
  (forall m, m ∈ r -> exists s, s ∈ Q /\ stmt_ext Q s = Some m) /\ NoDup (map ext_name r) /\
  (forall n, n ∈ map ext_name l -> n ∈ map ext_name r) /\
  (forall s m, s ∈ p -> stmt_ext Q s = Some m -> ext_name m ∈ map ext_name r).
Proof.
  induction p as [|s p IH]; intros l H N SB r; cbn in r.
  - split; [exact H|]. split; [exact N|]. split; [auto|]. intros s m X. inversion X.
  - assert (Hs : s ∈ Q) by (apply SB; left).
    assert (X : (forall m, m ∈ ext_step Q l s -> exists s, s ∈ Q /\ stmt_ext Q s = Some m) /\ NoDup (map ext_name (ext_step Q l s)) /\
      (forall n, n ∈ map ext_name l -> n ∈ map ext_name (ext_step Q l s)) /\ (forall m, stmt_ext Q s = Some m -> ext_name m ∈ map ext_name (ext_step Q l s))).
    { unfold ext_step. destruct (stmt_ext Q s) as [m|] eqn:E; [|split; [exact H|split; [exact N|split; [auto|discriminate]]]].
      unfold add_ext. fold (ext_name m). destruct (find_ext l (ext_name m)) as [m'|] eqn:Ef.
      - split; [exact H|]. split; [exact N|]. split; [auto|]. intros m0 E0. injection E0 as <-. apply find_ext_some in Ef as [Ef <-].
        apply elem_of_list_In, in_map, elem_of_list_In. exact Ef.
      - split; [intros m0 X; apply elem_of_cons in X as [->|X]; eauto|]. split; [cbn; apply NoDup_cons; split; [apply find_ext_none; exact Ef|exact N]|].
        split; [intros n X; right; exact X|]. intros m0 E0. injection E0 as <-. left. }
    destruct X as (X1 & X2 & X3 & X4). destruct (IH _ X1 X2 ltac:(intros x Hx; apply SB; right; exact Hx)) as (Y1 & Y2 & Y3 & Y4).
    split; [exact Y1|]. split; [exact Y2|]. split; [auto|]. intros s0 m Hs0 E. apply elem_of_cons in Hs0 as [->|Hs0]; eauto.
Qed.
Lemma ext_modules_spec Q :
  (forall m, m ∈ ext_modules Q -> exists s, s ∈ Q /\ stmt_ext Q s = Some m) /\ NoDup (map ext_name (ext_modules Q)) /\
  (forall s m, s ∈ Q -> stmt_ext Q s = Some m -> exists m', m' ∈ ext_modules Q /\ ext_name m' = ext_name m).
Proof.
  destruct (ext_fold Q Q [] ltac:(intros m X; inversion X) ltac:(constructor) ltac:(auto)) as (A & B & _ & C).
  split; [exact A|]. split; [exact B|]. intros s m Hs E. specialize (C s m Hs E). apply elem_of_list_In, in_map_iff in C as (m' & E' & X).
  exists m'. split; [apply elem_of_list_In; exact X|exact E'].
Qed.
Lemma gen_library_in ms n v : In (n, v) (gen_library ms) <-> exists p l, (n, p, l) ∈ ms /\ gen_module n p l = Some v.
Proof.
  unfold gen_library. rewrite in_flat_map. split.
  - intros ([[n' p] l] & H & X). cbn in X. destruct (gen_module n' p l) as [v'|] eqn:E; [|contradiction]. destruct X as [X|[]]. injection X as -> ->.
    exists p, l. split; [apply elem_of_list_In; exact H|exact E].
  - intros (p & l & H & E). exists (n, p, l). split; [apply elem_of_list_In; exact H|]. cbn. rewrite E. left. reflexivity.
Qed.
Lemma map_lookup {A B} (f : A -> B) : forall l i x, l !! i = Some x -> map f l !! i = Some (f x).
Proof. induction l as [|a l IH]; intros [|i] x H; try discriminate H; cbn in *; [injection H as ->; reflexivity|auto]. Qed.
Lemma ext_unique ms n p l p' l' : NoDup (map ext_name ms) -> (n, p, l) ∈ ms -> (n, p', l') ∈ ms -> p = p' /\ l = l'.
Proof.
  intros N H H'. assert (X : (n, p, l) = (n, p', l')); [|injection X; auto].
  apply elem_of_list_lookup in H as (i & H), H' as (j & H').
  assert (i = j) as ->; [|congruence].
  exact (NoDup_lookup (map ext_name ms) i j n N (map_lookup _ _ _ _ H) (map_lookup _ _ _ _ H')).
Qed.

Lemma wf_pos t : wf_type t -> pos_fields t.
Proof. destruct t; cbn; lia. Qed.
Lemma val_type_has Q v t : NoDup (defs Q) -> has_ty Q v t -> val_type Q v = Some t.
Proof. intros N (o & k & l & a & H). unfold val_type. now rewrite (def_of_def _ _ _ _ _ _ _ N H). Qed.
Lemma val_types_has Q a ts : NoDup (defs Q) -> Forall2 (has_ty Q) a ts -> val_types Q a = Some ts.
Proof. intros N. induction 1 as [|x t a ts H _ IH]; [reflexivity|]. cbn. now rewrite (val_type_has _ _ _ N H), IH. Qed.

(** operations the library covers *)
Definition covered (o : dop) : bool :=
  match o with DBin DIV | DUn _ => false | DBin b => negb (is_bitwise b) | DCast | DLatency => true | _ => false end.
Lemma covered_gen o ts t lat : covered o = true -> dtyping o t ts ->
  exists name m, ext_module o ts t lat = Some (name, port_type t :: map port_type ts, pos_latency lat) /\
    gen_module name (port_type t :: map port_type ts) (pos_latency lat) = Some m.
Proof.
  intros Cv T. destruct o; try discriminate Cv; cbn in T.
  - destruct T as (t1 & t2 & -> & _). assert (exists v, lib_vop o = Some v) as (v & V) by (destruct o; try discriminate Cv; eexists; reflexivity).
    destruct (gen_bin o v t t1 t2 lat V) as (name & E & G); [destruct o; try discriminate Cv; reflexivity|]. eauto.
  - destruct T as (a & ->). destruct (gen_cast t a lat) as (name & E & G). eauto.
  - destruct T as (a & -> & _). destruct (gen_fifo t a lat) as (name & E & G). eauto.
Qed.

Theorem library_complete Q v o k t lat a : ptyped Q -> Def v o k t lat a ∈ Q -> covered o = true ->
  exists ts name m, Forall2 (has_ty Q) a ts /\ module_name o ts t lat = Some name /\
    In (name, m) (gen_library (ext_modules Q)) /\ (forall m', In (name, m') (gen_library (ext_modules Q)) -> m' = m) /\
    lib_module o ts t lat m.
Proof.
  intros T H Cv. pose proof T as [N _ W A _ _]. destruct (A _ _ _ _ _ _ H) as (ts & F2 & DT). exists ts.
  destruct (covered_gen o ts t lat Cv DT) as (name & m & E & G). exists name, m. split; [exact F2|].
  assert (EN : module_name o ts t lat = Some name).
  { unfold ext_module in E. destruct (module_name o ts t lat); [|discriminate]. now injection E as ->. }
  split; [exact EN|]. destruct (ext_modules_spec Q) as (S1 & S2 & S3).
  assert (SE : stmt_ext Q (Def v o k t lat a) = Some (name, port_type t :: map port_type ts, pos_latency lat)).
  { cbn. rewrite (val_types_has _ _ _ N F2). exact E. }
  destruct (S3 _ _ H SE) as ([[name' p'] l'] & Hm & En). cbn in En. subst name'.
  assert (WF : forall x, x ∈ ts -> wf_type x).
  { intros x Hx. apply elem_of_list_lookup in Hx as (i & Hx). destruct (Forall2_lookup_r _ _ _ _ _ F2 Hx) as (y & _ & Y). eapply W. exact Y. }
  assert (PF : Forall pos_fields (t :: ts)).
  { constructor; [apply wf_pos, W with v; exists o, k, lat, a; exact H|]. apply Forall_forall. intros x Hx. apply wf_pos. auto. }
  (* the module that was created under this name *)
  assert (GM : gen_module name p' l' = Some m).
  { destruct (S1 _ Hm) as (s & Hs & Es). destruct s as [r' o' k' t' lat' a'|]; [|discriminate]. cbn in Es.
    destruct (A _ _ _ _ _ _ Hs) as (ts' & F2' & DT'). rewrite (val_types_has _ _ _ N F2') in Es.
    assert (PF' : Forall pos_fields (t' :: ts')).
    { constructor; [apply wf_pos, W with r'; exists o', k', lat', a'; exact Hs|]. apply Forall_forall. intros x Hx. apply wf_pos.
      apply elem_of_list_lookup in Hx as (i & Hx). destruct (Forall2_lookup_r _ _ _ _ _ F2' Hx) as (y & _ & Y). eapply W. exact Y. }
    unfold ext_module in Es. destruct (module_name o' ts' t' lat') as [n'|] eqn:EN'; [|discriminate]. injection Es as -> <- <-.
    assert (DEC : o = DLatency \/ o <> DLatency) by (destruct o; (left; reflexivity) || (right; discriminate)).
    destruct DEC as [->|NL].
    - assert (DEC' : o' = DLatency \/ o' <> DLatency) by (destruct o'; (left; reflexivity) || (right; discriminate)).
      destruct DEC' as [->|NL'].
      2: { destruct (module_name_inj _ _ _ _ _ _ _ _ _ NL' PF' PF EN' EN) as [X _]. contradiction. }
      cbn in EN, EN', DT, DT'. destruct DT as (ta & -> & _). destruct DT' as (ta' & -> & _). injection EN as EN. injection EN' as EN'. rewrite <- EN' in EN.
      assert (W1 : forall x, pos_fields x -> 0 <= p_width (port_type x)) by (intros [s i f|e f|n]; cbn; destruct s || idtac; lia).
      apply fifo_name_inj in EN as [EW EL]; [|apply W1; inversion PF; assumption|apply W1; inversion PF'; assumption].
      pose proof (fifo_dispatch t' lat') as X. rewrite EN' in X. unfold gen_module in *. rewrite X in G |- *.
      rewrite <- G. unfold fifo_module. now rewrite EW, EL.
    - destruct (module_name_inj _ _ _ _ _ _ _ _ _ NL PF PF' EN EN') as (<- & <- & <- & EL). rewrite EL in G. exact G. }
  split; [apply gen_library_in; eauto|]. split.
  - intros m' Hm'. apply gen_library_in in Hm' as (p2 & l2 & Hm2 & G2). destruct (ext_unique _ _ _ _ _ _ S2 Hm Hm2) as [<- <-]. congruence.
  - exists name, (port_type t :: map port_type ts), (pos_latency lat). auto.
Qed.

(** divisions and negations *)
Theorem library_lacks Q ts t lat o name : o = DBin DIV \/ o = DUn NEG -> Forall pos_fields (t :: ts) ->
  module_name o ts t lat = Some name -> forall m, ~ In (name, m) (gen_library (ext_modules Q)).
Proof.
  intros O PF E m H. apply gen_library_in in H as (p & l & _ & G). destruct O as [-> | ->]; cbn in E; injection E as <-.
  - destruct (bin_dispatch DIV DIV_MODULE ts t lat eq_refl) as (D1 & D2 & D3). unfold gen_module in G. rewrite D1, D2, D3 in G. discriminate.
  - destruct (neg_dispatch ts t lat) as (D1 & D2 & D3). unfold gen_module in G. rewrite D1, D2, D3 in G. discriminate.
Qed.

(** every operation survives scheduling, except for the offsets *)
Lemma scheduled_keeps P Q r o k t l a : NoDup (defs P) -> scheduled P Q -> not_off o -> Def r o k t l a ∈ P ->
  exists l' a', Def r o k t l' a' ∈ Q.
Proof.
  intros N [(cfg & perm & L & E)|[(solve & cfg & perm & L & E)|(rnd & eps & m & perm & E)]] NO H.
  1, 2: assert (exists P2 bs, insert_buffers (apply_config cfg P) bs (fresh (apply_config cfg P)) = Some P2 /\ Q = erase_offsets P2) as (P2 & bs & E2 & ->).
  - unfold asap_pass in E. destruct (sgraph _) as [[ns cs]|]; [|discriminate]. destruct (asap ns cs) as [[[mm bs] mx]|]; [|discriminate].
    destruct (insert_buffers _ _ _) as [P2|] eqn:E2; [|discriminate]. injection E as <- _. eauto.
  - apply (cfg_def cfg) in H as (l' & H). exists l'. assert (N' : NoDup (defs (apply_config cfg P))) by (rewrite cfg_defs; exact N). eapply (pass_keeps _ _ _ r N' E2); [|exact NO|exact H].
    apply elem_of_list_omap. eexists. split; [exact H|reflexivity].
  - unfold linear_pass in E. destruct (sgraph _) as [[ns cs]|]; [|discriminate]. destruct (lp_schedule _ _ _) as [bs|]; [|discriminate].
    destruct (insert_buffers _ _ _) as [P2|] eqn:E2; [|discriminate]. injection E as <- _. eauto.
  - apply (cfg_def cfg) in H as (l' & H). exists l'. assert (N' : NoDup (defs (apply_config cfg P))) by (rewrite cfg_defs; exact N). eapply (pass_keeps _ _ _ r N' E2); [|exact NO|exact H].
    apply elem_of_list_omap. eexists. split; [exact H|reflexivity].
  - unfold Pipeline.comb_pass in E. destruct (Z.eqb_spec m 0); [injection E as <-; eauto|]. set (P1 := apply_config _ P) in E.
    destruct (Pipeline.cgraph P1) as [[ns cs]|]; [|discriminate]. destruct (Pipeline.comb_layers ns cs) as [mm mx].
    destruct (Pipeline.cascades _ _ _ _) as [ks|]; [|discriminate]. destruct (Pipeline.comb_buffers _ _ _ _) as [bs|]; [|discriminate].
    destruct (inserts_keep _ _ _ _ E) as [A _]. apply (cfg_def (fun _ => Some 0)) in H as (l' & H). exists l'. eapply A. exact H.
Qed.
