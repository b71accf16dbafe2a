(** Proofs about the driver. *)
From Coq Require Import ZArith Bool String Lia.
From stdpp Require Import gmap list.
From Verif Require Import Types Value Graph GraphSpec KernelSort TopSort Dfcir Sched Linear Pipeline Latency Stubs Naming Verify Sim SimInput Dot Driver DriverSpec.
Local Open Scope Z_scope.

Lemma requested_iff paths f : requested paths f = true <-> paths f <> ""%string.
Proof. unfold requested. rewrite negb_true_iff, String.eqb_neq. reflexivity. Qed.
Lemma requested_no paths f : requested paths f = false <-> paths f = ""%string.
Proof. unfold requested. rewrite negb_false_iff, String.eqb_eq. reflexivity. Qed.
Lemma offset_free P : existsb is_offset P = false <-> forall r d k t l a, Def r (DOffset d) k t l a ∉ P.
Proof.
  split.
  - intros H r d k t l a X. assert (existsb is_offset P = true) by (apply existsb_exists; exists (Def r (DOffset d) k t l a); split; [now apply elem_of_list_In|reflexivity]). congruence.
  - intros H. destruct (existsb is_offset P) eqn:E; [|reflexivity]. apply existsb_exists in E as ([r [] k t l a|] & I & X); try discriminate X. apply elem_of_list_In in I. destruct (H _ _ _ _ _ _ I).
Qed.

(** tagged writes *)
Notation writes := (list (fmt * text)).
Definition eff (paths : fmt -> string) (ws : writes) : list effect := map (fun p => Write (paths (fst p)) (snd p)) ws.
Definition of_fmt (f : fmt) (ws : writes) : list text := map snd (List.filter (fun p => bool_decide (fst p = f)) ws).

Lemma after_app a b fs : after (a ++ b) fs = after b (after a fs).
Proof. apply fold_left_app. Qed.
Lemma after_writes paths : distinct paths -> forall ws fs f l, (forall p, p ∈ ws -> requested paths (fst p) = true) -> paths f <> ""%string -> fs !! paths f = Some l ->
  after (eff paths ws) fs !! paths f = Some (l ++ of_fmt f ws)%list.
Proof.
  intros D. induction ws as [|[g x] ws IH]; intros fs f l R Nf E; [cbn; now rewrite app_nil_r|].
  unfold eff, of_fmt in *. cbn [map after fold_left apply_effect fst snd List.filter]. fold (after (map (fun p => Write (paths (fst p)) (snd p)) ws)).
  change (fold_left apply_effect ?a ?b) with (after a b).
  destruct (decide (g = f)) as [->|N].
  - rewrite bool_decide_eq_true_2 by reflexivity. cbn [map snd]. rewrite (IH _ f (l ++ [x])%list).
    + now rewrite <- app_assoc.
    + intros p Hp. apply R. now right.
    + exact Nf.
    + rewrite lookup_insert, E. reflexivity.
  - rewrite bool_decide_eq_false_2 by exact N. rewrite (IH _ f l); [reflexivity| |exact Nf|].
    + intros p Hp. apply R. now right.
    + rewrite lookup_insert_ne; [exact E|]. intro X. apply N. apply D; [|exact X]. apply requested_iff. apply (R (g, x)). left.
Qed.
Lemma after_other p : forall es fs, (forall e, e ∈ es -> match e with Open q | Write q _ => q <> p end) -> after es fs !! p = fs !! p.
Proof.
  induction es as [|e es IH]; intros fs H; [reflexivity|]. change (after (e :: es) fs) with (after es (apply_effect fs e)). rewrite IH; [|intros e' He; apply H; now right].
  specialize (H e ltac:(left)). destruct e as [q|q x]; cbn; now rewrite lookup_insert_ne.
Qed.
Definition opens (paths : fmt -> string) : list effect := flat_map (fun f => on paths f [Open (paths f)]) formats.
Lemma in_opens paths e : e ∈ opens paths -> exists f, requested paths f = true /\ e = Open (paths f).
Proof.
  intro H. apply elem_of_list_In, in_flat_map in H as (f & _ & H). unfold on in H. destruct (requested paths f) eqn:R; [|destruct H]. destruct H as [<-|[]]. eauto.
Qed.
Lemma after_opens_list paths f : paths f <> ""%string -> forall l fs, (f ∈ l \/ fs !! paths f = Some []) -> after (flat_map (fun g => on paths g [Open (paths g)]) l) fs !! paths f = Some [].
Proof.
  intros R. induction l as [|g l IH]; intros fs H; [destruct H as [H|H]; [inversion H|exact H]|].
  cbn [flat_map]. rewrite after_app. apply IH. unfold on. destruct (decide (g = f)) as [->|N].
  - right. rewrite (proj2 (requested_iff paths f) R). cbn. now rewrite lookup_insert.
  - destruct H as [H|H]; [apply elem_of_cons in H as [H|H]; [congruence|now left]|]. right. destruct (requested paths g); [|exact H]. cbn.
    destruct (decide (paths g = paths f)) as [->|Np]; [now rewrite lookup_insert|now rewrite lookup_insert_ne].
Qed.
Lemma after_opens paths f fs : paths f <> ""%string -> after (opens paths) fs !! paths f = Some [].
Proof. intro R. apply after_opens_list; [exact R|]. left. unfold formats. destruct f; repeat first [apply elem_of_list_here|apply elem_of_list_further]. Qed.

Section C.
Variable T : tools.
Definition late : list fmt := [SystemVerilog; SVLibrary; ScheduledDFCIR; FIRRTL].
Lemma passes_spec cfg o paths P es e :
  run_passes T ([sched_pass T cfg o] ++ on paths ScheduledDFCIR [dump_pass (paths ScheduledDFCIR)] ++ [firrtl_pass]
         ++ on paths FIRRTL [dump_pass (paths FIRRTL)] ++ on paths SVLibrary [stubs_pass (paths SVLibrary)]
         ++ on paths SystemVerilog [verilog_pass T (paths SystemVerilog)]) (MDfcir P) = (es, e) ->
  (schedule T cfg o P = None /\ es = [] /\ e = Crashes) \/
  exists Q ws b, schedule T cfg o P = Some Q /\ es = eff paths ws /\ e = Returns b /\
    (forall p, p ∈ ws -> requested paths (fst p) = true) /\
    (forall w k f, requested paths f = true -> f ∈ late -> artefact T w k P Q f (of_fmt f ws)) /\
    (forall f, f ∉ late -> of_fmt f ws = []) /\
    (b = true <-> accepted T Q /\ (requested paths SystemVerilog = true -> exists s, t_verilog T Q = Some s)).
Proof.
  cbn [app run_passes sched_pass]. intro H. destruct (schedule T cfg o P) as [Q|]; [|injection H as <- <-; auto]. right. exists Q.
  cbn [valid] in H. destruct (check_program verify_op ∅ Q) eqn:V.
  2:{ injection H as <- <-. assert (NV : ~ verified Q) by (unfold verified; congruence). assert (NA : ~ accepted T Q) by (intros (X & _); contradiction).
      exists [], false. split; [reflexivity|]. split; [reflexivity|]. split; [reflexivity|]. split; [intros p Hp; inversion Hp|]. split; [|split; [reflexivity|split; [discriminate|intros [X _]; contradiction]]].
      intros w k f _ Hf. unfold late in Hf. repeat (apply elem_of_cons in Hf as [->|Hf]; [first [apply art_no_dfcir; exact NV|apply art_no_circuit; [exact NA|repeat first [apply elem_of_list_here|apply elem_of_list_further]]]|]). inversion Hf. }
  assert (VQ : verified Q) by exact V.
  set (conv := negb (existsb is_offset Q) && t_firrtl T Q).
  assert (AC : conv = true <-> accepted T Q).
  { unfold conv, accepted. rewrite andb_true_iff, negb_true_iff, offset_free. tauto. }
  set (ws := (on paths ScheduledDFCIR [(ScheduledDFCIR, XDfcir Q)] ++
    if conv then on paths FIRRTL [(FIRRTL, XFirrtl Q)] ++ on paths SVLibrary [(SVLibrary, XLibrary (gen_library (ext_modules Q)))] ++
                 on paths SystemVerilog (match t_verilog T Q with Some s => [(SystemVerilog, XVerilog s)] | None => [] end)
    else [])%list : writes).
  set (b := conv && (negb (requested paths SystemVerilog) || match t_verilog T Q with Some _ => true | None => false end)).
  exists ws, b. split; [reflexivity|].
  assert (X : es = eff paths ws /\ e = Returns b).
  { subst ws b. unfold on, conv in *. clear AC.
    destruct (requested paths ScheduledDFCIR); cbn in H; rewrite ?V in H; (destruct (existsb is_offset Q); [injection H as <- <-; split; reflexivity|]); cbn [andb negb] in *;
      (destruct (t_firrtl T Q) eqn:TF; [|destruct (requested paths FIRRTL), (requested paths SVLibrary), (requested paths SystemVerilog); cbn in H; rewrite ?TF in H; injection H as <- <-; split; reflexivity]);
      destruct (requested paths FIRRTL); cbn in H; rewrite ?TF in H; destruct (requested paths SVLibrary); cbn in H; rewrite ?TF in H; destruct (requested paths SystemVerilog); cbn in H; rewrite ?TF in H;
      try (destruct (t_verilog T Q) eqn:TV; cbn in H; rewrite ?TF in H); injection H as <- <-; split; reflexivity. }
  destruct X as [-> ->]. clear H. split; [reflexivity|]. split; [reflexivity|]. split; [|split; [|split]].
  - intros p Hp. unfold ws, on in Hp. repeat (apply elem_of_app in Hp as [Hp|Hp] || (destruct conv in Hp; [|inversion Hp]));
      match type of Hp with context [requested paths ?f] => destruct (requested paths f) eqn:R; [|inversion Hp] end; try (destruct (t_verilog T Q)); apply elem_of_list_singleton in Hp || inversion Hp; subst p; exact R.
  - intros w k f R Hf. unfold late in Hf.
    assert (NA : conv = false -> ~ accepted T Q) by (intros E X; apply AC in X; congruence).
    assert (FM : forall f (a b : writes), of_fmt f (a ++ b) = (of_fmt f a ++ of_fmt f b)%list) by (intros; unfold of_fmt; rewrite List.filter_app, map_app; reflexivity).
    assert (ON : forall f g (x : text), of_fmt f (on paths g [(g, x)]) = if bool_decide (g = f) then on paths g [x] else []).
    { intros f0 g x. unfold on, of_fmt. destruct (requested paths g); cbn; destruct (bool_decide (g = f0)); reflexivity. }
    assert (OV : forall f, of_fmt f (on paths SystemVerilog (match t_verilog T Q with Some s => [(SystemVerilog, XVerilog s)] | None => [] end)) =
                 if bool_decide (SystemVerilog = f) then on paths SystemVerilog (match t_verilog T Q with Some s => [XVerilog s] | None => [] end) else []).
    { intros f0. unfold on, of_fmt. destruct (requested paths SystemVerilog); cbn; [|destruct (bool_decide _); reflexivity]. destruct (t_verilog T Q); cbn; destruct (bool_decide _); reflexivity. }
    unfold ws. rewrite FM, ON. destruct conv eqn:Ec.
    + rewrite !FM, !ON, OV. assert (A : accepted T Q) by now apply AC.
      repeat (apply elem_of_cons in Hf as [->|Hf]; [cbn; unfold on; rewrite R; cbn|]); [|constructor; auto..|inversion Hf].
      destruct (t_verilog T Q) eqn:E; [now constructor|now apply art_no_verilog].
    + change (of_fmt f []) with (@nil text). rewrite app_nil_r. specialize (NA eq_refl).
      repeat (apply elem_of_cons in Hf as [->|Hf]; [cbn; unfold on; rewrite ?R; cbn|]); [apply art_no_circuit; [exact NA|repeat first [apply elem_of_list_here|apply elem_of_list_further]]..| |apply art_no_circuit; [exact NA|repeat first [apply elem_of_list_here|apply elem_of_list_further]]|inversion Hf].
      constructor. exact VQ.
  - intros f Hf. unfold of_fmt, ws, on. destruct f; try (exfalso; apply Hf; unfold late; repeat first [apply elem_of_list_here|apply elem_of_list_further]; fail);
      destruct (requested paths ScheduledDFCIR), conv, (requested paths FIRRTL), (requested paths SVLibrary), (requested paths SystemVerilog); try reflexivity; destruct (t_verilog T Q); reflexivity.
  - unfold b. rewrite andb_true_iff, orb_true_iff, negb_true_iff, AC. split; intros [A B]; (split; [exact A|]).
    + intros R. destruct B as [B|B]; [congruence|]. destruct (t_verilog T Q); [eauto|discriminate].
    + destruct (requested paths SystemVerilog); [right|now left]. destruct (B eq_refl) as [s ->]. reflexivity.
Qed.

Lemma compile_crash w k cfg paths o es : compile T w k cfg paths o = (es, Crashes) ->
  (build_module T w k = None /\ es = []) \/ exists P, build_module T w k = Some P /\
    ((requested paths DOT = true /\ forall d, compile_dot w (t_hash T) k <> Ok d) \/ schedule T cfg o P = None).
Proof.
  unfold compile. destruct (build_module T w k) as [P|]; [|intro H; injection H as <-; auto]. intro H. right. exists P. split; [reflexivity|].
  unfold convert_and_print in H. destruct (run_passes T _ (MDfcir P)) as [es2 e2] eqn:RP. pose proof (passes_spec cfg o paths P es2 e2 RP) as PS.
  assert (X : e2 = Crashes -> schedule T cfg o P = None) by (intros ->; destruct PS as [(A & _)|(Q & ws & b & _ & _ & E & _)]; [exact A|discriminate E]).
  destruct (requested paths DOT); [|injection H as _ H; auto].
  destruct (compile_dot w (t_hash T) k) as [d| | |]; [injection H as _ H; auto|left; split; [reflexivity|discriminate]..].
Qed.
Lemma compile_spec w k cfg paths o es b : compile T w k cfg paths o = (es, Returns b) -> distinct paths -> forall fs,
  exists P Q, build_module T w k = Some P /\ schedule T cfg o P = Some Q /\
    (forall f, paths f <> ""%string -> exists l, after es fs !! paths f = Some l /\ artefact T w k P Q f l) /\
    (forall p, (forall f, paths f <> ""%string -> paths f <> p) -> after es fs !! p = fs !! p) /\
    (b = true <-> accepted T Q /\ (paths SystemVerilog <> ""%string -> exists s, t_verilog T Q = Some s)).
Proof.
  unfold compile. intros H D fs. destruct (build_module T w k) as [P|]; [|discriminate H]. exists P. fold (opens paths) in H.
  unfold convert_and_print in H. destruct (run_passes T _ (MDfcir P)) as [es2 e2] eqn:RP.
  destruct (passes_spec cfg o paths P es2 e2 RP) as [(A & _ & ->)|(Q & ws & b2 & SQ & -> & -> & R & AR & OT & BB)].
  { destruct (requested paths DOT); [destruct (compile_dot w (t_hash T) k)|]; discriminate H. }
  exists Q. split; [reflexivity|]. split; [exact SQ|].
  assert (X : exists dw, (forall p, p ∈ dw -> requested paths (fst p) = true) /\ (requested paths DOT = true -> exists d, compile_dot w (t_hash T) k = Ok d /\ dw = [(DOT, XDot d)]) /\ (requested paths DOT = false -> dw = []) /\
     es = (opens paths ++ eff paths (dw ++ on paths UnscheduledDFCIR [(UnscheduledDFCIR, XDfcir P)] ++ ws))%list /\ b2 = b).
  { destruct (requested paths DOT) eqn:RD.
    - destruct (compile_dot w (t_hash T) k) as [d| | |] eqn:ED; try discriminate H. injection H as <- <-. exists [(DOT, XDot d)]. split; [intros p Hp; apply elem_of_list_singleton in Hp as ->; exact RD|].
      split; [eauto|]. split; [discriminate|]. split; [|reflexivity]. f_equal. unfold eff. rewrite !map_app. f_equal. f_equal. unfold on. destruct (requested paths UnscheduledDFCIR); reflexivity.
    - injection H as <- <-. exists []. split; [intros p Hp; inversion Hp|]. split; [discriminate|]. split; [reflexivity|]. split; [|reflexivity]. unfold eff. rewrite !map_app. unfold on. destruct (requested paths UnscheduledDFCIR); reflexivity. }
  clear H. destruct X as (dw & RW & DW1 & DW0 & -> & ->).
  set (all := (dw ++ on paths UnscheduledDFCIR [(UnscheduledDFCIR, XDfcir P)] ++ ws)%list) in *.
  assert (RA : forall p, p ∈ all -> requested paths (fst p) = true).
  { intros p Hp. unfold all in Hp. apply elem_of_app in Hp as [Hp|Hp]; [auto|]. apply elem_of_app in Hp as [Hp|Hp]; [|auto]. unfold on in Hp. destruct (requested paths UnscheduledDFCIR) eqn:E; [|inversion Hp]. apply elem_of_list_singleton in Hp as ->. exact E. }
  split; [|split].
  - intros f Nf. pose proof (proj2 (requested_iff paths f) Nf) as Rf. rewrite after_app. exists (of_fmt f all). split.
    + rewrite (after_writes paths D all _ f [] RA Nf (after_opens paths f fs Nf)). reflexivity.
    + assert (FM : forall (a b : writes), of_fmt f (a ++ b) = (of_fmt f a ++ of_fmt f b)%list) by (intros; unfold of_fmt; rewrite List.filter_app, map_app; reflexivity).
      unfold all. rewrite !FM. destruct (decide (f ∈ late)) as [L|L].
      * replace (of_fmt f dw) with (@nil text). 2:{ destruct (requested paths DOT) eqn:RD; [destruct (DW1 eq_refl) as (d & _ & ->)|rewrite (DW0 eq_refl); reflexivity]. unfold of_fmt, late in *. cbn. rewrite bool_decide_eq_false_2; [reflexivity|]. intros <-. repeat (apply elem_of_cons in L as [L|L]; [discriminate L|]). inversion L. }
        replace (of_fmt f (on paths UnscheduledDFCIR [(UnscheduledDFCIR, XDfcir P)])) with (@nil text). 2:{ unfold on. destruct (requested paths UnscheduledDFCIR); [|reflexivity]. unfold of_fmt, late in *. cbn. rewrite bool_decide_eq_false_2; [reflexivity|]. intros <-. repeat (apply elem_of_cons in L as [L|L]; [discriminate L|]). inversion L. }
        cbn [app]. apply AR; assumption.
      * rewrite (OT f L), app_nil_r. destruct f; try (exfalso; apply L; unfold late; repeat first [apply elem_of_list_here|apply elem_of_list_further]; fail).
        -- unfold on. rewrite Rf. replace (of_fmt UnscheduledDFCIR dw) with (@nil text); [apply art_dfcir|]. destruct (requested paths DOT) eqn:RD; [destruct (DW1 eq_refl) as (d & _ & ->); reflexivity|rewrite (DW0 eq_refl); reflexivity].
        -- destruct (DW1 Rf) as (d & Ed & ->). unfold on. destruct (requested paths UnscheduledDFCIR); cbn; now apply art_dot.
  - intros p Hp. apply after_other. intros e He. apply elem_of_app in He as [He|He].
    + apply in_opens in He as (f & Rf & ->). apply Hp, requested_iff. exact Rf.
    + unfold eff in He. apply elem_of_list_fmap in He as (q & -> & Hq). apply Hp, requested_iff. exact (RA q Hq).
  - rewrite BB. unfold requested. rewrite negb_true_iff, String.eqb_neq. reflexivity.
Qed.
End C.

Lemma artefact_fun T w k P Q f l l' : artefact T w k P Q f l -> artefact T w k P Q f l' -> l = l'.
Proof.
  intros A B. destruct A; inversion B; subst; auto; try congruence; try contradiction;
    repeat match goal with H : _ ∈ _ :: _ |- _ => apply elem_of_cons in H as [H|H]; [discriminate H|] | H : _ ∈ [] |- _ => inversion H end;
    match goal with H : ~ accepted _ _ |- _ => exfalso; apply H; unfold accepted in *; tauto | _ => idtac end.
Qed.
