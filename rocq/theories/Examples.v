(** * The example kernels: checkers and rules (proofs). *)
From Coq Require Import ZArith Bool String Lia.
From stdpp Require Import gmap list.
From Verif Require Import TypingSpec Instance InstanceSpec InstanceFlow InstanceFacts Types Word Value OpSpec Graph GraphSpec GraphFacts BuilderTopo KernelSort TopSort Dfcir DfcirBuild StreamSpec HwSpec
     Verilog Stubs Naming StubsSpec Firrtl Lower Sched SchedFinal SchedFacts KernelSpec KernelFlow Linear LinearSpec Pipeline PipelineSpec Golden
     ProgTyping RtlSpec RtlFlow RtlFacts PropertiesSched PropertiesRtl StdSpec.
Local Open Scope string_scope.
Local Open Scope Z_scope.

(** ** Checks on a concrete kernel *)
Definition castless (w : world) : bool := forallb (fun p : nat * node => match n_op (snd p) with CAST => false | _ => true end) (map_to_list (w_nodes w)).
Definition offsetless (w : world) : bool := forallb (fun p : nat * node => match n_op (snd p) with OFFSET _ => false | _ => true end) (map_to_list (w_nodes w)).
Definition inputs_are (ins : list (string * Z)) (w : world) : bool :=
  forallb (fun p : nat * node => match n_op (snd p) with
    | IN => match n_vk (snd p) with VStream => existsb (fun q : string * Z => String.eqb (fst q) (n_name (snd p)) && bool_decide (type_of w (fst p) = Some (uint (snd q)))) ins | _ => false end
    | _ => true end) (map_to_list (w_nodes w)).
Definition output_is (s : string) (d : nat) (w : world) : bool :=
  match w_nodes w !! d with Some nd => match n_op nd with OUT => String.eqb (n_name nd) s | _ => false end | None => false end && bool_decide (type_of w d = Some (uint 32)).
Definition fine (ins : list (string * Z)) (w : world) : bool := schedulableb w && castless w && realizableb no_latency w && inputs_are ins w.

Lemma any_latency w : castless w = true -> realizable w no_latency -> forall lat, realizable w lat.
Proof.
  intros C [A B O] lat. constructor; [exact A| |exact O]. intros n nd t ts Hn Ht HT. specialize (B n nd t ts Hn Ht HT). pose proof (map_forallb w _ C n nd Hn) as X. cbn [snd] in X.
  cbn [fits_as] in *. unfold no_latency in B. destruct (n_op nd) as [| | | | | |b| | | | | |]; try exact B; [|discriminate X].
  unfold op_fits in *. destruct ts as [|t1 [|t2 [|]]]; try exact B. destruct (is_bitwise b); [exact B|]. destruct (is_compare b); [exact B|].
  destruct B as (B1 & B2 & B3). split; [exact B1|]. split; [right; destruct B2; [lia|assumption]|exact B3].
Qed.
Lemma combs w : offsetless w = true -> schedulable w -> (forall n nd, w_nodes w !! n = Some nd -> n_op nd = OUT -> readers w n = []) -> combinational w.
Proof.
  intros C S O. constructor; [|exact O|exact (sk_narrow _ S)]. intros n nd k Hn E. pose proof (map_forallb w _ C n nd Hn) as X. cbn [snd] in X. rewrite E in X. discriminate X.
Qed.
Lemma env_fed w ins e : inputs_are ins w = true -> (forall s V, (s, V) ∈ ins -> 0 < V < 65536 /\ exists x, fed e s V x) -> env_for w e.
Proof.
  intros C H n nd t Hn Ho Ht. pose proof (map_forallb w _ C n nd Hn) as X. cbn [fst snd] in X. rewrite Ho in X. destruct (n_vk nd); try discriminate X.
  apply existsb_exists in X as ((s & V) & I & X). cbn [fst snd] in X. apply andb_true_iff in X as [X1 X2]. apply String.eqb_eq in X1. apply bool_decide_eq_true in X2. subst s. rewrite Ht in X2. injection X2 as ->.
  intros i Hi. apply elem_of_list_In in I. destruct (H _ _ I) as (HV & x & FX). destruct (FX i Hi) as [E R]. rewrite E. split; [reflexivity|]. cbn [snd]. unfold word.
  replace (total_bits (uint V)) with V; [exact R|]. cbn. unfold u16. rewrite Z.add_0_r. symmetry. apply Z.mod_small. lia.
Qed.

(** ** From the checks to the circuit *)
Section Flow.
Variables (F : fltops) (h : list icmd) (w : world) (order : list nat) (P : program) (ins : list (string * Z)).
Hypothesis (B : built F h w order) (GT : good_types F h) (EB : build w order = Ok P) (FN : fine ins w = true).

Lemma fine_facts : schedulable w /\ (forall lat, realizable w lat) /\ inputs_are ins w = true.
Proof.
  unfold fine in FN. rewrite !andb_true_iff in FN. destruct FN as [[[A C] R] I]. split; [apply schedulableb_sound, A|]. split; [|exact I].
  apply (any_latency w C). apply realizableb_as_sound, R.
Qed.
(** the value of an output, from the program *)
Lemma out_value e d i x : (exists nd, w_nodes w !! d = Some nd /\ n_op nd = OUT) -> dval (hw e) P d i x -> kval (hw e) w d i x.
Proof.
  intros O D. pose proof B as (kern & R & Di & K & C & S). destruct (kernel_translates F h w order R Di K C S) as (P' & E & _ & _ & KD). rewrite EB in E. injection E as <-. apply KD; [destruct O as (nd & Hn & _); eauto|exact D].
Qed.
Definition works (Q : program) : Prop := exists dl : nat -> Z, (forall d nd, w_nodes w !! d = Some nd -> n_op nd = OUT -> 0 <= dl d) /\ shows w Q dl /\ forall e, env_for w e -> exists sig, rtl Q e sig.
Lemma balanced_works Q : (exists order P, built F h w order /\ build w order = Ok P /\
   ((exists cfg perm L, (forall bs, perm bs ≡ₚ bs) /\ asap_pass cfg perm P = Some (Q, L)) \/
    (exists solve cfg perm L, trusted_solver solve cfg P /\ (forall bs, perm bs ≡ₚ bs) /\ linear_pass solve cfg perm P = Some (Q, L)))) -> works Q.
Proof.
  destruct fine_facts as (Sc & RZ & _). intros (o & P' & B' & E' & [(cfg & perm & L & PM & A)|(solve & cfg & perm & L & TS & PM & A)]).
  - destruct (C50_asap F h w o cfg perm P' Q L B' GT Sc (RZ _) E' PM A) as (dl & DL & SH). exists dl. split; [intros d nd Hd Ho; apply (DL d nd Hd Ho)|]. split; [exact SH|].
    apply (C50_runs F h w o P' Q B' GT E'). left. exists cfg, perm, L. auto.
  - destruct (C50_linear F h w o solve cfg perm P' Q L B' GT Sc (RZ _) E' TS PM A) as (dl & DL & SH). exists dl. split; [intros d nd Hd Ho; apply DL|]. split; [exact SH|].
    apply (C50_runs F h w o P' Q B' GT E'). right. left. exists solve, cfg, perm, L. auto.
Qed.
Lemma scheduled_works Q : offsetless w = true -> scheduled F h w Q -> works Q.
Proof.
  destruct fine_facts as (Sc & RZ & _). intros OL (o & P' & B' & E' & S). pose proof (combs w OL Sc (rz_outs _ _ (RZ no_latency))) as Cb.
  destruct S as [(rnd & eps & perm & A)|[S|[S|(rnd & eps & n & perm & PM & Hn & A)]]].
  - exists (fun _ => 0). split; [intros; lia|]. split; [exact (C50_default F h w o rnd eps perm P' Q B' GT Cb (RZ _) E' A)|].
    apply (C50_runs F h w o P' Q B' GT E'). right. right. exists rnd, eps, 0, perm. auto.
  - apply balanced_works. exists o, P'. auto.
  - apply balanced_works. exists o, P'. auto.
  - destruct (C50_pipelined F h w o rnd eps n perm P' Q B' GT Cb (RZ _) E' PM Hn A) as (dl & DL & SH). exists dl. split; [intros d nd Hd Ho; apply DL|]. split; [exact SH|].
    apply (C50_runs F h w o P' Q B' GT E'). right. right. exists rnd, eps, n, perm. auto.
Qed.
(** what the circuit shows at the output [out] *)
Lemma works_shows Q out s : works Q -> output_is s out w = true -> exists d, 0 <= d /\
  forall e, (forall s V, (s, V) ∈ ins -> 0 < V < 65536 /\ exists x, fed e s V x) ->
    (exists sig, rtl Q e sig) /\ forall sig, rtl Q e sig -> forall i y, 0 <= i -> dval (hw e) P out i (uint 32, y) -> 0 <= y < 2 ^ 32 -> sig out (i + d) = y.
Proof.
  intros (dl & DL & SH & RN) O. unfold output_is in O. apply andb_true_iff in O as [O HT]. apply bool_decide_eq_true in HT. destruct (w_nodes w !! out) as [nd|] eqn:Hn; [|discriminate O].
  destruct (n_op nd) eqn:Ho; try discriminate O. exists (dl out). split; [exact (DL out nd Hn Ho)|]. destruct fine_facts as (_ & _ & IN'). intros e FE. split; [apply RN, (env_fed w ins e IN' FE)|].
  intros sig RT i y Hi DV Hy. rewrite (SH e sig RT out nd (uint 32) i (uint 32, y) Hn Ho HT Hi); [|apply out_value; [eauto|exact DV]]. exact (Z.mod_small y (2 ^ 32) Hy).
Qed.
End Flow.

(** ** Values of 32-bit operations in a program, modulo 2^32 *)
Section Values.
Variables (e : env) (P : program).
Definition has32 (v : nat) (i z : Z) : Prop := dval (hw e) P v i (uint 32, z mod 2 ^ 32).
Lemma d_in v s k l a i (x : Z -> Z) : Def v (DIn false s) k (uint 32) l a ∈ P -> 0 <= i -> fed e s 32 x -> has32 v i (x i).
Proof. intros H Hi FX. unfold has32. destruct (FX i Hi) as [E R]. rewrite (Z.mod_small (x i)) by exact R. rewrite <- E. exact (dv_stream (hw e) P v s k (uint 32) l a i H Hi). Qed.
Lemma d_off v n k l s i z : Def v (DOffset n) k (uint 32) l [s] ∈ P -> has32 s (i + n) z -> has32 v i z.
Proof. apply dv_offset. Qed.
Lemma d_const v c k l i : Def v (DConst c) k (uint 32) l [] ∈ P -> has32 v i c.
Proof.
  intros H. unfold has32. replace (uint 32, c mod 2 ^ 32) with (i_const (hw e) (uint 32) c); [exact (dv_const (hw e) P v c k (uint 32) l [] i H)|].
  cbn [i_const hw]. f_equal. 
Qed.
Lemma d_bin v b k l a c i x y : Def v (DBin b) k (uint 32) l [a; c] ∈ P -> 0 <= i -> (b = ADD \/ b = MUL) -> has32 a i x -> has32 c i y -> has32 v i (bin_math b x y).
Proof.
  intros H Hi Hb A C. unfold has32. replace (bin_math b x y mod 2 ^ 32) with (bin_math b (x mod 2 ^ 32) (y mod 2 ^ 32) mod 2 ^ 32).
  2: { destruct Hb as [E|E]; subst b; cbn [bin_math]; [symmetry; apply Zplus_mod|symmetry; apply Zmult_mod]. }
  eapply dv_op; [exact H|reflexivity|exact Hi|constructor; [exact A|constructor; [exact C|constructor]]|].
  destruct Hb as [E|E]; subst b; reflexivity.
Qed.
Lemma d_add v k l a c i x y : Def v (DBin ADD) k (uint 32) l [a; c] ∈ P -> 0 <= i -> has32 a i x -> has32 c i y -> has32 v i (x + y).
Proof. intros H Hi A C. exact (d_bin v ADD k l a c i x y H Hi (or_introl eq_refl) A C). Qed.
Lemma d_mul v k l a c i x y : Def v (DBin MUL) k (uint 32) l [a; c] ∈ P -> 0 <= i -> has32 a i x -> has32 c i y -> has32 v i (x * y).
Proof. intros H Hi A C. exact (d_bin v MUL k l a c i x y H Hi (or_intror eq_refl) A C). Qed.
Lemma d_out v s k l a c i z : Def v (DOut false s) k (uint 32) l a ∈ P -> Con v c ∈ P -> has32 c i z -> has32 v i z.
Proof. apply dv_out. Qed.
End Values.
Ltac mem := apply elem_of_list_In; solve [repeat (first [left; reflexivity | right])].
