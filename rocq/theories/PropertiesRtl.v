(** * Property theorems: the generated circuit (C08, C09, C37, C45, C50, C51). *)
From Coq Require Import ZArith Bool String Lia.
From stdpp Require Import gmap list.
From Verif Require Import TypingSpec Instance InstanceSpec Types Word Value OpSpec Graph GraphSpec GraphFacts BuilderTopo KernelSort TopSort Dfcir StreamSpec HwSpec HwProofs
     Verilog Stubs Naming StubsSpec Firrtl Lower Sched SchedFinal SchedFacts KernelSpec KernelFlow Linear LinearSpec LinearFacts Pipeline PipelineSpec PipelineFacts
     ProgTyping LibraryFacts StubsFacts TypingProofs RtlSpec FirrtlProofs RtlProofs RtlFlow RtlRun RtlFacts NamingProofs BuilderProofs2 KernelValues SliceFacts PropertiesSched PropertiesLinear PropertiesPipeline.
Local Open Scope Z_scope.

(** ** C50: the circuit that is generated computes the function of the kernel *)
(** An output [d] of the generated circuit shows, [delay_of d] clock cycles after the
    inputs of position [i] were applied, the value the kernel defines at position [i]; the
    operators of the kernel read as intended, or as they are built ([reading], RtlSpec.v). *)
Definition shows_as (r : reading) (w : world) (Q : program) (delay_of : nat -> Z) : Prop :=
  forall e sig, rtl Q e sig ->
  forall d nd t i x, w_nodes w !! d = Some nd -> n_op nd = OUT -> type_of w d = Some t -> 0 <= i ->
    kval (hw_as r e) w d i x -> sig d (i + delay_of d) = h_num x mod 2 ^ total_bits t.
Notation shows := (shows_as Intended).

Lemma asap_as r :
  forall F h w order cfg perm P Q L, built F h w order -> good_types F h -> schedulable w -> realizable_as r w (node_latency cfg) ->
  build w order = Ok P -> (forall bs, perm bs ≡ₚ bs) -> asap_pass cfg perm P = Some (Q, L) ->
  exists delay_of : nat -> Z,
    (forall d nd, w_nodes w !! d = Some nd -> n_op nd = OUT -> 0 <= delay_of d <= L) /\ shows_as r w Q delay_of.
Proof.
  intros F h w order cfg perm P Q L B GT Sc RZ EB PM A.
  destruct (C22_partial F h w order cfg perm P Q L B Sc EB PM A) as (dl & D1 & _ & D2). exists dl. split; [exact D1|].
  destruct B as (kern & R & D & K & C & S). intros e sig RT d nd t i x Hn Ho Ht Hi KV.
  eapply (goes_right F h w order R D K C S P EB GT Q); eauto; [|specialize (D1 d nd Hn Ho); lia].
  eapply asap_goes; eauto.
Qed.
Lemma linear_as r :
  forall F h w order solve cfg perm P Q L, built F h w order -> good_types F h -> schedulable w -> realizable_as r w (node_latency cfg) ->
  build w order = Ok P -> trusted_solver solve cfg P -> (forall bs, perm bs ≡ₚ bs) -> linear_pass solve cfg perm P = Some (Q, L) ->
  exists delay_of : nat -> Z, (forall d, 0 <= delay_of d) /\ shows_as r w Q delay_of.
Proof.
  intros F h w order solve cfg perm P Q L B GT Sc RZ EB TS PM A.
  destruct (C24_circuit F h w order solve cfg perm P Q L B Sc EB TS PM A) as (dl & (ns & cs & _ & ((D1 & _) & _) & _) & D2). exists dl. split; [exact D1|].
  destruct B as (kern & R & D & K & C & S). intros e sig RT d nd t i x Hn Ho Ht Hi KV.
  eapply (goes_right F h w order R D K C S P EB GT Q); eauto; [|specialize (D1 d); lia].
  eapply linear_goes; eauto.
Qed.
Lemma pipelined_as r :
  forall F h w order rnd eps n perm P Q, built F h w order -> good_types F h -> combinational w -> realizable_as r w no_latency ->
  build w order = Ok P -> (forall bs, perm bs ≡ₚ bs) -> 0 < n < 2 ^ 31 -> comb_pass rnd eps n perm P = Some Q ->
  exists delay_of : nat -> Z, (forall d, 0 <= delay_of d <= n) /\ shows_as r w Q delay_of.
Proof.
  intros F h w order rnd eps n perm P Q B GT Co RZ EB PM Hn0 A.
  destruct (C29_circuit F h w order rnd eps n perm P Q B Co EB PM Hn0 A) as (dl & D1 & _ & D2). exists dl. split; [exact D1|].
  destruct B as (kern & R & D & K & C & S). intros e sig RT d nd t i x Hn Ho Ht Hi KV.
  eapply (goes_right F h w order R D K C S P EB GT Q); eauto; [|specialize (D1 d); lia].
  eapply comb_goes; eauto.
Qed.
Lemma default_as r :
  forall F h w order rnd eps perm P Q, built F h w order -> good_types F h -> combinational w -> realizable_as r w no_latency ->
  build w order = Ok P -> comb_pass rnd eps 0 perm P = Some Q -> shows_as r w Q (fun _ => 0).
Proof.
  intros F h w order rnd eps perm P Q B GT Co RZ EB A.
  destruct (C29_zero_stages F h w order rnd eps perm P B Co EB) as [A' D2]. rewrite A in A'. injection A' as ->.
  destruct B as (kern & R & D & K & C & S). intros e sig RT d nd t i x Hn Ho Ht Hi KV.
  eapply (goes_right F h w order R D K C S P EB GT P (comb_goes F h w order R D K C S P EB GT rnd eps 0 perm P Co RZ A) (fun _ => 0)); eauto; [|cbn; lia].
  intros V I sig' Ci d' nd' i' x' Hn' Ho' Hi' KV'. rewrite Z.add_0_r. eapply D2; eauto.
Qed.
Lemma runs_as r :
  forall F h w order P Q, built F h w order -> good_types F h -> build w order = Ok P ->
  (exists cfg perm L, realizable_as r w (node_latency cfg) /\ asap_pass cfg perm P = Some (Q, L)) \/
  (exists solve cfg perm L, realizable_as r w (node_latency cfg) /\ linear_pass solve cfg perm P = Some (Q, L)) \/
  (exists rnd eps n perm, combinational w /\ realizable_as r w no_latency /\ comb_pass rnd eps n perm P = Some Q) ->
  forall e, env_for w e -> exists sig, rtl Q e sig.
Proof.
  intros F h w order P Q (kern & R & D & K & C & S) GT EB G e EF.
  eapply (goes_runs (rd := r) F h w order R D K C S P EB Q e); [|exact EF].
  destruct G as [(cfg & perm & L & RZ & A)|[(solve & cfg & perm & L & RZ & A)|(rnd & eps & n & perm & Co & RZ & A)]];
    [eapply asap_goes|eapply linear_goes|eapply comb_goes]; eauto.
Qed.

Theorem C50_asap :
  forall F h w order cfg perm P Q L, built F h w order -> good_types F h -> schedulable w -> realizable w (node_latency cfg) ->
  build w order = Ok P -> (forall bs, perm bs ≡ₚ bs) -> asap_pass cfg perm P = Some (Q, L) ->
  exists delay_of : nat -> Z,
    (forall d nd, w_nodes w !! d = Some nd -> n_op nd = OUT -> 0 <= delay_of d <= L) /\ shows w Q delay_of.
Proof. exact (asap_as Intended). Qed.
Theorem C50_linear :
  forall F h w order solve cfg perm P Q L, built F h w order -> good_types F h -> schedulable w -> realizable w (node_latency cfg) ->
  build w order = Ok P -> trusted_solver solve cfg P -> (forall bs, perm bs ≡ₚ bs) -> linear_pass solve cfg perm P = Some (Q, L) ->
  exists delay_of : nat -> Z, (forall d, 0 <= delay_of d) /\ shows w Q delay_of.
Proof. exact (linear_as Intended). Qed.
Theorem C50_pipelined :
  forall F h w order rnd eps n perm P Q, built F h w order -> good_types F h -> combinational w -> realizable w no_latency ->
  build w order = Ok P -> (forall bs, perm bs ≡ₚ bs) -> 0 < n < 2 ^ 31 -> comb_pass rnd eps n perm P = Some Q ->
  exists delay_of : nat -> Z, (forall d, 0 <= delay_of d <= n) /\ shows w Q delay_of.
Proof. exact (pipelined_as Intended). Qed.
(** the default scheduler, with no pipeline stages: the circuit is combinational *)
Theorem C50_default :
  forall F h w order rnd eps perm P Q, built F h w order -> good_types F h -> combinational w -> realizable w no_latency ->
  build w order = Ok P -> comb_pass rnd eps 0 perm P = Some Q -> shows w Q (fun _ => 0).
Proof. exact (default_as Intended). Qed.

(** the statements above are about every behaviour of the circuit, and there is one for
    all inputs of the declared types: the circuit has no combinational loop, every
    module it instantiates is in the library, no wire is left undriven *)
Theorem C50_runs :
  forall F h w order P Q, built F h w order -> good_types F h -> build w order = Ok P ->
  (exists cfg perm L, realizable w (node_latency cfg) /\ asap_pass cfg perm P = Some (Q, L)) \/
  (exists solve cfg perm L, realizable w (node_latency cfg) /\ linear_pass solve cfg perm P = Some (Q, L)) \/
  (exists rnd eps n perm, combinational w /\ realizable w no_latency /\ comb_pass rnd eps n perm P = Some Q) ->
  forall e, env_for w e -> exists sig, rtl Q e sig.
Proof. exact (runs_as Intended). Qed.

(** the same for every kernel whose operations are accepted at all, the operators read as
    they are built ([act_op]): mixed signs and widths, casts that widen to another
    signedness, signed left shifts *)
Theorem C50_actual :
  forall F h w order P Q, built F h w order -> good_types F h -> build w order = Ok P ->
  (exists cfg perm L, schedulable w /\ realizable_as Actual w (node_latency cfg) /\ (forall bs, perm bs ≡ₚ bs) /\ asap_pass cfg perm P = Some (Q, L)) \/
  (exists solve cfg perm L, schedulable w /\ realizable_as Actual w (node_latency cfg) /\ trusted_solver solve cfg P /\ (forall bs, perm bs ≡ₚ bs) /\ linear_pass solve cfg perm P = Some (Q, L)) \/
  (exists rnd eps n perm, combinational w /\ realizable_as Actual w no_latency /\ (forall bs, perm bs ≡ₚ bs) /\ 0 <= n < 2 ^ 31 /\ comb_pass rnd eps n perm P = Some Q) ->
  exists delay_of : nat -> Z, (forall d nd, w_nodes w !! d = Some nd -> n_op nd = OUT -> 0 <= delay_of d) /\ shows_as Actual w Q delay_of /\
    forall e, env_for w e -> exists sig, rtl Q e sig.
Proof.
  intros F h w order P Q B GT EB G.
  assert (RN : forall e, env_for w e -> exists sig, rtl Q e sig).
  { apply (runs_as Actual F h w order P Q B GT EB).
    destruct G as [(cfg & perm & L & Sc & RZ & PM & A)|[(solve & cfg & perm & L & Sc & RZ & TS & PM & A)|(rnd & eps & n & perm & Co & RZ & PM & Hn & A)]]; eauto 12. }
  destruct G as [(cfg & perm & L & Sc & RZ & PM & A)|[(solve & cfg & perm & L & Sc & RZ & TS & PM & A)|(rnd & eps & n & perm & Co & RZ & PM & Hn & A)]].
  - destruct (asap_as Actual F h w order cfg perm P Q L B GT Sc RZ EB PM A) as (dl & D1 & D2). exists dl. split; [intros d nd Hd Ho; apply (D1 d nd Hd Ho)|auto].
  - destruct (linear_as Actual F h w order solve cfg perm P Q L B GT Sc RZ EB TS PM A) as (dl & D1 & D2). exists dl. auto.
  - destruct (Z.eq_dec n 0) as [->|N0].
    + exists (fun _ => 0). split; [intros; lia|]. split; [exact (default_as Actual F h w order rnd eps perm P Q B GT Co RZ EB A)|exact RN].
    + destruct (pipelined_as Actual F h w order rnd eps n perm P Q B GT Co RZ EB PM ltac:(lia) A) as (dl & D1 & D2). exists dl. split; [intros d nd _ _; apply D1|auto].
Qed.
(** the two readings agree on the operations the flow gets right, with the result types
    DFCxx gives (the left operand's, one bit for a comparison) *)
Theorem C50_readings :
  forall o t ts lat xs y, op_fits o t ts lat -> proper t -> Forall2 (fun u x => proper u /\ of_type u x) ts xs ->
  (forall b, o = BIN b -> is_bitwise b = false -> kind t = kind (if is_compare b then TFixed false 1 0 else hd t ts)) ->
  hw_op o t xs = Some y -> act_op o t xs = Some y.
Proof.
  intros o t ts lat xs y FT PT A KT H. destruct o as [|off| | |c| |b|u| |n|n|l r|]; try exact H.
  - (* a binary operation *)
    destruct xs as [|[k1 x1] [|[k2 x2] [|]]]; try discriminate H. apply Forall2_cons_inv_r in A as (t1 & ts' & [P1 [K1 W1]] & A & ->).
    apply Forall2_cons_inv_r in A as (t2 & ts2 & [P2 [K2 W2]] & A & ->). apply Forall2_nil_inv_r in A as ->. cbn [fst snd] in *. subst k1 k2.
    cbn [op_fits act_op] in *. destruct (is_bitwise b) eqn:NB; [exact H|]. specialize (KT b eq_refl NB). cbn [hd] in KT.
    pose proof (kind_proper t1 P1) as [Bt1 Sg1]. pose proof (kind_proper t2 P2) as [Bt2 Sg2]. destruct (proper_port t1 P1) as [_ Q1], (proper_port t2 P2) as [_ Q2].
    cbn [hw_op] in H. cbn [fst snd] in H. rewrite NB in H. cbn [negb andb] in H. destruct (is_float (kind t1) || is_float (kind t2)); [discriminate H|].
    rewrite Bt1, Bt2, Sg1, Sg2. rewrite !kind_num in H by assumption. unfold h_num in H. cbn [fst snd] in H.
    set (s1 := is_signed t1) in *. set (s2 := is_signed t2) in *. set (w1 := total_bits t1) in *. set (w2 := total_bits t2) in *.
    destruct (is_compare b) eqn:IC.
    + replace (match b with DIV => _ | _ => false end) with false in H by (destruct b; discriminate IC || reflexivity). rewrite <- H. do 3 f_equal.
      destruct FT as [[E1 E2]|[[E1 E2]|[BE ME]]].
      * rewrite E1, E2. cbn [andb]. rewrite !num_false. reflexivity.
      * rewrite <- E1, <- E2, andb_diag, Z.max_id. reflexivity.
      * assert (EE : (num s1 w1 x1 =? num s2 w2 x2) = (x1 =? x2)).
        { destruct ME as [(E1 & E2 & L)|(E1 & E2 & L)]; rewrite E1, E2, num_false.
          - apply (eq_mixed w1 w2); auto; lia.
          - rewrite (Z.eqb_sym x1 x2), Z.eqb_sym. apply (eq_mixed w2 w1); auto; lia. }
        assert (EA : s1 && s2 = false) by (destruct ME as [(E1 & E2 & L)|(E1 & E2 & L)]; rewrite E1, E2; reflexivity). rewrite EA, !num_false.
        destruct BE as [E0|E0]; subst b; cbn; rewrite EE; reflexivity.
    + destruct FT as (AR & _ & AC). rewrite AR.
      replace (match b with DIV => _ | _ => false end) with false in H by (destruct b; discriminate AR || reflexivity). rewrite <- H. do 2 f_equal.
      pose proof (kind_signed _ _ KT) as Sg. fold s1 in Sg. rewrite Sg. pose proof (same_kind_bits _ _ KT PT) as Bt. fold w1 in Bt. rewrite Bt.
      assert (EY : num s1 w2 x2 mod 2 ^ w1 = num s2 w2 x2 mod 2 ^ w1).
      { destruct AC as [AC|AC]; [rewrite !num_mod_le by lia; reflexivity|rewrite AC; reflexivity]. }
      apply ring_math_mod; [destruct b; discriminate AR || reflexivity|lia|reflexivity|exact EY].
  - (* a cast *)
    destruct xs as [|[k1 x1] [|]]; try discriminate H. apply Forall2_cons_inv_r in A as (t1 & ts' & [P1 [K1 W1]] & A & ->). apply Forall2_nil_inv_r in A as ->. cbn [fst snd] in *. subst k1.
    cbn [hw_op act_op op_fits fst] in *. pose proof (kind_proper t1 P1) as [Bt1 _]. destruct (proper_port t1 P1) as [_ Q1], (proper_port t PT) as [_ Q].
    destruct (_ || _); [discriminate H|]. rewrite <- H, kind_num by assumption. unfold h_num. cbn [fst snd]. rewrite Bt1. do 2 f_equal.
    destruct FT as [FT|[FT _]]; [rewrite !num_mod_le by lia; reflexivity|rewrite FT; reflexivity].
  - (* a left shift *)
    destruct xs as [|[k1 x1] [|]]; try discriminate H. apply Forall2_cons_inv_r in A as (t1 & ts' & _ & A & ->). apply Forall2_nil_inv_r in A as ->.
    cbn [op_fits act_op] in *. destruct FT as [_ ->]. exact H.
Qed.

(** signed and unsigned arithmetic, a constant, an offset, a slice, a shift, a comparison, a
    multiplexer, a cast, a bitwise operation, a concatenation, a scalar input and three
    outputs, with all operations of latency 2 *)
Definition rt_h : list cmd :=
  [ CType (TFixed true 7 0); CType (TFixed false 8 0); CInput 0 false "x" 0; CInput 0 false "y" 1; CInput 0 true "k" 0;
    CConst 0 (-3); COffset 0 1 (-2); CBin MUL 5 4; CBin ADD 7 3; CSlice 2 6 2; CShift false 2 3; CBin LESS 15 2;
    CMux 0 17 [10; 7]%nat; CCast 20 1; CBin XOR 24 2; CCat 13 26;
    COutput 0 false "o" 1; CConnect 32 26; COutput 0 false "p" 4; CConnect 34 29; COutput 0 false "q" 0; CConnect 36 20 ].
Definition rt_P : program :=
  let s := TFixed true 7 0 in let u := TFixed false 8 0 in
  [ Def 4 (DConst 18446744073709551613) VConst s (-1) []; Def 3 (DIn true "k") VScalar s (-1) [];
    Def 2 (DIn false "y") VStream u (-1) []; Def 15 (DShr 3) VStream u (-1) [2%nat];
    Def 17 (DBin LESS) VStream (TFixed false 1 0) (-1) [15%nat; 2%nat]; Def 13 (DBits 6 2) VStream (TRaw 5) (-1) [2%nat];
    Def 1 (DIn false "x") VStream s (-1) []; Def 5 (DOffset (-2)) VStream s (-1) [1%nat];
    Def 7 (DBin MUL) VStream s (-1) [5%nat; 4%nat]; Def 10 (DBin ADD) VStream s (-1) [7%nat; 3%nat];
    Def 20 DMux VStream s (-1) [17%nat; 7%nat; 10%nat]; Def 36 (DOut false "q") VStream s (-1) []; Con 36 20;
    Def 24 DCast VStream u (-1) [20%nat]; Def 26 (DBin XOR) VStream u (-1) [24%nat; 2%nat];
    Def 32 (DOut false "o") VStream u (-1) []; Con 32 26; Def 29 DCat VStream (TRaw 13) (-1) [13%nat; 26%nat];
    Def 34 (DOut false "p") VStream (TRaw 13) (-1) []; Con 34 29 ].
Definition rt_cfg : latcfg := fun _ => Some 2.
(** x = 0, 1, 2, ..., 127, -128, ...; y = 7, 8, ...; k = 5 *)
Definition rt_env : env :=
  {| e_stream := fun n i => if String.eqb n "x" then (TFixed true 7 0, i mod 256) else (TFixed false 8 0, (7 + i) mod 256);
     e_scalar := fun _ => (TFixed true 7 0, 5) |}.
Definition io_ok (w : world) : bool :=
  forallb (fun p : nat * node => match n_op (snd p) with
     | IN => match type_of w (fst p) with
             | Some t => bool_decide (t = if String.eqb (n_name (snd p)) "y" then TFixed false 8 0 else TFixed true 7 0) &&
                         match n_vk (snd p) with VStream => String.eqb (n_name (snd p)) "x" || String.eqb (n_name (snd p)) "y" | _ => String.eqb (n_name (snd p)) "k" end
             | None => false
             end
     | _ => true end) (map_to_list (w_nodes w)).
Lemma rt_env_for w : io_ok w = true -> env_for w rt_env.
Proof.
  intros H n nd t Hn Ho Ht. pose proof (map_forallb w _ H n nd Hn) as X. cbn [fst snd] in X. rewrite Ho, Ht in X.
  apply andb_true_iff in X as [X1 X2]. apply bool_decide_eq_true in X1.
  destruct (n_vk nd).
  - intros i Hi. unfold of_type, rt_env. cbn [e_stream]. apply orb_true_iff in X2 as [X2|X2]; apply String.eqb_eq in X2; rewrite X2 in *; cbn in X1; subst t; cbn;
      (split; [reflexivity|]; unfold word; cbn; apply Z.mod_pos_bound; reflexivity).
  - apply String.eqb_eq in X2. rewrite X2 in X1. cbn in X1. subst t. split; [reflexivity|]. vm_compute; intuition congruence.
  - apply String.eqb_eq in X2. rewrite X2 in X1. cbn in X1. subst t. split; [reflexivity|]. vm_compute; intuition congruence.
Qed.
Lemma rt_types : good_types noflt0 (calls rt_h).
Proof. split; [|exact (InstanceFlow.calls_typed noflt0 (KNew :: rt_h) init_world)]. intros t H. unfold rt_h in H. repeat (apply elem_of_cons in H as [H|H]; [try discriminate; injection H as ->; vm_compute; intuition discriminate|]). inversion H. Qed.
Example C50_case : exists w order Q L sig delay_of, built noflt0 (calls rt_h) w order /\ good_types noflt0 (calls rt_h) /\ schedulable w /\ realizable w (node_latency rt_cfg) /\
  build w order = Ok rt_P /\ asap_pass rt_cfg (fun b => b) rt_P = Some (Q, L) /\ env_for w rt_env /\ rtl Q rt_env sig /\
  (* o = (x[-2] * -3) xor y at position 9: -21 xor 16 *)
  sig 32%nat (9 + delay_of 32%nat) = 251.
Proof.
  assert (Fl : flow_ok noflt0 rt_h rt_P (fun w => out_at 32 w && schedulableb w && realizableb (node_latency rt_cfg) w && io_ok w && bool_decide (type_of w 32%nat = Some (TFixed false 8 0))) = true) by (vm_compute; reflexivity).
  destruct (flow_check _ _ _ _ Fl) as (w & o & R & D & K & C & S & B & X).
  rewrite !andb_true_iff in X. destruct X as [[[[X1 X2] X3] X4] X5]. apply out_at_sound in X1 as (nd & Hn & Ho). apply schedulableb_sound in X2. apply realizableb_sound in X3. apply rt_env_for in X4.
  assert (Bu : built noflt0 (calls rt_h) w o) by exact (ex_intro _ 0%nat (conj R (conj D (conj K (conj C S))))).
  assert (A : match asap_pass rt_cfg (fun b => b) rt_P with Some _ => true | None => false end = true) by (vm_compute; reflexivity).
  destruct (asap_pass rt_cfg (fun b => b) rt_P) as [[Q L]|] eqn:E; [|discriminate]. clear A.
  destruct (C50_runs noflt0 (calls rt_h) w o rt_P Q Bu rt_types B ltac:(left; exists rt_cfg, (fun b => b), L; auto) rt_env X4) as (sig & RT).
  destruct (C50_asap noflt0 (calls rt_h) w o rt_cfg (fun b => b) rt_P Q L Bu rt_types X2 X3 B ltac:(reflexivity) E) as (dl & _ & SH).
  exists w, o, Q, L, sig, dl. do 8 (split; [assumption || exact rt_types || reflexivity|]).
  apply bool_decide_eq_true in X5.
  rewrite (SH rt_env sig RT 32%nat nd (TFixed false 8 0) 9 (TFixed false 8 0, 251) Hn Ho X5 ltac:(lia)); [reflexivity|].
  destruct (kernel_translates noflt0 (calls rt_h) w o R D K C S) as (P & B' & _ & _ & KD). rewrite B in B'. injection B' as <-. apply KD; [eauto|].
  apply (dev_sound rt_env rt_P 10). vm_compute. reflexivity.
Qed.

(** the first steps of the IDCT example (examples/idct/idct.h:66-84): a slice of a signed
    input, cast to 32 signed bits, shifted left by 11, plus 128.  Read as intended the cast
    of raw bits would not be sign-extending; it is, which the example relies on. *)
Definition ia_h : list cmd :=
  [ CType (TFixed true 23 0); CType (TFixed true 31 0); CInput 0 false "x" 0; CSlice 1 11 0; CCast 2 1; CShift true 4 11; CConst 1 128; CBin ADD 6 8;
    COutput 0 false "out" 1; CConnect 12 9 ].
Definition ia_P : program :=
  let b := TFixed true 31 0 in
  [ Def 8 (DConst 128) VConst b (-1) []; Def 1 (DIn false "x") VStream (TFixed true 23 0) (-1) []; Def 2 (DBits 11 0) VStream (TRaw 12) (-1) [1%nat];
    Def 4 DCast VStream b (-1) [2%nat]; Def 6 (DShl 11) VStream b (-1) [4%nat]; Def 9 (DBin ADD) VStream b (-1) [6%nat; 8%nat];
    Def 12 (DOut false "out") VStream b (-1) []; Con 12 9 ].
Definition ia_cfg : latcfg := fun c => match c with OBin _ _ => Some 1 | _ => Some 0 end.
(** x = 2^12 - 1 at all positions: the slice is -1 *)
Definition ia_env : env := {| e_stream := fun _ _ => (TFixed true 23 0, 4095); e_scalar := fun _ => (TFixed true 23 0, 0) |}.
Definition ia_io (w : world) : bool :=
  forallb (fun p : nat * node => match n_op (snd p) with
     | IN => bool_decide (type_of w (fst p) = Some (TFixed true 23 0)) && match n_vk (snd p) with VStream => true | _ => false end | _ => true end) (map_to_list (w_nodes w)).
Lemma ia_env_for w : ia_io w = true -> env_for w ia_env.
Proof.
  intros H n nd t Hn Ho Ht. pose proof (map_forallb w _ H n nd Hn) as X. cbn [fst snd] in X. rewrite Ho in X.
  apply andb_true_iff in X as [X1 X2]. apply bool_decide_eq_true in X1. rewrite Ht in X1. injection X1 as ->.
  destruct (n_vk nd); try discriminate X2. intros i _. split; [reflexivity|]. vm_compute; intuition congruence.
Qed.
Lemma ia_types : good_types noflt0 (calls ia_h).
Proof. split; [|exact (InstanceFlow.calls_typed noflt0 (KNew :: ia_h) init_world)]. intros t H. unfold ia_h in H. repeat (apply elem_of_cons in H as [H|H]; [try discriminate; injection H as ->; vm_compute; intuition discriminate|]). inversion H. Qed.
Example C50_actual_case : exists w order Q L sig delay_of, built noflt0 (calls ia_h) w order /\ good_types noflt0 (calls ia_h) /\ schedulable w /\ realizable_as Actual w (node_latency ia_cfg) /\
  ~ realizable w (node_latency ia_cfg) /\
  build w order = Ok ia_P /\ asap_pass ia_cfg (fun b => b) ia_P = Some (Q, L) /\ env_for w ia_env /\ rtl Q ia_env sig /\
  sig 12%nat (3 + delay_of 12%nat) = 2 ^ 32 - 2048 + 128.
Proof.
  assert (Fl : flow_ok noflt0 ia_h ia_P (fun w => out_at 12 w && schedulableb w && realizableb_as Actual (node_latency ia_cfg) w && ia_io w &&
      bool_decide (type_of w 12%nat = Some (TFixed true 31 0)) && bool_decide (type_of w 4%nat = Some (TFixed true 31 0)) && bool_decide (type_of w 6%nat = Some (TFixed true 31 0)) &&
      match w_nodes w !! 6%nat with Some nd => match n_op nd with SHL n => n =? 11 | _ => false end | None => false end && bool_decide (operands w 6 = [4%nat])) = true) by (vm_compute; reflexivity).
  destruct (flow_check _ _ _ _ Fl) as (w & o & R & D & K & C & S & B & X).
  rewrite !andb_true_iff in X. destruct X as [[[[[[[[X1 X2] X3] X4] X5] X6] X7] X8] X9]. apply out_at_sound in X1 as (nd & Hn & Ho). apply schedulableb_sound in X2. apply realizableb_as_sound in X3. apply ia_env_for in X4.
  assert (Bu : built noflt0 (calls ia_h) w o) by exact (ex_intro _ 0%nat (conj R (conj D (conj K (conj C S))))).
  assert (A : match asap_pass ia_cfg (fun b => b) ia_P with Some _ => true | None => false end = true) by (vm_compute; reflexivity).
  destruct (asap_pass ia_cfg (fun b => b) ia_P) as [[Q L]|] eqn:E; [|discriminate]. clear A.
  destruct (C50_actual noflt0 (calls ia_h) w o ia_P Q Bu ia_types B) as (dl & _ & SH & RN).
  { left. exists ia_cfg, (fun b => b), L. auto. }
  destruct (RN ia_env X4) as (sig & RT).
  apply bool_decide_eq_true in X5, X6, X7, X9.
  exists w, o, Q, L, sig, dl. do 4 (split; [assumption || exact ia_types|]). split.
  { intro RZ. destruct (w_nodes w !! 6%nat) as [n6|] eqn:E6; [|discriminate X8].
    assert (E8 : n_op n6 = SHL 11) by (destruct (n_op n6); try discriminate X8; f_equal; lia).
    pose proof (rz_ops _ _ RZ 6%nat n6 _ [TFixed true 31 0] E6 X7) as Z. rewrite E8, X9 in Z. destruct Z as [_ Z]; [constructor; [exact X6|constructor]|discriminate Z]. }
  do 4 (split; [assumption || reflexivity|]).
  rewrite (SH ia_env sig RT 12%nat nd (TFixed true 31 0) 3 (TFixed true 31 0, 2 ^ 32 - 2048 + 128) Hn Ho X5 ltac:(lia)); [reflexivity|].
  destruct (kernel_translates noflt0 (calls ia_h) w o R D K C S) as (P & B' & _ & _ & KD). rewrite B in B'. injection B' as <-. apply KD; [eauto|].
  apply (dev_as_sound Actual ia_env ia_P 10). vm_compute. reflexivity.
Qed.

(** ** C08: bit slices *)
(** x(f, s) on a variable in whose range both indices are: the call succeeds (see also
    C08_slice_call: it throws otherwise), the result is |f - s| + 1 bits wide, and its bit
    [k] is bit [min + k] of the operand *)
Theorem C08_value :
  forall F h w a t f s, run F init_world h = Ok w -> type_of w a = Some t -> 0 <= Z.min f s -> Z.max f s < total_bits t < 2 ^ 16 ->
  exists w' r, step F w (CSlice a f s) = Ok (w', r) /\ step F w (CSlice a s f) = Ok (w', r) /\
    type_of w' r = Some (TRaw (Z.abs (f - s) + 1)) /\
    forall e i x, 0 <= i -> kval (hw e) w a i x ->
      exists y, kval (hw e) w' r i (kind (TRaw (Z.abs (f - s) + 1)), y) /\
        forall k, Z.testbit y k = (0 <=? k) && (k <=? Z.abs (f - s)) && Z.testbit (snd x) (Z.min f s + k).
Proof.
  intros F h w a t f s R Ht Hm HM.
  pose (e0 := {| e_stream := fun _ _ => (t, 0); e_scalar := fun _ => (t, 0) |}).
  destruct (slice_step F h w e0 R a t f s Ht Hm HM) as (w' & r & S & _ & T & _). exists w', r. split; [exact S|]. split.
  { change (2 ^ 16) with 65536 in HM. destruct (slice_call F h w a f s R (typed_exists _ _ _ Ht) ltac:(lia) ltac:(lia)) as (t' & Ht' & SC & _). rewrite Ht in Ht'. injection Ht' as <-.
    destruct (SC ltac:(change (2 ^ 16) with 65536; lia)) as (w2 & r2 & S2 & S3 & _). congruence. }
  split; [exact T|]. intros e i x Hi K. destruct (slice_step F h w e R a t f s Ht Hm HM) as (w2 & r2 & S2 & _ & _ & KV). rewrite S in S2. injection S2 as <- <-.
  eexists. split; [exact (KV i x Hi K)|]. intro k. destruct (Z.leb_spec 0 k) as [Hk|Hk]; [|rewrite Z.testbit_neg_r by lia; reflexivity]. cbn [andb].
  destruct (Z.leb_spec k (Z.abs (f - s))).
  - rewrite Z.mod_pow2_bits_low by lia. rewrite Z.div_pow2_bits by lia. cbn. f_equal. lia.
  - rewrite Z.mod_pow2_bits_high by lia. reflexivity.
Qed.
(** what the FIRRTL for it computes *)
Theorem C08_circuit :
  forall t x f s, proper t -> 0 <= Z.min f s -> Z.max f s < total_bits t -> word (total_bits t) x ->
  exists ex y, lower (DBits (Z.max f s) (Z.min f s)) [port_type t] (port_type (TRaw (Z.abs (f - s) + 1))) = Some ex /\
    feval [(port_type t, x)] ex = Some (port_type (TRaw (Z.abs (f - s) + 1)), y) /\
    forall k, Z.testbit y k = (0 <=? k) && (k <=? Z.abs (f - s)) && Z.testbit x (Z.min f s + k).
Proof.
  intros t x f s P Hm HM X. destruct (proper_port t P) as [E HT]. eexists _, _. split; [reflexivity|]. rewrite E.
  split; [cbn [port_type]; replace (Z.abs (f - s) + 1) with (Z.max f s - Z.min f s + 1) by lia; apply bits_value; cbn; try lia; exact X|].
  intro k. destruct (Z.leb_spec 0 k) as [Hk|Hk]; [|rewrite Z.testbit_neg_r by lia; reflexivity]. cbn [andb].
  destruct (Z.leb_spec k (Z.abs (f - s))).
  - rewrite Z.mod_pow2_bits_low by lia. rewrite Z.div_pow2_bits by lia. cbn [andb]. f_equal. lia.
  - rewrite Z.mod_pow2_bits_high by lia. reflexivity.
Qed.
Example C08_case : exists w t, run noflt0 init_world [KNew; CType (TFixed true 7 0); CInput 0 false "x" 0] = Ok w /\ type_of w 1%nat = Some t /\ 0 <= Z.min 2 5 /\ Z.max 2 5 < total_bits t < 2 ^ 16 /\ proper t.
Proof.
  destruct (run noflt0 init_world _) as [w| | |] eqn:E; vm_compute in E; try discriminate E. injection E as <-. eexists _, (TFixed true 7 0). split; [reflexivity|]. split; [reflexivity|]. vm_compute. intuition discriminate.
Qed.
(** an operation [bits] with its indices the wrong way round, which the DFCIR verifier
    accepts, is lowered to one bit; DFCxx never produces one (its slices have max..min) *)
Theorem C08_reversed_dfcir :
  forall p x l r, 0 <= l < r -> r < p_width p -> exists y, feval [(p, x)] (lower_bits l r) = Some (mkP false 1, y) /\ y = (x / 2 ^ l) mod 2.
Proof.
  intros p x l r H L. unfold lower_bits. destruct (Z.ltb_spec l r); [|lia]. cbn. unfold f_bits. cbn.
  destruct (Z.leb_spec 0 l); [|lia]. destruct (Z.leb_spec l l); [|lia]. destruct (Z.ltb_spec l (p_width p)); [|lia]. cbn.
  replace (l - l + 1) with 1 by lia. change (2 ^ 1) with 2. eauto.
Qed.

(** ** C09: splitting and concatenating *)
Theorem C09_split_join :
  forall F h w a t k, run F init_world h = Ok w -> type_of w a = Some t -> 0 < k < total_bits t -> total_bits t < 2 ^ 16 ->
  exists w1 hi w2 lo w3 c,
    step F w (CSlice a (total_bits t - 1) k) = Ok (w1, hi) /\ step F w1 (CSlice a (k - 1) 0) = Ok (w2, lo) /\ step F w2 (CCat hi lo) = Ok (w3, c) /\
    type_of w3 c = Some (TRaw (total_bits t)) /\
    forall e i x, 0 <= i -> kval (hw e) w a i x -> 0 <= snd x < 2 ^ total_bits t -> kval (hw e) w3 c i (kind (TRaw (total_bits t)), snd x).
Proof. exact split_cat. Qed.
Theorem C09_join_split :
  forall F h w a b ta tb, run F init_world h = Ok w -> type_of w a = Some ta -> type_of w b = Some tb -> owner w b = owner w a ->
  1 <= total_bits ta -> 1 <= total_bits tb -> total_bits ta + total_bits tb < 2 ^ 16 ->
  exists w1 c w2 hi w3 lo,
    step F w (CCat a b) = Ok (w1, c) /\ step F w1 (CSlice c (total_bits ta + total_bits tb - 1) (total_bits tb)) = Ok (w2, hi) /\
    step F w2 (CSlice c (total_bits tb - 1) 0) = Ok (w3, lo) /\
    type_of w3 hi = Some (TRaw (total_bits ta)) /\ type_of w3 lo = Some (TRaw (total_bits tb)) /\
    forall e i x y, 0 <= i -> kval (hw e) w a i x -> kval (hw e) w b i y -> of_type ta x -> of_type tb y ->
      kval (hw e) w3 hi i (kind (TRaw (total_bits ta)), snd x) /\ kval (hw e) w3 lo i (kind (TRaw (total_bits tb)), snd y).
Proof. exact cat_split. Qed.
(** the FIRRTL for these: bits, bits, cat *)
Theorem C09_circuit :
  forall w k x s, 0 < k < w -> word w x -> exists hi lo,
  feval [(mkP s w, x)] (lower_bits (w - 1) k) = Some (mkP false (w - k), hi) /\
  feval [(mkP s w, x)] (lower_bits (k - 1) 0) = Some (mkP false k, lo) /\
  exists ex, lower DCat [mkP false (w - k); mkP false k] (mkP false w) = Some ex /\
    feval [(mkP false (w - k), hi); (mkP false k, lo)] ex = Some (mkP false w, x).
Proof.
  intros w k x s Hk X. eexists _, _. split; [rewrite bits_value by (cbn; try lia; exact X); replace (w - 1 - k + 1) with (w - k) by lia; reflexivity|].
  split; [rewrite bits_value by (cbn; try lia; exact X); replace (k - 1 - 0 + 1) with k by lia; reflexivity|]. eexists. split; [reflexivity|].
  rewrite cat_value. change (2 ^ 0) with 1. rewrite Z.div_1_r, split_join by (try lia; exact X). replace (w - k + k) with w by lia. reflexivity.
Qed.
(** past 2^16 bits the width of a concatenation wraps *)
Theorem C09_wide :
  exists w w1 c, run noflt0 init_world [KNew; CType (TRaw 40000); CInput 0 false "x" 0] = Ok w /\
    step noflt0 w (CCat 1 1) = Ok (w1, c) /\ type_of w1 c = Some (TRaw 14464).
Proof.
  destruct (run noflt0 init_world _) as [w| | |] eqn:E; vm_compute in E; try discriminate E. injection E as <-. eexists _, _, _. split; [reflexivity|]. split; vm_compute; reflexivity.
Qed.
Example C09_case : exists w e x, run noflt0 init_world [KNew; CType (TRaw 12); CInput 0 false "x" 0] = Ok w /\ type_of w 1%nat = Some (TRaw 12) /\
  owner w 1%nat = owner w 1%nat /\ 0 < 5 < total_bits (TRaw 12) /\ total_bits (TRaw 12) + total_bits (TRaw 12) < 2 ^ 16 /\
  kval (hw e) w 1%nat 3 x /\ of_type (TRaw 12) x /\ snd x = 2748.
Proof.
  destruct (run noflt0 init_world _) as [w| | |] eqn:E; vm_compute in E; try discriminate E. injection E as <-.
  eexists; exists {| e_stream := fun _ _ => (kind (TRaw 12), 2748); e_scalar := fun _ => (kind (TRaw 12), 0) |}, (kind (TRaw 12), 2748).
  split; [reflexivity|]. split; [reflexivity|]. split; [reflexivity|]. split; [vm_compute; intuition discriminate|]. split; [vm_compute; reflexivity|].
  split; [|split; [split; [reflexivity|vm_compute; intuition discriminate]|reflexivity]].
  match goal with |- kval (hw ?e) ?w _ _ _ => exact (kv_stream (hw e) w 1%nat (mkNode IN 0 VStream "x" 0 [] []) 3 eq_refl eq_refl eq_refl ltac:(discriminate)) end.
Qed.

(** ** C37: shifts *)
(** x << n is x * 2^n and x >> n is floor(x / 2^n), in the width of x *)
Definition shl_spec (s : bool) (w n x : Z) : Z := (num s w x * 2 ^ n) mod 2 ^ w.
Definition shr_spec (s : bool) (w n x : Z) : Z := (num s w x / 2 ^ n) mod 2 ^ w.
Theorem C37_partial :
  forall s w n x, 1 <= w -> 0 <= n -> word w x ->
  (s = false -> exists ex, lower (DShl n) [mkP s w] (mkP s w) = Some ex /\ feval [(mkP s w, x)] ex = Some (mkP s w, shl_spec s w n x)) /\
  (exists ex, lower (DShr n) [mkP s w] (mkP s w) = Some ex /\ feval [(mkP s w, x)] ex = Some (mkP s w, shr_spec s w n x)).
Proof.
  intros s w n x W N X. split.
  - intros ->. eexists. split; [reflexivity|]. apply shl_unsigned; assumption.
  - eexists. split; [reflexivity|]. apply shr_value; assumption.
Qed.
(** a signed left shift keeps the sign bit instead of shifting into it: it is right exactly
    when the bit that should arrive there equals the sign *)
Theorem C37_signed_left :
  forall w n x, 2 <= w -> 0 <= n -> word w x ->
  exists ex y, lower (DShl n) [mkP true w] (mkP true w) = Some ex /\ feval [(mkP true w, x)] ex = Some (mkP true w, y) /\
    (y = shl_spec true w n x <-> Z.testbit (x * 2 ^ n) (w - 1) = Z.testbit x (w - 1)).
Proof.
  intros w n x W N X. eexists _, _. split; [reflexivity|]. split; [apply shl_signed; assumption|].
  assert (E : shl_spec true w n x = (x * 2 ^ n) mod 2 ^ w).
  { unfold shl_spec. rewrite <- Zmult_mod_idemp_l. rewrite num_mod by lia. rewrite Zmult_mod_idemp_l. reflexivity. }
  rewrite E. unfold word in X. set (y := x * 2 ^ n). set (m := 2 ^ (w - 1)).
  assert (Pm : 0 < m) by (apply Z.pow_pos_nonneg; lia). assert (E2 : 2 ^ w = 2 * m) by (unfold m; rewrite <- Z.pow_succ_r by lia; f_equal; lia).
  assert (Bx : x / m = Z.b2z (Z.testbit x (w - 1))).
  { rewrite <- (Z.mod_small (x / m) 2); [rewrite Z.testbit_spec' by lia; reflexivity|]. split; [apply Z.div_pos; lia|apply Z.div_lt_upper_bound; lia]. }
  assert (By : y mod 2 ^ w = Z.b2z (Z.testbit y (w - 1)) * m + y mod m).
  { rewrite E2, Z.mul_comm. rewrite Z.rem_mul_r by lia. rewrite Z.testbit_spec' by lia. fold m. ring. }
  rewrite By, Bx. split; [|intros ->; reflexivity]. intro Q. assert (Z.b2z (Z.testbit x (w - 1)) = Z.b2z (Z.testbit y (w - 1))) as H by nia.
  destruct (Z.testbit x (w - 1)), (Z.testbit y (w - 1)); cbn in H; congruence || lia.
Qed.
(** 64 << 1 on 8 signed bits: 0 instead of -128; one signed bit cannot be shifted at all; and
    the simulator shifts the pattern of a negative number in as a large positive one *)
Theorem C37_refuted :
  (exists ex y, lower (DShl 1) [mkP true 8] (mkP true 8) = Some ex /\ feval [(mkP true 8, 64)] ex = Some (mkP true 8, y) /\ y = 0 /\ shl_spec true 8 1 64 = 128) /\
  (forall n x, 0 <= n -> exists ex, lower (DShl n) [mkP true 1] (mkP true 1) = Some ex /\ feval [(mkP true 1, x)] ex = None) /\
  (c_shr 254 1 = CV 127 /\ shr_spec true 8 1 254 = 255).
Proof.
  split; [eexists _, _; split; [reflexivity|]; vm_compute; auto|]. split; [|vm_compute; auto].
  intros n x N. eexists. split; [reflexivity|]. cbn. unfold f_shl. destruct (Z.leb_spec 0 n); [|lia]. cbn. unfold f_bits. cbn. reflexivity.
Qed.
(** the simulator, on the 64-bit words it computes with *)
Theorem C37_simulator :
  forall w n x, 1 <= w <= 64 -> 0 <= n < 64 -> 0 <= x ->
  (exists y, c_shl x n = CV y /\ y mod 2 ^ w = (x * 2 ^ n) mod 2 ^ w) /\ c_shr x n = CV (x / 2 ^ n).
Proof.
  intros w n x W N X. unfold c_shl, c_shr. destruct (Z.ltb_spec n 64); [|lia]. split; [|reflexivity]. eexists. split; [reflexivity|].
  unfold w64. change two64 with (2 ^ 64). apply mod_mod_le. lia.
Qed.
Example C37_case : word 8 200 /\ shl_spec false 8 1 200 = 144 /\ shr_spec true 8 2 200 = 242 /\ shr_spec false 8 2 200 = 50 /\
  (Z.testbit (227 * 2 ^ 2) 7 = Z.testbit 227 7) /\ shl_spec true 8 2 227 = 140.
Proof. vm_compute. intuition discriminate. Qed.

(** ** C45: widths and signedness of the FIRRTL *)
(** the types the API can make (Kernel::dfUInt, dfInt, dfFloat, dfRawBits, dfBool) *)
Definition api_type (t : dftype) : Prop :=
  (exists n, t = dfUInt n) \/ (exists n, dfInt n = Some t) \/ (exists e f, t = mkFloat e f) \/ (exists n, t = mkRaw n) \/ t = mkBool.
Definition width_kept (t : dftype) : Prop :=
  port_type t = mkP (is_signed t) (total_bits t) /\ (p_signed (port_type t) = true <-> exists i f, t = TFixed true i f).
Lemma api_kept t : api_type t -> width_kept t.
Proof.
  unfold width_kept. intro H.
  assert (X : p_width (port_type t) = total_bits t).
  { unfold api_type, dfUInt, dfInt, mkFloat, mkRaw, mkBool, mkFixed in H. destruct H as [(n & ->)|[(n & E)|[(e & f & ->)|[(n & ->)| ->]]]]; try (cbn; unfold u16, u8).
    - pose proof (Z.mod_pos_bound n 65536 ltac:(lia)). change (0 mod 65536) with 0. rewrite Z.add_0_r, Z.add_0_l, Z.mod_mod by lia. reflexivity.
    - destruct (Z.ltb_spec 0 (u16 n)); [|discriminate]. injection E as <-. cbn. unfold u16 in *. pose proof (Z.mod_pos_bound n 65536 ltac:(lia)).
      change (0 mod 65536) with 0. rewrite (Z.mod_small (n mod 65536 - 1)) by lia. symmetry. apply Z.mod_small. lia.
    - pose proof (Z.mod_pos_bound e 256 ltac:(lia)). pose proof (Z.mod_pos_bound f 256 ltac:(lia)). rewrite (Z.mod_small (e mod 256 + f mod 256 + 1)) by lia. lia.
    - reflexivity.
    - reflexivity. }
  split.
  - rewrite <- X. destruct t as [s i f|e f|n]; cbn in *; reflexivity.
  - destruct t as [[] i f|e f|n]; cbn; split; try discriminate; eauto; intros (? & ? & ?); discriminate.
Qed.
Theorem C45_ports :
  forall F h w n t, run F init_world h = Ok w -> (forall u, CType u ∈ h -> api_type u) -> type_of w n = Some t -> width_kept t.
Proof.
  intros F h w n t R A H. apply api_kept. unfold type_of in H. destruct (w_nodes w !! n) as [nd|]; [|discriminate].
  enough (X : forall t, t ∈ w_types w -> api_type t) by (apply X; eapply elem_of_list_lookup_2; exact H). clear -R A.
  assert (I0 : forall t, t ∈ w_types init_world -> api_type t) by (intros t H; inversion H). revert R I0. generalize init_world. induction h as [|c h IH]; intros w0 R I0; cbn in R; [injection R as <-; exact I0|].
  destruct (step F w0 c) as [[w1 r]| | |] eqn:E; try discriminate. cbn in R. apply (IH (fun u Hu => A u (elem_of_list_further _ _ _ Hu)) w1 R).
  intros t Ht. destruct (step_new_types F w0 c w1 r E) as [EQ|(t' & EQ & Y)]; rewrite EQ in Ht; [auto|]. apply elem_of_app in Ht as [Ht|Ht]; [auto|]. apply elem_of_list_singleton in Ht as ->.
  destruct Y as [->|[(m & ->)| ->]]; [apply A; constructor|right; right; right; left; eauto|right; right; right; right; reflexivity].
Qed.

(** a fixed type with fraction bits, which no API call makes, may be wider than it says *)
Theorem C45_wide : exists t, t = mkFixed false 40000 40000 /\ p_width (port_type t) = 80000 /\ total_bits t = 14464.
Proof. eexists. split; [reflexivity|]. vm_compute. auto. Qed.
(** the library modules have the ports of their operations *)
Theorem C45_library :
  forall o t ts lat m, covered o = true -> dtyping o t ts -> lib_module o ts t lat m ->
  (exists s, v_decl m RES1 = Some (DNet s (p_width (port_type t)))) /\
  (forall a, ts !! 0%nat = Some a -> exists s, v_decl m ARG1 = Some (DNet s (p_width (port_type a)))) /\
  (forall b, ts !! 1%nat = Some b -> exists s, v_decl m ARG2 = Some (DNet s (p_width (port_type b)))).
Proof.
  intros o t ts lat m CV DT (n & p & l & E' & G').
  destruct o; try discriminate CV; cbn in DT.
  - destruct DT as (t1 & t2 & -> & _). assert (exists v, lib_vop o = Some v) as (v & V) by (destruct o; try discriminate CV; eexists; reflexivity).
    destruct (NamingProofs.gen_bin o v t t1 t2 lat V) as (name & E & G); [destruct o; try discriminate CV; reflexivity|].
    rewrite E in E'. injection E' as <- <- <-. rewrite G in G'. injection G' as <-. unfold bin_module.
    destruct (_ =? 0); (split; [eexists; reflexivity|]; split; intros x Hx; injection Hx as <-; eexists; reflexivity).
  - destruct DT as (a & ->). destruct (NamingProofs.gen_cast t a lat) as (name & E & G).
    rewrite E in E'. injection E' as <- <- <-. rewrite G in G'. injection G' as <-. unfold cast_module.
    destruct (_ =? 0); (split; [eexists; reflexivity|]; split; intros x Hx; [injection Hx as <-; eexists; reflexivity|discriminate]).
  - destruct DT as (ta & -> & KA). destruct (NamingProofs.gen_fifo t ta lat) as (name & E & G). pose proof (port_kind _ _ KA) as PK.
    rewrite E in E'. injection E' as <- <- <-. rewrite G in G'. injection G' as <-.
    split; [eexists; reflexivity|]. split; intros x Hx; [injection Hx as <-; rewrite PK; eexists; reflexivity|discriminate].
Qed.
(** the FIRRTL expressions for the other operations have the type of the result, if the
    operation is one the flow gets right ... *)
Theorem C45_partial :
  forall o t ts lat xs ex, base_name o = None -> is_oper o = true -> dtyping o t ts ->
  op_fits (match o with DMux => MUX | _ => opk_of o end) t ts lat -> proper t ->
  Forall2 (fun u x => proper u /\ word (p_width (port_type u)) x) ts xs -> lower o (map port_type ts) (port_type t) = Some ex ->
  forall p y, feval (zip (map port_type ts) xs) ex = Some (p, y) -> p = port_type t /\ 0 <= y < 2 ^ total_bits t.
Proof.
  intros o t ts lat xs ex BN IO DT FT PT A LO p y E.
  pose proof (prim_total Intended {| e_stream := fun _ _ => (t, 0); e_scalar := fun _ => (t, 0) |} o t ts lat xs ex BN IO DT FT PT A LO) as X. rewrite E in X.
  destruct (proper_port t PT) as [Ep _]. rewrite Ep in X |- *. exact X.
Qed.
(** ... but a bitwise operation on signed operands is built with a result type (SInt) other
    than the one its operands have in FIRRTL (UInt), and is rejected *)
Theorem C45_refuted :
  forall b w x y, is_bitwise b = true -> 1 <= w -> exists ex, lower (DBin b) [mkP true w; mkP true w] (mkP true w) = Some ex /\ feval [(mkP true w, x); (mkP true w, y)] ex = None.
Proof. intros b w x y B W. destruct b; try discriminate B; (eexists; split; [reflexivity|]; cbn; unfold f_bitwise; cbn; unfold as_type, ptype_eqb; cbn; reflexivity). Qed.
Example C45_case : api_type (TFixed true 15 0) /\ api_type (TRaw 9) /\ dtyping (DBits 6 2) (TRaw 5) [TFixed false 8 0] /\ proper (TRaw 5) /\ proper (TFixed false 8 0) /\
  op_fits (opk_of (DBits 6 2)) (TRaw 5) [TFixed false 8 0] 0 /\ covered (DBin LESS) = true /\ dtyping (DBin LESS) (TFixed false 1 0) [TFixed true 7 0; TFixed true 7 0].
Proof.
  split; [right; left; exists 16; reflexivity|]. split; [right; right; right; left; exists 9; reflexivity|]. cbn. unfold proper. cbn.
  split; [eexists; split; [reflexivity|]; vm_compute; intuition discriminate|]. split; [lia|]. split; [lia|]. split; [exact Logic.I|]. split; [reflexivity|]. eauto.
Qed.

(** ** C51: growing a kernel does not change what is there *)
(** whatever the call, unless it is a connect: every existing variable denotes the same
    values as before, for every meaning of the operators and inputs *)
Theorem C51_calls :
  forall F h w c w' r, run F init_world h = Ok w -> step F w c = Ok (w', r) -> (forall a b, c <> CConnect a b) ->
  forall V (I : interp V) n i x, is_Some (w_nodes w !! n) -> (kval I w n i x <-> kval I w' n i x).
Proof. intros F h w c w' r R S NC V I n i x Hn. exact (step_kval F I w c w' r S (run_WF F _ _ _ R init_WF) NC n i x Hn). Qed.
(** a connect to an output nobody has read or driven yet changes that output only, which
    takes the value of its driver *)
Theorem C51_connect :
  forall F h w a b w' r, run F init_world h = Ok w -> step F w (CConnect a b) = Ok (w', r) -> ok_call w (CConnect a b) ->
  forall V (I : interp V),
  (forall n i x, is_Some (w_nodes w !! n) -> n <> a -> (kval I w n i x <-> kval I w' n i x)) /\
  (forall nd i x, w_nodes w !! a = Some nd -> n_op nd = OUT -> (kval I w' a i x <-> kval I w b i x)).
Proof. intros F h w a b w' r R S Ok V I. exact (connect_kval F I w a b w' r S (run_WF F _ _ _ R init_WF) Ok). Qed.
Example C51_case : exists w w' r, run noflt0 init_world [KNew; CType (TFixed false 8 0); CInput 0 false "x" 0; COutput 0 false "o" 0] = Ok w /\
  step noflt0 w (CConnect 2 1) = Ok (w', r) /\ ok_call w (CConnect 2 1) /\ kval sumI w 1%nat 4 4 /\ kval sumI w' 2%nat 4 4 /\ (forall x, ~ kval sumI w 2%nat 4 x).
Proof.
  destruct (run noflt0 init_world _) as [w| | |] eqn:E; vm_compute in E; try discriminate E.
  assert (R : run noflt0 init_world [KNew; CType (TFixed false 8 0); CInput 0 false "x" 0; COutput 0 false "o" 0] = Ok w) by (rewrite <- E; vm_compute; reflexivity).
  injection E as E. destruct (step noflt0 w (CConnect 2 1)) as [[w' r]| | |] eqn:S; pose proof S as S'; rewrite <- E in S'; vm_compute in S'; try discriminate S'.
  assert (OK : ok_call w (CConnect 2 1)). { rewrite <- E. split; [discriminate|]. split; [reflexivity|]. split; [reflexivity|]. eexists. split; [reflexivity|]. left. reflexivity. }
  assert (K : kval sumI w 1%nat 4 4). { rewrite <- E. match goal with |- kval _ ?w _ _ _ => exact (kv_stream sumI w 1%nat (mkNode IN 0 VStream "x" 0 [] []) 4 eq_refl eq_refl eq_refl ltac:(discriminate)) end. }
  exists w, w', r. split; [reflexivity|]. split; [exact S|]. split; [exact OK|]. split; [exact K|].
  destruct (C51_connect _ _ _ _ _ _ _ R S OK Z sumI) as [_ X]. split.
  - eapply X; [rewrite <- E; reflexivity|reflexivity|exact K].
  - intros x Kx. destruct OK as (_ & Op & _). assert (N : w_nodes w !! 2%nat = Some (mkNode OUT 0 VStream "o" 0 [] [])) by (rewrite <- E; reflexivity). clear -Kx Op N.
    inversion Kx; subst; rewrite N in *; match goal with H : Some _ = Some ?nd |- _ => injection H as <- end; cbn in *; try discriminate; try contradiction; congruence.
Qed.

(** one report for all theorems of this file *)
Definition PropertiesRtl_theorems :=
  (C50_asap,
   C50_linear,
   C50_pipelined,
   C50_default,
   C50_runs,
   C08_value,
   C08_circuit,
   C08_reversed_dfcir,
   C09_split_join,
   C09_join_split,
   C09_circuit,
   C09_wide,
   C50_actual,
   C50_readings,
   C37_partial,
   C37_signed_left,
   C37_refuted,
   C37_simulator,
   C45_ports,
   C45_wide,
   C45_library,
   C45_partial,
   C45_refuted,
   C51_calls,
   C51_connect).
Print Assumptions PropertiesRtl_theorems.
