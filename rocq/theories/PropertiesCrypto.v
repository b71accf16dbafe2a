(** * Property theorems: the kernels of the standard library (C40-C43). *)
From Coq Require Import ZArith Bool String Lia.
From stdpp Require Import gmap list.
From Verif Require Import Types Word Value OpSpec Graph GraphSpec TypesProofs BuilderProofs BuilderProofs2 BuilderTopo GraphFacts StreamSpec Dfcir DfcirBuild
     Verilog Stubs StubsSpec Naming Firrtl Lower RtlSpec KernelSpec KernelValues KernelSort KernelFlow TopSort Sched SchedSpec Linear LinearSpec Pipeline PipelineSpec Instance InstanceSpec InstanceLoop InstanceMain InstanceStep InstanceFlow InstanceFacts LifeProofs ProgTyping SliceFacts
     CryptoSpec GaloisFacts GaloisField KuzFacts Prog ProgFrame ProgRules ProgCalls ProgMux ProgPorts ProgInstance StdKernels ProgLib GaloisKernel KuzKernel KuzCipher MagmaKernel PropertiesSched PropertiesLinear PropertiesPipeline PropertiesRtl Verify VerifySpec PropertiesVerify StdSpec ProgTop.
Local Open Scope string_scope.
Local Open Scope Z_scope.

(** ** From a kernel without sub-kernels to the circuit *)
Definition widths (ins : list (string * Z)) : Prop := forall s V, (s, V) ∈ ins -> 0 < V < 65536.
Definition all_fed (e : env) (ins : list (string * Z)) : Prop := forall s V, (s, V) ∈ ins -> exists x, fed e s V x.
Lemma displayed e w (Q : program) h F ins o W out {A} (p : prog A) delay y : stands F p ins o W h w out -> 0 < W < 65536 -> widths ins -> all_fed e ins -> yields e w out W y ->
  (env_for w e -> exists sig, rtl Q e sig) -> shows w Q delay -> displays e Q out (delay out) y.
Proof.
  intros ST HW HV FD Y RUN SH. assert (TB : forall V, total_bits (uint V) = V mod 2 ^ 16) by (intro V; cbn; unfold u16; f_equal; lia).
  split.
  - apply RUN. intros n nd t Hn Ho Ht. destruct (sd_ins _ _ _ _ _ _ _ _ ST n nd Hn Ho) as (Ev & V & HI & HT). rewrite Ht in HT. injection HT as ->. rewrite Ev. intros i Hi.
    destruct (FD _ _ HI) as (x & FX). destruct (FX i Hi) as (E & R). rewrite E. split; [reflexivity|]. cbn [snd]. unfold word.
    pose proof (HV _ _ HI). rewrite TB, Z.mod_small by lia. exact R.
  - intros sig RT i Hi. destruct (sd_out _ _ _ _ _ _ _ _ ST) as (nd & Hn & Ho & _ & HT). destruct (Y i Hi) as (R & t & S1 & S2 & KV).
    rewrite (SH e sig RT out nd (uint W) i (t, y i) Hn Ho HT Hi KV). unfold h_num. cbn [fst snd]. unfold num. rewrite S1. cbn [andb]. rewrite TB, (Z.mod_small W) by lia. apply Z.mod_small. exact R.
Qed.
Lemma tidy_compiles F {A} (p : prog A) ins o W h w out (meets : env -> (Z -> Z) -> Prop) : computes F p ins o W meets h w out -> st F true h w -> tidy w -> 0 < W < 65536 -> widths ins ->
  (forall e y, meets e y -> all_fed e ins) -> compiles F h w out meets.
Proof.
  intros [ST CO] S TD HW HV FD. split.
  { destruct (sd_built _ _ _ _ _ _ _ _ ST) as (k & SB). exists k. intros hash PH. destruct (SB hash PH) as (order & ES & B). pose proof B as (kern & R & D & K & C & SO). destruct (kernel_translates F h w order R D K C SO) as (P & EB & _). exists order, P. auto. }
  split.
  { intros Q (order & P & B & EB & SC). destruct (tidy_acceptable w TD) as [AC OP]. destruct (C54_partial F h w order P B EB OP) as (V1 & V2 & V3 & _).
    destruct SC as [(rnd & eps & perm & E)|[(cfg & perm & L & _ & E)|[(solve & cfg & perm & L & _ & _ & E)|(rnd & eps & n & perm & _ & _ & E)]]].
    - apply (V3 _ _ _ _ _ E), AC.
    - apply (V1 _ _ _ _ E), AC.
    - apply (V2 _ _ _ _ _ E), AC.
    - apply (V3 _ _ _ _ _ E), AC. }
  intros order P B EB.
  pose proof (st_good F h w S) as GT. pose proof (st_WF F true h w S) as WFw. pose proof (tidy_schedulable w WFw TD) as Sc. pose proof (tidy_combinational w WFw TD) as Cb. pose proof (fun lat => tidy_realizable w lat TD) as RZ.
  assert (GO : forall Q delay, (forall e, env_for w e -> exists sig, rtl Q e sig) -> shows w Q delay -> forall e y, meets e y -> displays e Q out (delay out) y).
  { intros Q delay RUN SH e y M. exact (displayed e w Q h F ins o W out p delay y ST HW HV (FD e y M) (CO e y M) (RUN e) SH). }
  destruct (sd_out _ _ _ _ _ _ _ _ ST) as (nd & Hn & Ho & _).
  split.
  { split.
    - intros cfg perm m PM LC M1 FIT.
      assert (BD : bounded cfg P m 0).
      { constructor; [exact LC|exact M1| |lia|lia]. intros v d k t l a HD. exfalso. destruct (offset_node F h w order P B EB _ _ _ _ _ _ HD) as (nv & Hv & Ov). destruct (TD v nv Hv) as (_ & _ & X & _). exact (X _ Ov). }
      split.
      + destruct (C19_kernels_qualify F h w order P B Sc EB) as (A1 & A2 & A3). exact (C19_pass_completes cfg perm P m 0 A1 A2 A3 BD PM).
      + intros solve TS. destruct (C24_completes F h w order solve cfg perm P m 0 B Sc EB TS BD PM) as (Q & E). eauto.
    - intros rnd eps n perm RD EP PM N LN. exact (C47_partial F h w order rnd eps n perm P B Cb EB RD EP PM N LN). }
  split; [|split; [|split]].
  - intros rnd eps perm. destruct (C29_zero_stages F h w order rnd eps perm P B Cb EB) as [E _]. exists P. split; [exact E|].
    apply (GO P (fun _ => 0)); [|exact (C50_default F h w order rnd eps perm P P B GT Cb (RZ _) EB E)].
    apply (C50_runs F h w order P P B GT EB). right. right. exists rnd, eps, 0, perm. auto.
  - intros cfg perm Q L PM E. destruct (C50_asap F h w order cfg perm P Q L B GT Sc (RZ _) EB PM E) as (dl & DL & SH). exists (dl out). split; [exact (DL out nd Hn Ho)|].
    apply (GO Q dl); [|exact SH]. apply (C50_runs F h w order P Q B GT EB). left. exists cfg, perm, L. auto.
  - intros solve cfg perm Q L TS PM E. destruct (C50_linear F h w order solve cfg perm P Q L B GT Sc (RZ _) EB TS PM E) as (dl & DL & SH). exists (dl out). split; [exact (DL out)|].
    apply (GO Q dl); [|exact SH]. apply (C50_runs F h w order P Q B GT EB). right. left. exists solve, cfg, perm, L. auto.
  - intros rnd eps n perm Q PM Hn0 E. destruct (C50_pipelined F h w order rnd eps n perm P Q B GT Cb (RZ _) EB PM Hn0 E) as (dl & DL & SH). exists (dl out). split; [exact (DL out)|].
    apply (GO Q dl); [|exact SH]. apply (C50_runs F h w order P Q B GT EB). right. right. exists rnd, eps, n, perm. auto.
Qed.
Lemma fed_carries e s W x : 0 < W < 65536 -> fed e s W x -> carries e s W x.
Proof. intros HW H. exists (fun _ => uint W). intros i Hi. destruct (H i Hi) as [A B]. split; [exact A|]. split; [left; reflexivity|exact B]. Qed.
Lemma starts_mk w k : starts w k -> mk w k.
Proof. intros (A & B & _). split; [rewrite B; eauto|exact A]. Qed.
Lemma starts_topk w k : starts w k -> topk w k.
Proof. intros (A & B & C & _). split; [exact B|]. split; [exact A|]. rewrite C. discriminate. Qed.
Lemma starts_names w k : starts w k -> names w k = [].
Proof. intros (_ & _ & _ & D & _). exact D. Qed.
(** all streams constantly zero *)
Definition quiet (W1 W2 : Z) (s1 : string) : env := {| e_stream := fun s _ => if String.eqb s s1 then (uint W1, 0) else (uint W2, 0); e_scalar := fun _ => (uint 1, 0) |}.
Lemma quiet_1 W1 W2 s1 : 0 < W1 -> fed (quiet W1 W2 s1) s1 W1 (fun _ => 0).
Proof. intros HW i Hi. cbn. rewrite String.eqb_refl. split; [reflexivity|]. split; [lia|]. apply Z.pow_pos_nonneg; lia. Qed.
Lemma quiet_2 W1 W2 s1 s2 : 0 < W2 -> s2 <> s1 -> fed (quiet W1 W2 s1) s2 W2 (fun _ => 0).
Proof. intros HW NE i Hi. cbn. apply String.eqb_neq in NE. rewrite NE. split; [reflexivity|]. split; [lia|]. apply Z.pow_pos_nonneg; lia. Qed.
Lemma quiet_exec W1 W2 s1 s2 : 0 < W1 -> 0 < W2 -> s2 <> s1 -> exists e, fed e s1 W1 (fun _ => 0) /\ fed e s2 W2 (fun _ => 0).
Proof. intros A B C. exists (quiet W1 W2 s1). split; [exact (quiet_1 W1 W2 s1 A)|exact (quiet_2 W1 W2 s1 s2 B C)]. Qed.
Lemma two_inputs s1 W1 s2 W2 : 0 < W1 < 65536 -> 0 < W2 < 65536 -> widths [(s1, W1); (s2, W2)].
Proof. intros A B s V H. apply elem_of_cons in H as [H|H]; [injection H as -> ->; exact A|]. apply elem_of_list_singleton in H. injection H as -> ->. exact B. Qed.
Lemma two_fed e s1 W1 s2 W2 x y : fed e s1 W1 x -> fed e s2 W2 y -> all_fed e [(s1, W1); (s2, W2)].
Proof. intros A B s V H. apply elem_of_cons in H as [H|H]; [injection H as -> ->; eauto|]. apply elem_of_list_singleton in H. injection H as -> ->. eauto. Qed.

(** a kernel with two inputs whose output at a position is a function of the inputs there *)
Section Two.
Variable F : fltops.
Variables (A : Type) (body : nat -> prog A) (s1 : string) (W1 : Z) (s2 : string) (W2 : Z) (so : string) (W : Z) (f : Z -> Z -> Z).
Hypothesis (H1 : 0 < W1 < 65536) (H2 : 0 < W2 < 65536) (HW : 0 < W < 65536) (NE : s2 <> s1).
Definition expect2 (e : env) (y : Z -> Z) : Prop := exists a b, fed e s1 W1 a /\ fed e s2 W2 b /\ forall i, 0 <= i -> y i = f (a i) (b i).
Lemma two_computes (T : bool) : (forall e a b, fed e s1 W1 a -> fed e s2 W2 b -> body_rule F T body [s1; s2] [W1; W2] so e W (fun i => f (a i) (b i))) ->
  exists h w out, computes F (kernel body) [(s1, W1); (s2, W2)] so W expect2 h w out /\ (T = true -> compiles F h w out expect2).
Proof.
  intro BR. destruct (quiet_exec W1 W2 s1 s2 ltac:(lia) ltac:(lia) NE) as (e0 & Q1 & Q2).
  destruct (kernel_computes F T body [s1; s2] [W1; W2] so W ((Z -> Z) * (Z -> Z)) (fun e ab => fed e s1 W1 (fst ab) /\ fed e s2 W2 (snd ab)) (fun ab i => f (fst ab i) (snd ab i)) e0 (fun _ => 0, fun _ => 0) eq_refl (conj Q1 Q2)) as (h & w & out & ST & S & TD & Y).
  { intros e [a b] [FA FB]. exact (BR e a b FA FB). }
  exists h, w, out. assert (CO : computes F (kernel body) [(s1, W1); (s2, W2)] so W expect2 h w out).
  { split; [exact ST|]. intros e y (a & b & FA & FB & E) i Hi. destruct (Y e (a, b) (conj FA FB) i Hi) as (R & t & S1 & S2 & KV). rewrite (E i Hi). split; [exact R|]. exists t. auto. }
  split; [exact CO|]. intros ->. apply (tidy_compiles F (kernel body) [(s1, W1); (s2, W2)] so W h w out expect2 CO S (TD eq_refl) HW (two_inputs s1 W1 s2 W2 H1 H2)). intros e y (a & b & FA & FB & _). exact (two_fed e s1 W1 s2 W2 a b FA FB).
Qed.
End Two.
Lemma computes_mono F {A} (p : prog A) ins o W (m m' : env -> (Z -> Z) -> Prop) h w out : (forall e y, m' e y -> m e y) -> computes F p ins o W m h w out -> computes F p ins o W m' h w out.
Proof. intros I [S C]. split; [exact S|]. intros e y M. exact (C e y (I e y M)). Qed.
Lemma compiles_mono F h w out (m m' : env -> (Z -> Z) -> Prop) : (forall e y, m' e y -> m e y) -> compiles F h w out m -> compiles F h w out m'.
Proof.
  intros I (EX & VE & X0). split; [exact EX|]. split; [exact VE|]. intros order P B E. destruct (X0 order P B E) as (SC & D & AS & LI & PI). split; [exact SC|]. split; [|split; [|split]].
  - intros rnd eps perm. destruct (D rnd eps perm) as (Q & HQ & X). exists Q. split; [exact HQ|]. intros e y M. exact (X e y (I e y M)).
  - intros cfg perm Q L PM A. destruct (AS cfg perm Q L PM A) as (d & Hd & X). exists d. split; [exact Hd|]. intros e y M. exact (X e y (I e y M)).
  - intros solve cfg perm Q L TS PM A. destruct (LI solve cfg perm Q L TS PM A) as (d & Hd & X). exists d. split; [exact Hd|]. intros e y M. exact (X e y (I e y M)).
  - intros rnd eps n perm Q PM Hn A. destruct (PI rnd eps n perm Q PM Hn A) as (d & Hd & X). exists d. split; [exact Hd|]. intros e y M. exact (X e y (I e y M)).
Qed.

(** whatever the scheduler, the circuit shows what is expected after some fixed delay *)
Lemma compiles_scheduled F h w out (m : env -> (Z -> Z) -> Prop) Q : compiles F h w out m -> scheduled F h w Q -> exists d, 0 <= d /\ forall e y, m e y -> displays e Q out d y.
Proof.
  intros (_ & _ & X) (order & P & B & E & S). destruct (X order P B E) as (_ & D & AS & LI & PI). destruct S as [(rnd & eps & perm & H)|[(cfg & perm & L & PM & H)|[(solve & cfg & perm & L & TS & PM & H)|(rnd & eps & n & perm & PM & Hn & H)]]].
  - destruct (D rnd eps perm) as (Q' & H' & Y). rewrite H in H'. injection H' as <-. exists 0. split; [lia|exact Y].
  - destruct (AS cfg perm Q L PM H) as (d & Hd & Y). exists d. split; [lia|exact Y].
  - destruct (LI solve cfg perm Q L TS PM H) as (d & Hd & Y). exists d. split; [lia|exact Y].
  - destruct (PI rnd eps n perm Q PM Hn H) as (d & Hd & Y). exists d. split; [lia|exact Y].
Qed.

(** ** C40: Galois8Mul *)
Definition product_of (e : env) (y : Z -> Z) : Prop :=
  exists a b, fed e "left" 8 a /\ fed e "right" 8 b /\ forall i, 0 <= i -> gf_product (a i) (b i) (y i).
Theorem C40_kernel :
  forall F, exists h w out, computes F (kernel Galois8Mul) [("left", 8); ("right", 8)] "result" 8 product_of h w out /\ compiles F h w out product_of.
Proof.
  intro F. destruct (two_computes F unit Galois8Mul "left" 8 "right" 8 "result" 8 gf_mul ltac:(lia) ltac:(lia) ltac:(lia) ltac:(discriminate) true) as (h & w & out & C & K).
  { intros e a b FA FB k h w S ST. eapply wp_conseq; [exact (rule_galois F e true h w k a b S (proj1 ST) (proj1 (starts_mk _ _ ST)) (starts_names _ _ ST) (fed_carries e "left" 8 a ltac:(lia) FA) (fed_carries e "right" 8 b ltac:(lia) FB))|].
    cbn beta. intros w2 _ (ports & out & d & CH & _). exists ports, out, d. exact CH. }
  assert (I : forall e y, product_of e y -> expect2 "left" 8 "right" 8 gf_mul e y).
  { intros e y (a & b & FA & FB & E). exists a, b. split; [exact FA|]. split; [exact FB|]. intros i Hi. destruct (FA i Hi) as [_ RA]. destruct (FB i Hi) as [_ RB]. exact (gf_product_unique _ _ _ _ (E i Hi) (gf_mul_product _ _ RA RB)). }
  exists h, w, out. split; [exact (computes_mono F _ _ _ _ _ _ h w out I C)|exact (compiles_mono F h w out _ _ I (K eq_refl))].
Qed.
(** for all bytes there is exactly one product *)
Theorem C40_product : forall a b, 0 <= a < 256 -> 0 <= b < 256 -> exists r, gf_product a b r /\ forall r', gf_product a b r' -> r' = r.
Proof. intros a b Ha Hb. exists (gf_mul a b). pose proof (gf_mul_product a b Ha Hb) as H. split; [exact H|]. intros r' H'. exact (gf_product_unique _ _ _ _ H' H). Qed.
(** bytes with [Z.lxor] and this product are a field *)
Theorem C40_field :
  (forall a b r, 0 <= a < 256 -> 0 <= b < 256 -> gf_product a b r -> gf_product b a r) /\
  (forall a b c ab bc r, 0 <= a < 256 -> 0 <= b < 256 -> 0 <= c < 256 -> gf_product a b ab -> gf_product b c bc -> gf_product ab c r -> gf_product a bc r) /\
  (forall a b c ab ac, 0 <= a < 256 -> 0 <= b < 256 -> 0 <= c < 256 -> gf_product a b ab -> gf_product a c ac -> gf_product a (Z.lxor b c) (Z.lxor ab ac)) /\
  (forall a, 0 <= a < 256 -> gf_product a 1 a /\ gf_product a 0 0 /\ Z.lxor a 0 = a /\ Z.lxor a a = 0) /\
  (forall a, 0 < a < 256 -> exists b, 0 < b < 256 /\ gf_product a b 1).
Proof.
  assert (U : forall a b r, 0 <= a < 256 -> 0 <= b < 256 -> gf_product a b r -> r = gf_mul a b) by (intros a b r Ha Hb H; exact (gf_product_unique _ _ _ _ H (gf_mul_product a b Ha Hb))).
  split; [|split; [|split; [|split]]].
  - intros a b r Ha Hb H. apply (U a b r Ha Hb) in H. subst r. rewrite (gf_comm a b Ha Hb). apply gf_mul_product; assumption.
  - intros a b c ab bc r Ha Hb Hc H1 H2 H3. apply (U a b ab Ha Hb) in H1. apply (U b c bc Hb Hc) in H2. subst ab bc. apply (U _ c r (gf_mul_byte a b Ha Hb) Hc) in H3. subst r. rewrite (gf_assoc a b c Ha Hb Hc). apply gf_mul_product; [exact Ha|exact (gf_mul_byte b c Hb Hc)].
  - intros a b c ab ac Ha Hb Hc H1 H2. apply (U a b ab Ha Hb) in H1. apply (U a c ac Ha Hc) in H2. subst ab ac. rewrite <- (gf_distr a b c Ha Hb Hc). apply gf_mul_product; [exact Ha|exact (lxor_lt 8 b c ltac:(lia) Hb Hc)].
  - intros a Ha. split; [|split; [|split]].
    + split; [exact Ha|]. exists 0. split; [lia|]. reflexivity.
    + split; [lia|]. exists 0. split; [lia|]. reflexivity.
    + apply Z.lxor_0_r.
    + apply Z.lxor_nilpotent.
  - intros a Ha. destruct (gf_inverse a Ha) as (b & Hb & E). assert (b <> 0) by (intros ->; rewrite (gf_comm a 0 ltac:(lia) ltac:(lia)) in E; unfold gf_mul in E; rewrite clmul_0_l in E; discriminate E).
    exists b. split; [lia|]. rewrite <- E. apply gf_mul_product; lia.
Qed.

(** a kernel with one input *)
Section One.
Variable F : fltops.
Variables (A : Type) (body : nat -> prog A) (s1 : string) (W1 : Z) (so : string) (W : Z) (f : Z -> Z).
Hypothesis (H1 : 0 < W1 < 65536) (HW : 0 < W < 65536).
Definition expect1 (e : env) (y : Z -> Z) : Prop := exists a, fed e s1 W1 a /\ forall i, 0 <= i -> y i = f (a i).
Lemma one_computes (T : bool) : (forall e a, fed e s1 W1 a -> body_rule F T body [s1] [W1] so e W (fun i => f (a i))) ->
  exists h w out, computes F (kernel body) [(s1, W1)] so W expect1 h w out /\ (T = true -> compiles F h w out expect1).
Proof.
  intro BR. assert (Q1 : fed (quiet W1 W1 s1) s1 W1 (fun _ => 0)) by (apply quiet_1; lia).
  destruct (kernel_computes F T body [s1] [W1] so W (Z -> Z) (fun e a => fed e s1 W1 a) (fun a i => f (a i)) (quiet W1 W1 s1) (fun _ => 0) eq_refl Q1) as (h & w & out & ST & S & TD & Y).
  { intros e a FA. exact (BR e a FA). }
  exists h, w, out. assert (CO : computes F (kernel body) [(s1, W1)] so W expect1 h w out).
  { split; [exact ST|]. intros e y (a & FA & E) i Hi. destruct (Y e a FA i Hi) as (R & t & S1 & S2 & KV). rewrite (E i Hi). split; [exact R|]. exists t. auto. }
  split; [exact CO|]. intros ->. apply (tidy_compiles F (kernel body) [(s1, W1)] so W h w out expect1 CO S (TD eq_refl) HW).
  - intros s V H. apply elem_of_list_singleton in H. injection H as -> ->. exact H1.
  - intros e y (a & FA & _) s V H. apply elem_of_list_singleton in H. injection H as -> ->. eauto.
Qed.
End One.

(** ** C41: multiplication by the coefficients of Kuznechik *)
Definition multiple_of (c : Z) (e : env) (y : Z -> Z) : Prop := exists x, fed e "in" 8 x /\ forall i, 0 <= i -> gf_product c (x i) (y i).
Definition is_coefficient (c : Z) : Prop := c ∈ [148; 32; 133; 16; 194; 192; 1; 251].
Lemma coefficient_cases c : is_coefficient c -> 0 <= c < 256 /\ (c = 1 \/ coefficient c).
Proof.
  intro H. unfold is_coefficient in H. repeat (apply elem_of_cons in H; destruct H as [->|H]; [split; [lia|first [left; reflexivity|right; unfold coefficient; repeat (first [apply elem_of_list_here|apply elem_of_list_further])]]|]). inversion H.
Qed.
Theorem C41_table :
  forall F c, is_coefficient c -> exists h w out,
    computes F (kernel (KuznechikGalois8Mul c)) [("in", 8)] "out" 8 (multiple_of c) h w out /\ compiles F h w out (multiple_of c).
Proof.
  intros F c HC. destruct (coefficient_cases c HC) as [RC CC]. destruct (one_computes F unit (KuznechikGalois8Mul c) "in" 8 "out" 8 (gf_mul c) ltac:(lia) ltac:(lia) true) as (h & w & out & C & K).
  { intros e a FA k h w S ST. eapply wp_conseq; [exact (rule_kgalois F e true h w k c a S (proj1 ST) (proj1 (starts_mk _ _ ST)) (starts_names _ _ ST) (fed_carries e "in" 8 a ltac:(lia) FA) CC)|].
    cbn beta. intros w2 _ (ports & out & d & CH). exists ports, out, d. exact CH. }
  assert (I : forall e y, multiple_of c e y -> expect1 "in" 8 (gf_mul c) e y).
  { intros e y (x & FX & E). exists x. split; [exact FX|]. intros i Hi. destruct (FX i Hi) as [_ RX]. exact (gf_product_unique _ _ _ _ (E i Hi) (gf_mul_product _ _ RC RX)). }
  exists h, w, out. split; [exact (computes_mono F _ _ _ _ _ _ h w out I C)|exact (compiles_mono F h w out _ _ I (K eq_refl))].
Qed.
(** the two kernels deliver the same stream *)
Lemma yields_unique e w n W y y' : yields e w n W y -> yields e w n W y' -> forall i, 0 <= i -> y i = y' i.
Proof. intros A B i Hi. destruct (A i Hi) as (_ & t & _ & _ & K). destruct (B i Hi) as (_ & t' & _ & _ & K'). pose proof (kval_det _ _ _ _ _ K _ K') as E. injection E as _ E. exact E. Qed.
Theorem C41_agree :
  forall F c, is_coefficient c -> exists h1 w1 o1 h2 w2 o2,
  stands F (kernel Galois8Mul) [("left", 8); ("right", 8)] "result" 8 h1 w1 o1 /\ stands F (kernel (KuznechikGalois8Mul c)) [("in", 8)] "out" 8 h2 w2 o2 /\
  forall e1 e2 x y, fed e1 "left" 8 (fun _ => c) -> fed e1 "right" 8 x -> fed e2 "in" 8 x -> yields e1 w1 o1 8 y <-> yields e2 w2 o2 8 y.
Proof.
  intros F c HC. destruct (coefficient_cases c HC) as [RC _]. destruct (C40_kernel F) as (h1 & w1 & o1 & (S1 & Y1) & _). destruct (C41_table F c HC) as (h2 & w2 & o2 & (S2 & Y2) & _).
  exists h1, w1, o1, h2, w2, o2. split; [exact S1|]. split; [exact S2|]. intros e1 e2 x y FC FX FX2.
  assert (Z1 : yields e1 w1 o1 8 (fun i => gf_mul c (x i))).
  { apply Y1. exists (fun _ => c), x. split; [exact FC|]. split; [exact FX|]. intros i Hi. apply gf_mul_product; [exact RC|exact (proj2 (FX i Hi))]. }
  assert (Z2 : yields e2 w2 o2 8 (fun i => gf_mul c (x i))).
  { apply Y2. exists x. split; [exact FX2|]. intros i Hi. apply gf_mul_product; [exact RC|exact (proj2 (FX i Hi))]. }
  split; intros H i Hi.
  - rewrite (yields_unique _ _ _ _ _ _ H Z1 i Hi). exact (Z2 i Hi).
  - rewrite (yields_unique _ _ _ _ _ _ H Z2 i Hi). exact (Z1 i Hi).
Qed.

(** ** C42: Magma *)
Definition magma_encoded (e : env) (y : Z -> Z) : Prop := exists key x, fed e "key" 256 key /\ fed e "block" 64 x /\ forall i, 0 <= i -> y i = magma_encrypt (key i) (x i).
Definition magma_decoded (e : env) (y : Z -> Z) : Prop := exists key x, fed e "key" 256 key /\ fed e "encoded" 64 x /\ forall i, 0 <= i -> y i = magma_decrypt (key i) (x i).
Lemma magma_works F from to order (f : Z -> Z -> Z) : from <> EmptyString /\ from <> "left" -> to <> EmptyString -> from <> "key" -> to <> from -> to <> "key" -> Forall (fun j => (j < 8)%nat) order -> order <> [] ->
  (forall x key, magma_crypt (map (magma_word key) order) x = f x key) ->
  exists h w out, computes F (kernel (fun k => magma_body k from to order)) [(from, 64); ("key", 256)] to 64 (expect2 from 64 "key" 256 f) h w out /\ compiles F h w out (expect2 from 64 "key" 256 f).
Proof.
  intros N1 N2 N3 N4 N5 OK ON EQ. destruct (two_computes F nat (fun k => magma_body k from to order) from 64 "key" 256 to 64 f ltac:(lia) ltac:(lia) ltac:(lia) (not_eq_sym N3) true) as (h & w & out & C & K).
  { intros e x key FX FK k h w S ST. eapply wp_conseq; [exact (rule_magma F e true from to order h w k key x S (starts_mk _ _ ST) (starts_names _ _ ST) (fed_carries e "key" 256 key ltac:(lia) FK) (fed_carries e from 64 x ltac:(lia) FX) N1 N2 N3 N4 N5 OK ON)|].
    cbn beta. intros w2 r (ports & d & CH). exists ports, r, d. destruct CH as [C1 C2 C3 C4 C5 C6 C7 C8 C9 C10 C11]. constructor; auto. eapply holds_ext; [|exact C11]. intros i _. cbn beta. exact (EQ (x i) (key i)). }
  exists h, w, out. split; [exact C|exact (K eq_refl)].
Qed.

Lemma magma_order l : l = seq 0 8 \/ l = rev (seq 0 8) -> Forall (fun j => (j < 8)%nat) l.
Proof. intros [-> | ->]; cbn [seq rev app]; repeat (constructor; [lia|]); constructor. Qed.
Theorem C42_encoder :
  forall F, exists h w out, computes F (kernel MagmaEncoder) [("block", 64); ("key", 256)] "encoded" 64 magma_encoded h w out /\ compiles F h w out magma_encoded.
Proof.
  intro F. destruct (magma_works F "block" "encoded" (seq 0 8 ++ seq 0 8 ++ seq 0 8 ++ rev (seq 0 8)) (fun x key => magma_encrypt key x)) as (h & w & out & C & K); try discriminate.
  { split; discriminate. }
  { rewrite !Forall_app. pose proof (magma_order _ (or_introl eq_refl)). pose proof (magma_order _ (or_intror eq_refl)). auto. }
  { intros x key. unfold magma_encrypt. rewrite encrypt_order. reflexivity. }
  assert (I : forall e y, magma_encoded e y -> expect2 "block" 64 "key" 256 (fun x key => magma_encrypt key x) e y) by (intros e y (key & x & FK & FX & E); exists x, key; split; [exact FX|split; [exact FK|exact E]]).
  exists h, w, out. split; [exact (computes_mono F _ _ _ _ _ _ h w out I C)|exact (compiles_mono F h w out _ _ I K)].
Qed.
Theorem C42_decoder :
  forall F, exists h w out, computes F (kernel MagmaDecoder) [("encoded", 64); ("key", 256)] "block" 64 magma_decoded h w out /\ compiles F h w out magma_decoded.
Proof.
  intro F. destruct (magma_works F "encoded" "block" (seq 0 8 ++ rev (seq 0 8) ++ rev (seq 0 8) ++ rev (seq 0 8)) (fun x key => magma_decrypt key x)) as (h & w & out & C & K); try discriminate.
  { split; discriminate. }
  { rewrite !Forall_app. pose proof (magma_order _ (or_introl eq_refl)). pose proof (magma_order _ (or_intror eq_refl)). auto. }
  { intros x key. unfold magma_decrypt. rewrite decrypt_order. reflexivity. }
  assert (I : forall e y, magma_decoded e y -> expect2 "encoded" 64 "key" 256 (fun x key => magma_decrypt key x) e y) by (intros e y (key & x & FK & FX & E); exists x, key; split; [exact FX|split; [exact FK|exact E]]).
  exists h, w, out. split; [exact (computes_mono F _ _ _ _ _ _ h w out I C)|exact (compiles_mono F h w out _ _ I K)].
Qed.

(** what one kernel delivers is applied to the other: the streams come back *)
Theorem C42_roundtrip :
  forall F, exists he we oe hd wd od,
  stands F (kernel MagmaEncoder) [("block", 64); ("key", 256)] "encoded" 64 he we oe /\ stands F (kernel MagmaDecoder) [("encoded", 64); ("key", 256)] "block" 64 hd wd od /\
  (forall e1 e2 key x y, fed e1 "key" 256 key -> fed e1 "block" 64 x -> yields e1 we oe 64 y -> fed e2 "key" 256 key -> fed e2 "encoded" 64 y -> yields e2 wd od 64 x) /\
  (forall e1 e2 key x y, fed e1 "key" 256 key -> fed e1 "encoded" 64 x -> yields e1 wd od 64 y -> fed e2 "key" 256 key -> fed e2 "block" 64 y -> yields e2 we oe 64 x).
Proof.
  intro F. destruct (C42_encoder F) as (he & we & oe & (SE & YE) & _). destruct (C42_decoder F) as (hd & wd & od & (SD & YD) & _). exists he, we, oe, hd, wd, od. split; [exact SE|]. split; [exact SD|]. split; intros e1 e2 key x y FK FX Y FK2 FY.
  - apply YD. exists key, y. split; [exact FK2|]. split; [exact FY|]. intros i Hi.
    rewrite (yields_unique _ _ _ _ _ _ Y (YE e1 (fun i => magma_encrypt (key i) (x i)) (ex_intro _ key (ex_intro _ x (conj FK (conj FX (fun i _ => eq_refl)))))) i Hi). symmetry. exact (magma_decrypt_encrypt (key i) (x i) (proj2 (FX i Hi))).
  - apply YE. exists key, y. split; [exact FK2|]. split; [exact FY|]. intros i Hi.
    rewrite (yields_unique _ _ _ _ _ _ Y (YD e1 (fun i => magma_decrypt (key i) (x i)) (ex_intro _ key (ex_intro _ x (conj FK (conj FX (fun i _ => eq_refl)))))) i Hi). symmetry. exact (magma_encrypt_decrypt (key i) (x i) (proj2 (FX i Hi))).
Qed.
(** the same for the circuits, whatever scheduler each was made with: the output of the
    one, from the cycle [d1] on, is applied to the other *)
Theorem C42_circuits :
  forall F, exists he we oe hd wd od,
  stands F (kernel MagmaEncoder) [("block", 64); ("key", 256)] "encoded" 64 he we oe /\ stands F (kernel MagmaDecoder) [("encoded", 64); ("key", 256)] "block" 64 hd wd od /\
  forall Q1 Q2, scheduled F he we Q1 -> scheduled F hd wd Q2 -> exists d1 d2, 0 <= d1 /\ 0 <= d2 /\
  (forall e1 e2 sig1 key x, rtl Q1 e1 sig1 -> fed e1 "key" 256 key -> fed e1 "block" 64 x -> fed e2 "key" 256 key -> fed e2 "encoded" 64 (fun i => sig1 oe (i + d1)) -> displays e2 Q2 od d2 x) /\
  (forall e1 e2 sig2 key x, rtl Q2 e1 sig2 -> fed e1 "key" 256 key -> fed e1 "encoded" 64 x -> fed e2 "key" 256 key -> fed e2 "block" 64 (fun i => sig2 od (i + d2)) -> displays e2 Q1 oe d1 x).
Proof.
  intro F. destruct (C42_encoder F) as (he & we & oe & (SE & _) & CE). destruct (C42_decoder F) as (hd & wd & od & (SD & _) & CD). exists he, we, oe, hd, wd, od. split; [exact SE|]. split; [exact SD|].
  intros Q1 Q2 S1 S2. destruct (compiles_scheduled F he we oe _ Q1 CE S1) as (d1 & P1 & D1). destruct (compiles_scheduled F hd wd od _ Q2 CD S2) as (d2 & P2 & D2). exists d1, d2. split; [exact P1|]. split; [exact P2|]. split; intros e1 e2 sig key x R FK FX FK2 FY.
  - apply D2. exists key, (fun i => sig oe (i + d1)). split; [exact FK2|]. split; [exact FY|]. intros i Hi. destruct (D1 e1 (fun i => magma_encrypt (key i) (x i)) (ex_intro _ key (ex_intro _ x (conj FK (conj FX (fun i _ => eq_refl)))))) as (_ & V). cbn beta. rewrite (V sig R i Hi). symmetry. exact (magma_decrypt_encrypt (key i) (x i) (proj2 (FX i Hi))).
  - apply D1. exists key, (fun i => sig od (i + d2)). split; [exact FK2|]. split; [exact FY|]. intros i Hi. destruct (D2 e1 (fun i => magma_decrypt (key i) (x i)) (ex_intro _ key (ex_intro _ x (conj FK (conj FX (fun i _ => eq_refl)))))) as (_ & V). cbn beta. rewrite (V sig R i Hi). symmetry. exact (magma_encrypt_decrypt (key i) (x i) (proj2 (FX i Hi))).
Qed.
(** the appendix of the standard *)
Example C42_vector : magma_encrypt 0xffeeddccbbaa99887766554433221100f0f1f2f3f4f5f6f7f8f9fafbfcfdfeff 0xfedcba9876543210 = 0x4ee901e5c2d8ca3d.
Proof. vm_compute. reflexivity. Qed.

(** ** C43: Kuznechik *)
Definition kuz_encoded (e : env) (y : Z -> Z) : Prop := exists key x, fed e "key" 256 key /\ fed e "block" 128 x /\ forall i, 0 <= i -> y i = kuz_encrypt (key i) (x i).
Definition kuz_decoded (e : env) (y : Z -> Z) : Prop := exists key x, fed e "key" 256 key /\ fed e "encoded" 128 x /\ forall i, 0 <= i -> y i = kuz_decrypt (key i) (x i).
Theorem C43_encoder :
  forall F (opt : bool), exists h w out, computes F (kernel (KuznechikEncoder opt)) [("block", 128); ("key", 256)] "encoded" 128 kuz_encoded h w out /\ compiles F h w out kuz_encoded.
Proof.
  intros F opt. destruct (two_computes F nat (KuznechikEncoder opt) "block" 128 "key" 256 "encoded" 128 (fun x key => kuz_encrypt key x) ltac:(lia) ltac:(lia) ltac:(lia) ltac:(discriminate) true) as (h & w & out & C & K).
  { intros e x key FX FK k h w S ST. eapply wp_conseq; [exact (rule_encoder F true e opt h w k key x S (starts_topk _ _ ST) (starts_names _ _ ST) (fed_carries e "key" 256 key ltac:(lia) FK) (fed_carries e "block" 128 x ltac:(lia) FX))|].
    cbn beta. intros w2 r (ports & d & CH). exists ports, r, d. exact CH. }
  exists h, w, out. assert (I : forall e y, kuz_encoded e y -> expect2 "block" 128 "key" 256 (fun x key => kuz_encrypt key x) e y) by (intros e y (key & x & FK & FX & E); exists x, key; split; [exact FX|split; [exact FK|exact E]]).
  split; [exact (computes_mono F _ _ _ _ _ _ h w out I C)|exact (compiles_mono F h w out _ _ I (K eq_refl))].
Qed.
Theorem C43_decoder :
  forall F (opt : bool), exists h w out, computes F (kernel (KuznechikDecoder opt)) [("encoded", 128); ("key", 256)] "block" 128 kuz_decoded h w out /\ compiles F h w out kuz_decoded.
Proof.
  intros F opt. destruct (two_computes F nat (KuznechikDecoder opt) "encoded" 128 "key" 256 "block" 128 (fun x key => kuz_decrypt key x) ltac:(lia) ltac:(lia) ltac:(lia) ltac:(discriminate) true) as (h & w & out & C & K).
  { intros e x key FX FK k h w S ST. eapply wp_conseq; [exact (rule_decoder F true e opt h w k key x S (starts_topk _ _ ST) (starts_names _ _ ST) (fed_carries e "key" 256 key ltac:(lia) FK) (fed_carries e "encoded" 128 x ltac:(lia) FX))|].
    cbn beta. intros w2 r (ports & d & CH). exists ports, r, d. exact CH. }
  exists h, w, out. assert (I : forall e y, kuz_decoded e y -> expect2 "encoded" 128 "key" 256 (fun x key => kuz_decrypt key x) e y) by (intros e y (key & x & FK & FX & E); exists x, key; split; [exact FX|split; [exact FK|exact E]]).
  split; [exact (computes_mono F _ _ _ _ _ _ h w out I C)|exact (compiles_mono F h w out _ _ I (K eq_refl))].
Qed.

Theorem C43_roundtrip :
  forall F (opt1 opt2 : bool), exists he we oe hd wd od,
  stands F (kernel (KuznechikEncoder opt1)) [("block", 128); ("key", 256)] "encoded" 128 he we oe /\ stands F (kernel (KuznechikDecoder opt2)) [("encoded", 128); ("key", 256)] "block" 128 hd wd od /\
  (forall e1 e2 key x y, fed e1 "key" 256 key -> fed e1 "block" 128 x -> yields e1 we oe 128 y -> fed e2 "key" 256 key -> fed e2 "encoded" 128 y -> yields e2 wd od 128 x) /\
  (forall e1 e2 key x y, fed e1 "key" 256 key -> fed e1 "encoded" 128 x -> yields e1 wd od 128 y -> fed e2 "key" 256 key -> fed e2 "block" 128 y -> yields e2 we oe 128 x).
Proof.
  intros F opt1 opt2. destruct (C43_encoder F opt1) as (he & we & oe & (SE & YE) & _). destruct (C43_decoder F opt2) as (hd & wd & od & (SD & YD) & _). exists he, we, oe, hd, wd, od. split; [exact SE|]. split; [exact SD|]. split; intros e1 e2 key x y FK FX Y FK2 FY.
  - apply YD. exists key, y. split; [exact FK2|]. split; [exact FY|]. intros i Hi.
    rewrite (yields_unique _ _ _ _ _ _ Y (YE e1 (fun i => kuz_encrypt (key i) (x i)) (ex_intro _ key (ex_intro _ x (conj FK (conj FX (fun i _ => eq_refl)))))) i Hi). symmetry. exact (kuz_decrypt_encrypt (key i) (x i) (proj2 (FK i Hi)) (proj2 (FX i Hi))).
  - apply YE. exists key, y. split; [exact FK2|]. split; [exact FY|]. intros i Hi.
    rewrite (yields_unique _ _ _ _ _ _ Y (YD e1 (fun i => kuz_decrypt (key i) (x i)) (ex_intro _ key (ex_intro _ x (conj FK (conj FX (fun i _ => eq_refl)))))) i Hi). symmetry. exact (kuz_encrypt_decrypt (key i) (x i) (proj2 (FK i Hi)) (proj2 (FX i Hi))).
Qed.
(** the same for the circuits, whatever scheduler each was made with *)
Theorem C43_circuits :
  forall F (opt1 opt2 : bool), exists he we oe hd wd od,
  stands F (kernel (KuznechikEncoder opt1)) [("block", 128); ("key", 256)] "encoded" 128 he we oe /\ stands F (kernel (KuznechikDecoder opt2)) [("encoded", 128); ("key", 256)] "block" 128 hd wd od /\
  forall Q1 Q2, scheduled F he we Q1 -> scheduled F hd wd Q2 -> exists d1 d2, 0 <= d1 /\ 0 <= d2 /\
  (forall e1 e2 sig1 key x, rtl Q1 e1 sig1 -> fed e1 "key" 256 key -> fed e1 "block" 128 x -> fed e2 "key" 256 key -> fed e2 "encoded" 128 (fun i => sig1 oe (i + d1)) -> displays e2 Q2 od d2 x) /\
  (forall e1 e2 sig2 key x, rtl Q2 e1 sig2 -> fed e1 "key" 256 key -> fed e1 "encoded" 128 x -> fed e2 "key" 256 key -> fed e2 "block" 128 (fun i => sig2 od (i + d2)) -> displays e2 Q1 oe d1 x).
Proof.
  intros F opt1 opt2. destruct (C43_encoder F opt1) as (he & we & oe & (SE & _) & CE). destruct (C43_decoder F opt2) as (hd & wd & od & (SD & _) & CD). exists he, we, oe, hd, wd, od. split; [exact SE|]. split; [exact SD|].
  intros Q1 Q2 S1 S2. destruct (compiles_scheduled F he we oe _ Q1 CE S1) as (d1 & P1 & D1). destruct (compiles_scheduled F hd wd od _ Q2 CD S2) as (d2 & P2 & D2). exists d1, d2. split; [exact P1|]. split; [exact P2|]. split; intros e1 e2 sig key x R FK FX FK2 FY.
  - apply D2. exists key, (fun i => sig oe (i + d1)). split; [exact FK2|]. split; [exact FY|]. intros i Hi. destruct (D1 e1 (fun i => kuz_encrypt (key i) (x i)) (ex_intro _ key (ex_intro _ x (conj FK (conj FX (fun i _ => eq_refl)))))) as (_ & V). cbn beta. rewrite (V sig R i Hi). symmetry. exact (kuz_decrypt_encrypt (key i) (x i) (proj2 (FK i Hi)) (proj2 (FX i Hi))).
  - apply D1. exists key, (fun i => sig od (i + d2)). split; [exact FK2|]. split; [exact FY|]. intros i Hi. destruct (D2 e1 (fun i => kuz_decrypt (key i) (x i)) (ex_intro _ key (ex_intro _ x (conj FK (conj FX (fun i _ => eq_refl)))))) as (_ & V). cbn beta. rewrite (V sig R i Hi). symmetry. exact (kuz_encrypt_decrypt (key i) (x i) (proj2 (FK i Hi)) (proj2 (FX i Hi))).
Qed.
(** both ways of multiplying give the same streams *)
Theorem C43_modes :
  forall F, (exists h1 w1 o1 h2 w2 o2, stands F (kernel (KuznechikEncoder true)) [("block", 128); ("key", 256)] "encoded" 128 h1 w1 o1 /\ stands F (kernel (KuznechikEncoder false)) [("block", 128); ("key", 256)] "encoded" 128 h2 w2 o2 /\
    forall e key x y, fed e "key" 256 key -> fed e "block" 128 x -> yields e w1 o1 128 y <-> yields e w2 o2 128 y) /\
  (exists h1 w1 o1 h2 w2 o2, stands F (kernel (KuznechikDecoder true)) [("encoded", 128); ("key", 256)] "block" 128 h1 w1 o1 /\ stands F (kernel (KuznechikDecoder false)) [("encoded", 128); ("key", 256)] "block" 128 h2 w2 o2 /\
    forall e key x y, fed e "key" 256 key -> fed e "encoded" 128 x -> yields e w1 o1 128 y <-> yields e w2 o2 128 y).
Proof.
  intro F. split.
  - destruct (C43_encoder F true) as (h1 & w1 & o1 & (S1 & Y1) & _). destruct (C43_encoder F false) as (h2 & w2 & o2 & (S2 & Y2) & _). exists h1, w1, o1, h2, w2, o2. split; [exact S1|]. split; [exact S2|]. intros e key x y FK FX.
    assert (M : kuz_encoded e (fun i => kuz_encrypt (key i) (x i))) by (exists key, x; split; [exact FK|split; [exact FX|intros i _; exact eq_refl]]).
    split; intros H i Hi; [rewrite (yields_unique _ _ _ _ _ _ H (Y1 e _ M) i Hi); exact (Y2 e _ M i Hi)|rewrite (yields_unique _ _ _ _ _ _ H (Y2 e _ M) i Hi); exact (Y1 e _ M i Hi)].
  - destruct (C43_decoder F true) as (h1 & w1 & o1 & (S1 & Y1) & _). destruct (C43_decoder F false) as (h2 & w2 & o2 & (S2 & Y2) & _). exists h1, w1, o1, h2, w2, o2. split; [exact S1|]. split; [exact S2|]. intros e key x y FK FX.
    assert (M : kuz_decoded e (fun i => kuz_decrypt (key i) (x i))) by (exists key, x; split; [exact FK|split; [exact FX|intros i _; exact eq_refl]]).
    split; intros H i Hi; [rewrite (yields_unique _ _ _ _ _ _ H (Y1 e _ M) i Hi); exact (Y2 e _ M i Hi)|rewrite (yields_unique _ _ _ _ _ _ H (Y2 e _ M) i Hi); exact (Y1 e _ M i Hi)].
Qed.
(** the appendix of the standard *)
Example C43_vector : kuz_sub 0xffeeddccbbaa99881122334455667700 = 0xb66cd8887d38e8d77765aeea0c9a7efc /\ kuz_r 0x94000000000000000000000000000001 = 0xa5940000000000000000000000000000 /\ kuz_l 0x64a59400000000000000000000000000 = 0xd456584dd0e3e84cc3166e4b7fa2890d.
Proof. vm_compute. repeat apply conj; reflexivity. Qed.
(** streams to apply exist: the hypotheses on [fed] can be met *)
Example C40_case : exists e y, product_of e y /\ fed e "left" 8 (fun i => i mod 256) /\ y 3 = 15.
Proof.
  exists {| e_stream := fun s i => if String.eqb s "left" then (uint 8, i mod 256) else (uint 8, 5); e_scalar := fun _ => (uint 1, 0) |}, (fun i => gf_mul (i mod 256) 5).
  assert (B : forall i, 0 <= i mod 256 < 2 ^ 8) by (intro i; apply Z.mod_pos_bound; reflexivity).
  split; [|split; [intros i Hi; split; [reflexivity|apply B]|reflexivity]]. exists (fun i => i mod 256), (fun _ => 5).
  split; [intros i Hi; split; [reflexivity|apply B]|]. split; [intros i Hi; split; [reflexivity|lia]|]. intros i Hi. apply gf_mul_product; [apply B|lia].
Qed.

Definition PropertiesCrypto_theorems := (C40_kernel, C40_product, C40_field, C41_table, C41_agree, C42_encoder, C42_decoder, C42_roundtrip, C42_circuits, @magma_decrypt_encrypt, @magma_encrypt_decrypt,
   C43_encoder, C43_decoder, C43_roundtrip, C43_circuits, C43_modes, @kuz_decrypt_encrypt, @kuz_encrypt_decrypt).
Print Assumptions PropertiesCrypto_theorems.
