(** * Property theorems: the example encoders of Kuznechik (C60). *)
From Coq Require Import ZArith Bool String Lia.
From stdpp Require Import gmap list.
From Verif Require Import Types Word Value OpSpec Graph GraphSpec TypesProofs BuilderProofs BuilderProofs2 BuilderTopo GraphFacts StreamSpec Dfcir DfcirBuild
     Verilog Stubs StubsSpec Naming Firrtl Lower RtlSpec KernelSpec KernelValues KernelSort KernelFlow TopSort Sched SchedSpec Linear LinearSpec Pipeline PipelineSpec Instance InstanceSpec InstanceLoop InstanceMain InstanceStep InstanceFlow InstanceFacts LifeProofs ProgTyping SliceFacts
     CryptoSpec GaloisFacts GaloisField KuzFacts Prog ProgFrame ProgRules ProgCalls ProgMux ProgPorts ProgInstance StdKernels ProgLib GaloisKernel KuzKernel KuzCipher MagmaKernel PropertiesSched PropertiesLinear PropertiesPipeline PropertiesRtl Verify VerifySpec PropertiesVerify StdSpec ProgTop PropertiesCrypto ExampleKuz KuzExample InlineKuz InlineMul InlineCipher.
Local Open Scope string_scope.
Local Open Scope Z_scope.

(** OptKuznechikEncoder ([opt = true]) and KuznechikEncoderInst ([opt = false]) compute the cipher of the standard,
    and every scheduler's circuit does, although their substitution returns 17 bytes *)
Theorem C60_encoder :
  forall F (opt : bool), exists h w out, computes F (kernel (ExampleEncoder opt)) [("block", 128); ("key", 256)] "encoded" 128 kuz_encoded h w out /\ compiles F h w out kuz_encoded.
Proof.
  intros F opt. destruct (two_computes F nat (ExampleEncoder opt) "block" 128 "key" 256 "encoded" 128 (fun x key => kuz_encrypt key x) ltac:(lia) ltac:(lia) ltac:(lia) ltac:(discriminate) true) as (h & w & out & C & K).
  { intros e x key FX FK k h w S ST. eapply wp_conseq; [exact (rule_exencoder F true e opt h w k key x S (starts_topk _ _ ST) (starts_names _ _ ST) (fed_carries e "key" 256 key ltac:(lia) FK) (fed_carries e "block" 128 x ltac:(lia) FX))|].
    cbn beta. intros w2 r (ports & d & CH). exists ports, r, d. exact CH. }
  exists h, w, out. assert (I : forall e y, kuz_encoded e y -> expect2 "block" 128 "key" 256 (fun x key => kuz_encrypt key x) e y) by (intros e y (key & x & FK & FX & E); exists x, key; split; [exact FX|split; [exact FK|exact E]]).
  split; [exact (computes_mono F _ _ _ _ _ _ h w out I C)|exact (compiles_mono F h w out _ _ I (K eq_refl))].
Qed.
(** the example decoders invert them (their constructors make the calls of [KuznechikDecoder]) *)
Theorem C60_roundtrip :
  forall F (opt1 opt2 : bool), exists he we oe hd wd od,
  stands F (kernel (ExampleEncoder opt1)) [("block", 128); ("key", 256)] "encoded" 128 he we oe /\ stands F (kernel (KuznechikDecoder opt2)) [("encoded", 128); ("key", 256)] "block" 128 hd wd od /\
  (forall e1 e2 key x y, fed e1 "key" 256 key -> fed e1 "block" 128 x -> yields e1 we oe 128 y -> fed e2 "key" 256 key -> fed e2 "encoded" 128 y -> yields e2 wd od 128 x) /\
  (forall e1 e2 key x y, fed e1 "key" 256 key -> fed e1 "encoded" 128 x -> yields e1 wd od 128 y -> fed e2 "key" 256 key -> fed e2 "block" 128 y -> yields e2 we oe 128 x).
Proof.
  intros F opt1 opt2. destruct (C60_encoder F opt1) as (he & we & oe & (SE & YE) & _). destruct (C43_decoder F opt2) as (hd & wd & od & (SD & YD) & _). exists he, we, oe, hd, wd, od. split; [exact SE|]. split; [exact SD|]. split; intros e1 e2 key x y FK FX Y FK2 FY.
  - apply YD. exists key, y. split; [exact FK2|]. split; [exact FY|]. intros i Hi.
    rewrite (yields_unique _ _ _ _ _ _ Y (YE e1 (fun i => kuz_encrypt (key i) (x i)) (ex_intro _ key (ex_intro _ x (conj FK (conj FX (fun i _ => eq_refl)))))) i Hi). symmetry. exact (kuz_decrypt_encrypt (key i) (x i) (proj2 (FK i Hi)) (proj2 (FX i Hi))).
  - apply YE. exists key, y. split; [exact FK2|]. split; [exact FY|]. intros i Hi.
    rewrite (yields_unique _ _ _ _ _ _ Y (YD e1 (fun i => kuz_decrypt (key i) (x i)) (ex_intro _ key (ex_intro _ x (conj FK (conj FX (fun i _ => eq_refl)))))) i Hi). symmetry. exact (kuz_encrypt_decrypt (key i) (x i) (proj2 (FK i Hi)) (proj2 (FX i Hi))).
Qed.
Theorem C60_circuits :
  forall F (opt1 opt2 : bool), exists he we oe hd wd od,
  stands F (kernel (ExampleEncoder opt1)) [("block", 128); ("key", 256)] "encoded" 128 he we oe /\ stands F (kernel (KuznechikDecoder opt2)) [("encoded", 128); ("key", 256)] "block" 128 hd wd od /\
  forall Q1 Q2, scheduled F he we Q1 -> scheduled F hd wd Q2 -> exists d1 d2, 0 <= d1 /\ 0 <= d2 /\
  (forall e1 e2 sig1 key x, rtl Q1 e1 sig1 -> fed e1 "key" 256 key -> fed e1 "block" 128 x -> fed e2 "key" 256 key -> fed e2 "encoded" 128 (fun i => sig1 oe (i + d1)) -> displays e2 Q2 od d2 x) /\
  (forall e1 e2 sig2 key x, rtl Q2 e1 sig2 -> fed e1 "key" 256 key -> fed e1 "encoded" 128 x -> fed e2 "key" 256 key -> fed e2 "block" 128 (fun i => sig2 od (i + d2)) -> displays e2 Q1 oe d1 x).
Proof.
  intros F opt1 opt2. destruct (C60_encoder F opt1) as (he & we & oe & (SE & _) & CE). destruct (C43_decoder F opt2) as (hd & wd & od & (SD & _) & CD). exists he, we, oe, hd, wd, od. split; [exact SE|]. split; [exact SD|].
  intros Q1 Q2 S1 S2. destruct (compiles_scheduled F he we oe _ Q1 CE S1) as (d1 & P1 & D1). destruct (compiles_scheduled F hd wd od _ Q2 CD S2) as (d2 & P2 & D2). exists d1, d2. split; [exact P1|]. split; [exact P2|]. split; intros e1 e2 sig key x R FK FX FK2 FY.
  - apply D2. exists key, (fun i => sig oe (i + d1)). split; [exact FK2|]. split; [exact FY|]. intros i Hi. destruct (D1 e1 (fun i => kuz_encrypt (key i) (x i)) (ex_intro _ key (ex_intro _ x (conj FK (conj FX (fun i _ => eq_refl)))))) as (_ & V). cbn beta. rewrite (V sig R i Hi). symmetry. exact (kuz_decrypt_encrypt (key i) (x i) (proj2 (FK i Hi)) (proj2 (FX i Hi))).
  - apply D1. exists key, (fun i => sig od (i + d2)). split; [exact FK2|]. split; [exact FY|]. intros i Hi. destruct (D2 e1 (fun i => kuz_decrypt (key i) (x i)) (ex_intro _ key (ex_intro _ x (conj FK (conj FX (fun i _ => eq_refl)))))) as (_ & V). cbn beta. rewrite (V sig R i Hi). symmetry. exact (kuz_encrypt_decrypt (key i) (x i) (proj2 (FK i Hi)) (proj2 (FX i Hi))).
Qed.
(** an example encoder and an encoder of the standard library give the same streams *)
Theorem C60_same :
  forall F (opt1 opt2 : bool), exists h1 w1 o1 h2 w2 o2, stands F (kernel (ExampleEncoder opt1)) [("block", 128); ("key", 256)] "encoded" 128 h1 w1 o1 /\ stands F (kernel (KuznechikEncoder opt2)) [("block", 128); ("key", 256)] "encoded" 128 h2 w2 o2 /\
    forall e key x y, fed e "key" 256 key -> fed e "block" 128 x -> yields e w1 o1 128 y <-> yields e w2 o2 128 y.
Proof.
  intros F opt1 opt2. destruct (C60_encoder F opt1) as (h1 & w1 & o1 & (S1 & Y1) & _). destruct (C43_encoder F opt2) as (h2 & w2 & o2 & (S2 & Y2) & _). exists h1, w1, o1, h2, w2, o2. split; [exact S1|]. split; [exact S2|]. intros e key x y FK FX.
  assert (M : kuz_encoded e (fun i => kuz_encrypt (key i) (x i))) by (exists key, x; split; [exact FK|split; [exact FX|intros i _; exact eq_refl]]).
  split; intros H i Hi; [rewrite (yields_unique _ _ _ _ _ _ H (Y1 e _ M) i Hi); exact (Y2 e _ M i Hi)|rewrite (yields_unique _ _ _ _ _ _ H (Y2 e _ M) i Hi); exact (Y1 e _ M i Hi)].
Qed.
(** ** examples/kuznechik, which builds the products in the kernel itself: KuznechikEncoder is [InlineEncoder true],
    KuznechikDecoder is [InlineDecoder false] *)
Theorem C60_inline_encoder :
  forall F (wide : bool), exists h w out, computes F (kernel (InlineEncoder wide)) [("block", 128); ("key", 256)] "encoded" 128 kuz_encoded h w out /\ compiles F h w out kuz_encoded.
Proof.
  intros F wide. destruct (two_computes F nat (InlineEncoder wide) "block" 128 "key" 256 "encoded" 128 (fun x key => kuz_encrypt key x) ltac:(lia) ltac:(lia) ltac:(lia) ltac:(discriminate) true) as (h & w & out & C & K).
  { intros e x key FX FK k h w S ST. eapply wp_conseq; [exact (rule_inencoder F true e wide h w k key x S (starts_topk _ _ ST) (starts_names _ _ ST) (fed_carries e "key" 256 key ltac:(lia) FK) (fed_carries e "block" 128 x ltac:(lia) FX))|].
    cbn beta. intros w2 r (ports & d & CH). exists ports, r, d. exact CH. }
  exists h, w, out. assert (I : forall e y, kuz_encoded e y -> expect2 "block" 128 "key" 256 (fun x key => kuz_encrypt key x) e y) by (intros e y (key & x & FK & FX & E); exists x, key; split; [exact FX|split; [exact FK|exact E]]).
  split; [exact (computes_mono F _ _ _ _ _ _ h w out I C)|exact (compiles_mono F h w out _ _ I (K eq_refl))].
Qed.
Theorem C60_inline_decoder :
  forall F (wide : bool), exists h w out, computes F (kernel (InlineDecoder wide)) [("encoded", 128); ("key", 256)] "block" 128 kuz_decoded h w out /\ compiles F h w out kuz_decoded.
Proof.
  intros F wide. destruct (two_computes F nat (InlineDecoder wide) "encoded" 128 "key" 256 "block" 128 (fun x key => kuz_decrypt key x) ltac:(lia) ltac:(lia) ltac:(lia) ltac:(discriminate) true) as (h & w & out & C & K).
  { intros e x key FX FK k h w S ST. eapply wp_conseq; [exact (rule_indecoder F true e wide h w k key x S (starts_topk _ _ ST) (starts_names _ _ ST) (fed_carries e "key" 256 key ltac:(lia) FK) (fed_carries e "encoded" 128 x ltac:(lia) FX))|].
    cbn beta. intros w2 r (ports & d & CH). exists ports, r, d. exact CH. }
  exists h, w, out. assert (I : forall e y, kuz_decoded e y -> expect2 "encoded" 128 "key" 256 (fun x key => kuz_decrypt key x) e y) by (intros e y (key & x & FK & FX & E); exists x, key; split; [exact FX|split; [exact FK|exact E]]).
  split; [exact (computes_mono F _ _ _ _ _ _ h w out I C)|exact (compiles_mono F h w out _ _ I (K eq_refl))].
Qed.
(** the circuits invert each other *)
Theorem C60_inline_circuits :
  forall F, exists he we oe hd wd od,
  stands F (kernel (InlineEncoder true)) [("block", 128); ("key", 256)] "encoded" 128 he we oe /\ stands F (kernel (InlineDecoder false)) [("encoded", 128); ("key", 256)] "block" 128 hd wd od /\
  forall Q1 Q2, scheduled F he we Q1 -> scheduled F hd wd Q2 -> exists d1 d2, 0 <= d1 /\ 0 <= d2 /\
  (forall e1 e2 sig1 key x, rtl Q1 e1 sig1 -> fed e1 "key" 256 key -> fed e1 "block" 128 x -> fed e2 "key" 256 key -> fed e2 "encoded" 128 (fun i => sig1 oe (i + d1)) -> displays e2 Q2 od d2 x) /\
  (forall e1 e2 sig2 key x, rtl Q2 e1 sig2 -> fed e1 "key" 256 key -> fed e1 "encoded" 128 x -> fed e2 "key" 256 key -> fed e2 "block" 128 (fun i => sig2 od (i + d2)) -> displays e2 Q1 oe d1 x).
Proof.
  intro F. destruct (C60_inline_encoder F true) as (he & we & oe & (SE & _) & CE). destruct (C60_inline_decoder F false) as (hd & wd & od & (SD & _) & CD). exists he, we, oe, hd, wd, od. split; [exact SE|]. split; [exact SD|].
  intros Q1 Q2 S1 S2. destruct (compiles_scheduled F he we oe _ Q1 CE S1) as (d1 & P1 & D1). destruct (compiles_scheduled F hd wd od _ Q2 CD S2) as (d2 & P2 & D2). exists d1, d2. split; [exact P1|]. split; [exact P2|]. split; intros e1 e2 sig key x R FK FX FK2 FY.
  - apply D2. exists key, (fun i => sig oe (i + d1)). split; [exact FK2|]. split; [exact FY|]. intros i Hi. destruct (D1 e1 (fun i => kuz_encrypt (key i) (x i)) (ex_intro _ key (ex_intro _ x (conj FK (conj FX (fun i _ => eq_refl)))))) as (_ & V). cbn beta. rewrite (V sig R i Hi). symmetry. exact (kuz_decrypt_encrypt (key i) (x i) (proj2 (FK i Hi)) (proj2 (FX i Hi))).
  - apply D1. exists key, (fun i => sig od (i + d2)). split; [exact FK2|]. split; [exact FY|]. intros i Hi. destruct (D2 e1 (fun i => kuz_decrypt (key i) (x i)) (ex_intro _ key (ex_intro _ x (conj FK (conj FX (fun i _ => eq_refl)))))) as (_ & V). cbn beta. rewrite (V sig R i Hi). symmetry. exact (kuz_encrypt_decrypt (key i) (x i) (proj2 (FK i Hi)) (proj2 (FX i Hi))).
Qed.
(** they give the streams of the standard library's kernels *)
Theorem C60_inline_same :
  forall F (opt : bool), (exists h1 w1 o1 h2 w2 o2, stands F (kernel (InlineEncoder true)) [("block", 128); ("key", 256)] "encoded" 128 h1 w1 o1 /\ stands F (kernel (KuznechikEncoder opt)) [("block", 128); ("key", 256)] "encoded" 128 h2 w2 o2 /\
    forall e key x y, fed e "key" 256 key -> fed e "block" 128 x -> yields e w1 o1 128 y <-> yields e w2 o2 128 y) /\
  (exists h1 w1 o1 h2 w2 o2, stands F (kernel (InlineDecoder false)) [("encoded", 128); ("key", 256)] "block" 128 h1 w1 o1 /\ stands F (kernel (KuznechikDecoder opt)) [("encoded", 128); ("key", 256)] "block" 128 h2 w2 o2 /\
    forall e key x y, fed e "key" 256 key -> fed e "encoded" 128 x -> yields e w1 o1 128 y <-> yields e w2 o2 128 y).
Proof.
  intros F opt. split.
  - destruct (C60_inline_encoder F true) as (h1 & w1 & o1 & (S1 & Y1) & _). destruct (C43_encoder F opt) as (h2 & w2 & o2 & (S2 & Y2) & _). exists h1, w1, o1, h2, w2, o2. split; [exact S1|]. split; [exact S2|]. intros e key x y FK FX.
    assert (M : kuz_encoded e (fun i => kuz_encrypt (key i) (x i))) by (exists key, x; split; [exact FK|split; [exact FX|intros i _; exact eq_refl]]).
    split; intros H i Hi; [rewrite (yields_unique _ _ _ _ _ _ H (Y1 e _ M) i Hi); exact (Y2 e _ M i Hi)|rewrite (yields_unique _ _ _ _ _ _ H (Y2 e _ M) i Hi); exact (Y1 e _ M i Hi)].
  - destruct (C60_inline_decoder F false) as (h1 & w1 & o1 & (S1 & Y1) & _). destruct (C43_decoder F opt) as (h2 & w2 & o2 & (S2 & Y2) & _). exists h1, w1, o1, h2, w2, o2. split; [exact S1|]. split; [exact S2|]. intros e key x y FK FX.
    assert (M : kuz_decoded e (fun i => kuz_decrypt (key i) (x i))) by (exists key, x; split; [exact FK|split; [exact FX|intros i _; exact eq_refl]]).
    split; intros H i Hi; [rewrite (yields_unique _ _ _ _ _ _ H (Y1 e _ M) i Hi); exact (Y2 e _ M i Hi)|rewrite (yields_unique _ _ _ _ _ _ H (Y2 e _ M) i Hi); exact (Y1 e _ M i Hi)].
Qed.
(** the substitution of the examples: 17 bytes, the first one twice *)
Example C60_wide : wide_part 16 0xffeeddccbbaa99881122334455667700 = 0xb6b66cd8887d38e8d77765aeea0c9a7efc.
Proof. vm_compute. reflexivity. Qed.
(** keys and blocks to feed exist *)
Example C60_case : exists e key x, fed e "key" 256 key /\ fed e "block" 128 x /\ key 1 = 2 ^ 255 + 1 /\ x 1 = 2 ^ 127 + 1 /\ x 2 = 2 ^ 127 + 2.
Proof.
  exists {| e_stream := fun s i => if String.eqb s "key" then (uint 256, 2 ^ 255 + i mod 256) else (uint 128, 2 ^ 127 + i mod 256); e_scalar := fun _ => (uint 1, 0) |}, (fun i => 2 ^ 255 + i mod 256), (fun i => 2 ^ 127 + i mod 256).
  assert (B : forall i, 0 <= i mod 256 < 256) by (intro i; apply Z.mod_pos_bound; reflexivity).
  split; [intros i Hi; split; [reflexivity|specialize (B i); lia]|]. split; [intros i Hi; split; [reflexivity|specialize (B i); lia]|]. repeat split; reflexivity.
Qed.

Definition PropertiesExample_theorems := (C60_encoder, C60_roundtrip, C60_circuits, C60_same, C60_inline_encoder, C60_inline_decoder, C60_inline_circuits, C60_inline_same).
Print Assumptions PropertiesExample_theorems.
