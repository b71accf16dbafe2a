(** Proofs about whole simulation runs. *)
From Coq Require Import ZArith Bool String Ascii Lia DecimalString DecimalNat Decimal Permutation.
From stdpp Require Import gmap list strings.
From Verif Require Import Instance InstanceSpec InstanceFlow Types Word Value OpSpec Graph GraphSpec BuilderProofs BuilderProofs2 BuilderTopo WordProofs Sim SimSpec SimProofs
     HwSpec SimFacts SimInput SimInputSpec SimInputProofs SimRunSpec.
Local Open Scope Z_scope.
Local Arguments String.append : simpl nomatch.
Lemma buf_pos : (0 < buf_size)%nat. Proof. unfold buf_size. lia. Qed.
Local Opaque buf_size.

Lemma dec_inj n m : dec n = dec m -> n = m.
Proof.
  unfold dec. intros H.
  assert (E : Some (Nat.to_uint n) = Some (Nat.to_uint m)) by (rewrite <- !NilEmpty.usu; now rewrite H).
  injection E as E. rewrite <- (DecimalNat.Unsigned.of_to n), <- (DecimalNat.Unsigned.of_to m). now rewrite E.
Qed.

(** ** Binary text *)
Lemma bin_digits_shows v k : shows (bin_digits v k) (Z.of_nat k) v.
Proof.
  unfold shows. induction k as [|k (L & D & B)]; cbn [bin_digits].
  - split; [reflexivity|]. split; [|cbn; now rewrite Z.mod_1_r]. intros i c H. destruct i; discriminate H.
  - split; [cbn [String.length]; lia|]. split.
    + intros [|i] c H; cbn in H; [destruct (Z.testbit v (Z.of_nat k)); injection H as <-; auto|eauto].
    + cbn [binval]. rewrite B. replace (Z.of_nat (String.length (bin_digits v k))) with (Z.of_nat k) by lia.
      rewrite Nat2Z.inj_succ, Z.pow_succ_r by lia.
      rewrite (Z.mul_comm 2). rewrite Z.rem_mul_r by lia.
      pose proof (Z.testbit_spec' v (Z.of_nat k)) as E. specialize (E ltac:(lia)).
      destruct (Z.testbit v (Z.of_nat k)); cbn [Z.b2z] in E; rewrite <- E; cbn [Ascii.eqb Bool.eqb]; lia.
Qed.
Lemma value_to_binary_shows v width : 0 <= width <= 64 -> exists s, value_to_binary v width = SOk s /\ shows s width v.
Proof.
  intros H. unfold value_to_binary. destruct (Z.leb_spec width 64); [|lia]. eexists. split; [reflexivity|].
  pose proof (bin_digits_shows v (Z.to_nat width)) as S. now rewrite Z2Nat.id in S by lia.
Qed.
Lemma value_to_binary_ok v width s : 0 <= width -> value_to_binary v width = SOk s -> shows s width v /\ width <= 64.
Proof.
  intros H. unfold value_to_binary. destruct (Z.leb_spec width 64); [|discriminate]. intros E. injection E as <-.
  split; [|lia]. pose proof (bin_digits_shows v (Z.to_nat width)) as S. now rewrite Z2Nat.id in S by lia.
Qed.

(** ** Names *)
Section Names.
Variable w : world.
Lemma gen_names_fst keys : forall c, map fst (gen_names w keys c) = keys.
Proof.
  induction keys as [|n keys IH]; intros c; [reflexivity|]. cbn [gen_names].
  destruct (String.eqb (node_name w n) ""); cbn; now rewrite IH.
Qed.
Lemma gen_names_spec keys : forall c n name, (n, name) ∈ gen_names w keys c ->
  n ∈ keys /\ ((node_name w n <> ""%string /\ name = node_name w n) \/
               (node_name w n = ""%string /\ exists k, (c <= k)%nat /\ name = ("node" ++ dec k)%string)).
Proof.
  induction keys as [|m keys IH]; intros c n name H; [now apply elem_of_nil in H|].
  cbn [gen_names] in H. destruct (String.eqb_spec (node_name w m) "") as [E|E]; apply elem_of_cons in H as [H|H].
  - injection H as -> ->. split; [left|]. right. split; [exact E|]. exists c. auto.
  - apply IH in H as [H1 H2]. split; [now right|]. destruct H2 as [H2|(H2 & k & Hk & ->)]; [auto|].
    right. split; [exact H2|]. exists k. split; [lia|reflexivity].
  - injection H as -> ->. split; [left|]. auto.
  - apply IH in H as [H1 H2]. split; [now right|]. auto.
Qed.
Lemma gen_names_NoDup keys : NoDup keys ->
  (forall n m, n ∈ keys -> m ∈ keys -> node_name w n <> ""%string -> node_name w n = node_name w m -> n = m) ->
  (forall n, n ∈ keys -> ~ generated_name (node_name w n)) ->
  forall c, NoDup (map snd (gen_names w keys c)).
Proof.
  induction 1 as [|n keys Hn Nd IH]; intros Hd Hg c; [constructor|].
  assert (IH' : forall c, NoDup (map snd (gen_names w keys c))).
  { apply IH; [intros; apply Hd; auto; now right|intros; apply Hg; now right]. }
  assert (Q : forall c' name, name ∈ map snd (gen_names w keys c') -> exists m, (m, name) ∈ gen_names w keys c').
  { intros c' name H. apply elem_of_list_fmap in H as ([m nm] & -> & H). eauto. }
  cbn [gen_names]. destruct (String.eqb_spec (node_name w n) "") as [E|E]; cbn [map snd]; constructor; auto.
  - intros H. apply Q in H as (m & H). apply gen_names_spec in H as [H1 [[H2 H3]|(H2 & k & Hk & H3)]].
    + apply (Hg m); [now right|]. exists c. congruence.
    + apply str_app_inj_l in H3. apply dec_inj in H3. lia.
  - intros H. apply Q in H as (m & H). apply gen_names_spec in H as [H1 [[H2 H3]|(H2 & k & Hk & H3)]].
    + apply Hn. rewrite (Hd n m); [exact H1|left|now right|exact E|exact H3].
    + apply (Hg n); [left|]. exists k. exact H3.
Qed.
Lemma id_of_find ids n : n ∈ map fst ids -> exists name, id_of ids n = SOk name /\ (n, name) ∈ ids.
Proof.
  unfold id_of. induction ids as [|[m nm] ids IH]; intros H; [now apply elem_of_nil in H|]. cbn in H |- *.
  destruct (Nat.eqb_spec m n) as [->|Hne]; [exists nm; split; [reflexivity|left]|].
  apply elem_of_cons in H as [->|H]; [contradiction|]. destruct (IH H) as (nm' & A & B). exists nm'. split; [exact A|now right].
Qed.
End Names.

(** ** The run *)
Section Run.
Variable F : fltops.
Variable w : world.
Variable order : list nat.
Variable hash : list nat -> list nat.
Variable h : list icmd.
Hypothesis HF : flt_words F.
Hypothesis R : elaborates F h w.
Hypothesis T : topological w order.
Hypothesis Hh : forall l, Permutation (hash l) l.

Lemma run_sim_dom inp : forall r v v', run_sim F w inp v r = SOk v' ->
  forall n, is_Some (v' !! n) <-> is_Some (v !! n) \/ n ∈ r.
Proof.
  induction r as [|m r IH]; intros v v' H n; cbn [run_sim] in H.
  - injection H as <-. split; [auto|]. intros [A|A]; [auto|now apply elem_of_nil in A].
  - destruct (process F w inp v m) as [x| | |]; try discriminate H. cbn [sbind] in H.
    rewrite (IH _ _ H n). rewrite lookup_insert_is_Some', elem_of_cons. split; [intros [[->|A]|A]; auto|intros [A|[->|A]]; auto].
Qed.

Lemma keys_of_perm v : (forall n, is_Some (v !! n) <-> n ∈ order) -> Permutation (keys_of hash v) order.
Proof.
  intros H. unfold keys_of. rewrite Hh. apply NoDup_Permutation.
  - apply NoDup_fst_map_to_list.
  - apply T.
  - intros n. rewrite <- H. rewrite elem_of_list_fmap. split.
    + intros ([k x] & -> & Hk). apply elem_of_map_to_list in Hk. cbn. eauto.
    + intros [x Hx]. exists (n, x). split; [reflexivity|]. now apply elem_of_map_to_list.
Qed.

Lemma node_bits_wd n : node_bits w n = wd w n. Proof. reflexivity. Qed.
Definition wide_ok : Prop := forall n, n ∈ order -> 0 <= wd w n <= 64.

Lemma write_values_spec v ids : (forall n, n ∈ order -> 0 <= wd w n) -> forall keys vals,
  (forall n, n ∈ keys -> n ∈ order /\ n ∈ map fst ids) ->
  write_values w v ids keys = SOk vals ->
  Forall2 (fun n p => shows (fst p) (wd w n) (vget v n) /\ (n, snd p) ∈ ids) keys vals.
Proof.
  intros Hw. induction keys as [|n keys IH]; intros vals Hk H; cbn [write_values] in H.
  - injection H as <-. constructor.
  - destruct (Hk n) as [Ho Hi]; [left|]. destruct (value_to_binary (vget v n) (node_bits w n)) as [b| | |] eqn:Eb; try discriminate H.
    cbn [sbind] in H. apply value_to_binary_ok in Eb as [Sb _]; [|now apply Hw].
    destruct (id_of_find ids n Hi) as (name & En & Hin). rewrite En in H. cbn [sbind] in H.
    destruct (write_values w v ids keys) as [rest| | |] eqn:Er; try discriminate H. injection H as <-.
    constructor; [now split|]. apply IH; [|reflexivity]. intros m Hm. apply Hk. now right.
Qed.
Lemma write_values_total v ids : wide_ok -> forall keys,
  (forall n, n ∈ keys -> n ∈ order /\ n ∈ map fst ids) -> exists vals, write_values w v ids keys = SOk vals.
Proof.
  intros Hw. induction keys as [|n keys IH]; intros Hk; cbn [write_values]; [eauto|].
  destruct (Hk n) as [Ho Hi]; [left|]. destruct (value_to_binary_shows (vget v n) (node_bits w n)) as (b & -> & _); [now apply Hw|].
  destruct (id_of_find ids n Hi) as (name & -> & _). cbn [sbind].
  destruct IH as [vals ->]; [intros m Hm; apply Hk; now right|]. cbn. eauto.
Qed.

Definition Inv (s : st) : Prop :=
  (forall n, 0 <= vget (st_vals s) n < 2 ^ 64) /\
  (forall n, is_Some (st_vals s !! n) -> n ∈ order) /\
  match st_ids s with None => True | Some ids => exists keys, Permutation keys order /\ ids = gen_names w keys 0 end.

Lemma Inv_init : Inv (mkSt ∅ None []).
Proof.
  split; [|split; [|exact I]]; intros n; cbn [st_vals].
  - unfold vget. rewrite lookup_empty. cbn. lia.
  - rewrite lookup_empty. intros [? H]; discriminate.
Qed.

Lemma chunk_spec d start : (forall n, n ∈ order -> 0 <= wd w n) ->
  forall todo i s s', (forall j, inp_words (tick_inp d j)) -> Inv s ->
  chunk F w order hash d start i todo s = SOk s' ->
  Inv s' /\ (todo = 0%nat -> s' = s) /\ (todo <> 0%nat -> is_Some (st_ids s')) /\
  (forall ids, st_ids s = Some ids -> st_ids s' = Some ids) /\
  exists secs, st_ticks s' = st_ticks s ++ secs /\ length secs = todo /\
    forall j sec, secs !! j = Some sec -> s_tick sec = (start + (i + j))%nat /\
      exists f ids, st_ids s' = Some ids /\ words order f /\ tick_solution F w (tick_inp d (i + j)) order f /\
        tick_shown w order ids f (s_values sec).
Proof.
  intros Hw. induction todo as [|todo IH]; intros i s s' HI I H; cbn [chunk] in H.
  - injection H as <-. split; [exact I|]. split; [auto|]. split; [congruence|]. split; [auto|]. exists []. rewrite app_nil_r.
    split; [reflexivity|]. split; [reflexivity|]. intros j sec Hj. rewrite lookup_nil in Hj. discriminate.
  - destruct (one_tick F w order d i (st_vals s)) as [v| | |] eqn:E1; try discriminate H. cbn [sbind] in H.
    unfold one_tick in E1. destruct (_ && _) eqn:Eb; [discriminate E1|].
    destruct I as (I1 & I2 & I3).
    destruct (sim_tick_spec F h w (tick_inp d i) order (st_vals s) v HF R (HI i) T I1 E1) as (W1 & S1 & _ & N1 & _).
    assert (I1' : forall n, 0 <= vget v n < 2 ^ 64).
    { intros n. destruct (decide (n ∈ order)) as [Hn|Hn]; [now apply W1|]. rewrite (N1 n Hn). auto. }
    assert (Dv : forall n, is_Some (v !! n) <-> n ∈ order).
    { intros n. rewrite (run_sim_dom _ _ _ _ E1 n). split; [intros [A|A]; auto|auto]. }
    set (ids := match st_ids s with Some ids => ids | None => gen_names w (keys_of hash v) 0 end) in *.
    pose proof (keys_of_perm v Dv) as Pk.
    assert (Hids : exists keys, Permutation keys order /\ ids = gen_names w keys 0).
    { unfold ids. destruct (st_ids s); [exact I3|]. eauto. }
    destruct (write_values w v ids (keys_of hash v)) as [vals| | |] eqn:Ew; try discriminate H. cbn [sbind] in H.
    set (s1 := mkSt v (Some ids) (st_ticks s ++ [mkSection (start + i) vals])) in *.
    assert (J : Inv s1).
    { split; [exact I1'|]. split; [intros n; apply Dv|]. exact Hids. }
    destruct (IH (S i) s1 s' HI J H) as (J' & Z' & _ & Ids & secs & Et & El & Hs).
    assert (Ids' : st_ids s' = Some ids) by (apply Ids; reflexivity).
    split; [exact J'|]. split; [discriminate|]. split; [intros _; eauto|].
    split; [intros ids' E; rewrite Ids'; unfold ids; now rewrite E|].
    exists (mkSection (start + i) vals :: secs). cbn [st_ticks s1] in Et. rewrite Et, <- app_assoc.
    split; [reflexivity|]. split; [cbn; lia|].
    intros [|j] sec Hj.
    + cbn in Hj. injection Hj as <-. cbn [s_tick s_values]. rewrite Nat.add_0_r. split; [reflexivity|].
      exists (vget v), ids. split; [exact Ids'|]. split; [exact W1|]. split; [exact S1|].
      exists (keys_of hash v). split; [exact Pk|]. apply write_values_spec; auto.
      intros n Hn. destruct Hids as (keys & Pk' & ->). rewrite gen_names_fst. rewrite Pk in Hn. split; [exact Hn|now rewrite Pk'].
    + cbn in Hj. destruct (Hs j sec Hj) as (A & f & ids' & B). replace (i + S j)%nat with (S i + j)%nat by lia.
      split; [lia|]. exists f, ids'. exact B.
Qed.

Lemma chunk_total d start : wide_ok -> forall todo i s, (forall j, inp_words (tick_inp d j)) -> Inv s ->
  (i + todo <= buf_size)%nat ->
  (forall j, (j < todo)%nat -> exists f, words order f /\ tick_solution F w (tick_inp d (i + j)) order f) ->
  exists s', chunk F w order hash d start i todo s = SOk s'.
Proof.
  intros Hw. induction todo as [|todo IH]; intros i s HI I Hb Hf; cbn [chunk]; [eauto|].
  unfold one_tick. destruct (Nat.leb_spec buf_size i) as [L|L]; [lia|]. cbn [andb].
  destruct I as (I1 & I2 & I3). destruct (Hf 0%nat) as (f & Wf & Sf); [lia|]. rewrite Nat.add_0_r in Sf.
  destruct (sim_tick_exists F h w (tick_inp d i) order (st_vals s) f HF R (HI i) T I1 Wf Sf) as (v & E1 & _).
  rewrite E1. cbn [sbind].
  destruct (sim_tick_spec F h w (tick_inp d i) order (st_vals s) v HF R (HI i) T I1 E1) as (W1 & S1 & _ & N1 & _).
  assert (I1' : forall n, 0 <= vget v n < 2 ^ 64).
  { intros n. destruct (decide (n ∈ order)) as [Hn|Hn]; [now apply W1|]. rewrite (N1 n Hn). auto. }
  assert (Dv : forall n, is_Some (v !! n) <-> n ∈ order).
  { intros n. rewrite (run_sim_dom _ _ _ _ E1 n). split; [intros [A|A]; auto|auto]. }
  set (ids := match st_ids s with Some ids => ids | None => gen_names w (keys_of hash v) 0 end) in *.
  pose proof (keys_of_perm v Dv) as Pk.
  assert (Hids : exists keys, Permutation keys order /\ ids = gen_names w keys 0).
  { unfold ids. destruct (st_ids s); [exact I3|]. eauto. }
  destruct (write_values_total v ids Hw (keys_of hash v)) as [vals ->].
  { intros n Hn. destruct Hids as (keys & Pk' & ->). rewrite gen_names_fst. rewrite Pk in Hn. split; [exact Hn|now rewrite Pk']. }
  cbn [sbind]. apply IH; [exact HI| |lia|].
  - split; [exact I1'|]. split; [intros n; apply Dv|]. exact Hids.
  - intros j Hj. replace (S i + j)%nat with (i + S j)%nat by lia. apply Hf. lia.
Qed.
Lemma chunk_app d start a : forall b i s,
  chunk F w order hash d start i (a + b) s = sbind (chunk F w order hash d start i a s) (chunk F w order hash d start (i + a) b).
Proof.
  induction a as [|a IH]; intros b i s; cbn [chunk Nat.add sbind]; [now rewrite Nat.add_0_r|].
  destruct (one_tick F w order d i (st_vals s)); cbn [sbind]; auto.
  destruct (write_values w _ _ _); cbn [sbind]; auto. rewrite IH. f_equal. f_equal. lia.
Qed.

(** reading keeps the buffers in shape and never writes out of bounds, for any text *)
Lemma read_input_safe : forall lines ind one d, bufs_ok d -> (forall n buf x, d !! n = Some buf -> x ∈ buf -> 0 <= x < 2 ^ 64) ->
  read_input lines ind one d <> SUndef /\
  forall rest d' count, read_input lines ind one d = SOk (rest, d', count) ->
    bufs_ok d' /\ (forall n buf x, d' !! n = Some buf -> x ∈ buf -> 0 <= x < 2 ^ 64) /\
    (count <= S buf_size \/ count <= S ind)%nat /\ (one = false -> count <> 0%nat -> (length rest < length lines)%nat) /\ (length rest <= length lines)%nat.
Proof.
  induction lines as [|l lines IH]; intros ind one d Hd Hx; cbn [read_input].
  - split; [discriminate|]. intros rest d' count E. injection E as <- <- <-. split; [exact Hd|]. split; [exact Hx|].
    split; [destruct one; cbn; lia|]. split; [intros -> HH; now contradiction HH|cbn; lia].
  - destruct (Nat.ltb_spec ind buf_size) as [L|L].
    2:{ split; [discriminate|]. intros rest d' count E. injection E as <- <- <-. split; [exact Hd|]. split; [exact Hx|].
        split; [destruct one; cbn; lia|]. split; cbn; intros; lia. }
    destruct (String.eqb l "").
    { destruct (IH (S ind) one d Hd Hx) as [A B]. split; [exact A|]. intros rest d' count E.
      destruct (B _ _ _ E) as (B1 & B2 & B3 & B4 & B5). split; [exact B1|]. split; [exact B2|]. split; [lia|]. cbn. split; [|lia].
      intros; lia. }
    destruct (parse_line l) as [[name val]|].
    2:{ split; [discriminate|]. intros rest d' count E. injection E as <- <- <-. split; [exact Hd|]. split; [exact Hx|].
        split; [cbn; lia|]. split; cbn; intros; lia. }
    destruct (stoul val) as [v| | |] eqn:Ev; cbn [sbind]; try (split; [discriminate|intros; discriminate]).
    2:{ exfalso. unfold stoul in Ev. destruct (match skip_ws val with String "-" s' => (true, s') | String "+" s' => (false, s') | _ => _ end).
        destruct (starts_digit s); [|discriminate]. destruct (_ <? _); discriminate. }
    assert (Hv : 0 <= v < 2 ^ 64).
    { unfold stoul in Ev. destruct (match skip_ws val with String "-" s' => (true, s') | String "+" s' => (false, s') | _ => _ end) as [neg s].
      destruct (starts_digit s); [|discriminate]. destruct (Z.ltb_spec (scan_hex (strip_0x s) 0) two64) as [Lt|]; [|discriminate].
      assert (Hpos : forall s acc, 0 <= acc -> 0 <= scan_hex s acc).
      { clear. induction s as [|c s IH]; intros acc Ha; cbn; [exact Ha|]. destruct (hex_digit c) as [x|] eqn:E; [|exact Ha].
        apply IH. unfold hex_digit, in_range in E.
        destruct ((N_of_ascii "0" <=? N_of_ascii c)%N && (N_of_ascii c <=? N_of_ascii "9")%N) eqn:E0.
        { apply andb_true_iff in E0 as [E0 _]. apply N.leb_le in E0. injection E as <-. change (N_of_ascii "0") with 48%N in E0. lia. }
        destruct ((N_of_ascii "a" <=? N_of_ascii c)%N && (N_of_ascii c <=? N_of_ascii "f")%N) eqn:E2.
        { apply andb_true_iff in E2 as [E2 _]. apply N.leb_le in E2. injection E as <-. change (N_of_ascii "a") with 97%N in E2. lia. }
        destruct ((N_of_ascii "A" <=? N_of_ascii c)%N && (N_of_ascii c <=? N_of_ascii "F")%N) eqn:E3; [|discriminate].
        apply andb_true_iff in E3 as [E3 _]. apply N.leb_le in E3. injection E as <-. change (N_of_ascii "A") with 65%N in E3. lia. }
      injection Ev as <-. rewrite two64_eq in Lt. specialize (Hpos (strip_0x s) 0 ltac:(lia)).
      destruct neg; [apply w64_W|lia]. }
    set (e := mkEntry name "" v).
    assert (Ew : write d name ind v = SOk (put d ind e)) by (apply (write_put d ind e); auto).
    rewrite Ew. cbn [sbind].
    assert (Hx' : forall n buf x, put d ind e !! n = Some buf -> x ∈ buf -> 0 <= x < 2 ^ 64).
    { intros n buf x. unfold put. rewrite lookup_insert_Some. intros [[_ <-]|[_ E]]; [|intros; eapply Hx; eauto].
      intros Hin. apply elem_of_list_lookup in Hin as [k Hk]. apply list_lookup_insert_Some in Hk as [(_ & <- & _)|(_ & Hk)]; [exact Hv|].
      destruct (d !! e_name e) as [buf|] eqn:Ed; cbn in Hk.
      - eapply Hx; eauto. apply elem_of_list_lookup; eauto.
      - apply lookup_replicate in Hk as [-> _]. lia. }
    destruct (IH ind true (put d ind e) (put_ok _ _ _ Hd) Hx') as [A B]. split; [exact A|]. intros rest d' count E.
    destruct (B _ _ _ E) as (B1 & B2 & B3 & B4 & B5). split; [exact B1|]. split; [exact B2|]. split; [lia|].
    split; cbn; intros; lia.
Qed.
Definition good_bufs (d : iovars) : Prop :=
  bufs_ok d /\ forall n buf x, d !! n = Some buf -> x ∈ buf -> 0 <= x < 2 ^ 64.
Lemma good_inp d : good_bufs d -> forall j, inp_words (tick_inp d j).
Proof.
  intros [_ H] j name x. unfold tick_inp. destruct (d !! name) as [buf|] eqn:E; [|discriminate].
  intros Hx. eapply H; eauto. apply elem_of_list_lookup; eauto.
Qed.
Lemma good_empty : good_bufs ∅.
Proof. split; intros n buf; rewrite lookup_empty; discriminate. Qed.

Lemma loop_total : forall fuel lines d start s, (length lines < fuel)%nat -> good_bufs d ->
  loop F w order hash fuel lines d start s <> None.
Proof.
  induction fuel as [|fuel IH]; intros lines d start s Hl [G1 G2]; [lia|]. cbn [loop].
  destruct (read_input_safe lines 0 false d G1 G2) as [_ B].
  destruct (read_input lines 0 false d) as [[[rest d'] count]| | |] eqn:E; try discriminate.
  destruct (B _ _ _ eq_refl) as (B1 & B2 & _ & B4 & _). destruct count as [|c]; [discriminate|].
  destruct (chunk F w order hash d' start 0 (S c) s) as [s'| | |] eqn:Ec; try discriminate.
  apply IH; [|split; auto]. specialize (B4 eq_refl ltac:(congruence)). lia.
Qed.

(** ticks are consecutive for any file *)
Lemma loop_ticks : (forall n, n ∈ order -> 0 <= wd w n) -> forall fuel lines d start s s' final, good_bufs d -> Inv s ->
  (1 <= start)%nat -> map s_tick (st_ticks s) = seq 1 (start - 1) ->
  loop F w order hash fuel lines d start s = Some (SOk (s', final)) ->
  (1 <= final)%nat /\ map s_tick (st_ticks s') = seq 1 (final - 1) /\ Inv s' /\
  (st_ticks s' <> [] -> st_ticks s <> [] -> st_ids s <> None -> st_ids s' <> None).
Proof.
  intros Hw. induction fuel as [|fuel IH]; intros lines d start s s' final [G1 G2] I Hs Ht H; [discriminate|]. cbn [loop] in H.
  destruct (read_input_safe lines 0 false d G1 G2) as [_ B].
  destruct (read_input lines 0 false d) as [[[rest d'] count]| | |] eqn:E; try discriminate.
  destruct (B _ _ _ eq_refl) as (B1 & B2 & _). destruct count as [|c].
  - injection H as <- <-. auto.
  - destruct (chunk F w order hash d' start 0 (S c) s) as [s1| | |] eqn:Ec; try discriminate.
    destruct (chunk_spec d' start Hw (S c) 0 s s1 (good_inp d' (conj B1 B2)) I Ec) as (I1 & _ & Hid & Hids & secs & Et & El & Hsec).
    destruct (IH rest d' (start + S c)%nat s1 s' final (conj B1 B2) I1 ltac:(lia)) as (A1 & A2 & A3 & A4); [|exact H|].
    + rewrite Et, map_app, Ht. replace (start + S c - 1)%nat with (start - 1 + S c)%nat by lia. rewrite seq_app. f_equal.
      replace (1 + (start - 1))%nat with start by lia. apply list_eq. intros j. rewrite list_lookup_fmap.
      destruct (secs !! j) as [sec|] eqn:Ej; unfold fmap, option_fmap, option_map.
      * destruct (Hsec _ _ Ej) as [Hsec' _]. rewrite Hsec'. symmetry. apply lookup_seq. split; [lia|].
        apply lookup_lt_Some in Ej. lia.
      * symmetry. apply lookup_ge_None. rewrite seq_length. apply lookup_ge_None in Ej. lia.
    + split; [exact A1|]. split; [exact A2|]. split; [exact A3|]. intros X Y Z. apply A4; [exact X| |].
      * rewrite Et. destruct (st_ticks s); [contradiction|discriminate].
      * destruct (Hid ltac:(congruence)) as [? ->]. discriminate.
Qed.
End Run.

Lemma tick_eq_inp F w inp inp' f n :
  (forall nd, w_nodes w !! n = Some nd -> n_op nd = IN -> inp (n_name nd) = inp' (n_name nd)) ->
  tick_eq F w inp f n -> tick_eq F w inp' f n.
Proof.
  intros He [nd Hn Ho Hi|nd c Hn Ho Hc|nd s rest Hn Ho Hop Hf|nd c arms a Hn Ho Hop Hc Hl Hf
    |nd c arms Hn Ho Hop Hc Hf|nd o t a b rest Hn Ho Hop Ht Hs|nd u t a rest Hn Ho Hop Ht Hs|nd k a rest Hn Ho Hop Hk Hf|nd k a rest Hn Ho Hop Hk Hf].
  - eapply te_in; eauto. now rewrite <- (He _ Hn Ho).
  - eapply te_const; eauto.
  - eapply te_out; eauto.
  - eapply te_mux; eauto.
  - eapply te_mux_wrap; eauto.
  - eapply te_bin; eauto.
  - eapply te_un; eauto.
  - eapply te_shl; eauto.
  - eapply te_shr; eauto.
Qed.

Lemma last_value_word b name v : Forall entry_ok b -> last_value b name = Some v -> 0 <= v < 2 ^ 64.
Proof.
  induction 1 as [|e b He Hb IH]; [discriminate|]. cbn [last_value].
  destruct (last_value b name); [intros E; injection E as ->; auto|].
  destruct (String.eqb _ _); [|discriminate]. intros E. injection E as <-.
  destruct He as (_ & _ & _ & Hl & Hv). split; [|exact Hv].
  destruct Hl as [Hl|(s & _ & Hl)]; eapply hex_digits_nonneg; eauto.
Qed.

Lemma file_lines_len bs : Forall block_ok bs -> bs <> [] -> exists fl, length (file_lines bs) = S fl.
Proof.
  intros Hb Hne. destruct bs as [|b bs]; [contradiction|]. inversion Hb as [|? ? [Hb1 _] _]; subst.
  destruct b as [|e b]; [contradiction|]. cbn [file_lines]. destruct bs; cbn; eauto.
Qed.

Section Files.
Variable F : fltops.
Variable w : world.
Variable order : list nat.
Variable hash : list nat -> list nat.
Variable h : list icmd.
Hypothesis HF : flt_words F.
Hypothesis R : elaborates F h w.
Hypothesis T : topological w order.
Hypothesis Hh : forall l, Permutation (hash l) l.
Hypothesis Hw : forall n, n ∈ order -> 0 <= wd w n.

Lemma inp_block bs i b n : Forall block_ok bs -> (length bs <= buf_size)%nat -> bs !! i = Some b -> n ∈ order ->
  covers w order b -> forall nd, w_nodes w !! n = Some nd -> n_op nd = IN ->
  tick_inp (store_all ∅ 0 bs) i (n_name nd) = last_value b (n_name nd).
Proof.
  intros Hb Hl Hi Ho Hc nd Hn Hin. rewrite (tick_inp_store_all bs i b) by auto.
  destruct (Hc n nd Ho Hn Hin) as [v ->]. reflexivity.
Qed.

Lemma good_store_all bs : Forall block_ok bs -> (length bs <= buf_size)%nat -> bs <> [] -> good_bufs (store_all ∅ 0 bs).
Proof.
  intros Hb Hl Hne. destruct good_empty as [G1 G2].
  destruct (read_input_safe (file_lines bs) 0 false ∅ G1 G2) as [_ B].
  destruct (B _ _ _ (read_blocks bs 0 false ∅ Hb Hne Hl G1)) as (B1 & B2 & _). split; auto.
Qed.

Lemma names_of_Inv s names : Inv w order s -> st_ids s = Some names -> names_ok w order names.
Proof.
  intros (_ & _ & H) E. rewrite E in H. destruct H as (keys & P & ->). split; [now rewrite gen_names_fst|].
  intros n name nd Hin Hn Hne. apply gen_names_spec in Hin as [_ [[_ ->]|[E' _]]].
  - unfold node_name. now rewrite Hn.
  - unfold node_name in E'. rewrite Hn in E'. contradiction.
Qed.

Theorem simulate_blocks bs : Forall block_ok bs -> bs <> [] -> (length bs <= buf_size)%nat -> Forall (covers w order) bs ->
  forall out names, simulate F w order hash (text_of (file_lines bs)) = Some (SOk (out, names)) ->
  length (v_ticks out) = length bs /\ v_final out = S (length bs) /\ names_ok w order names /\
  v_vars out = map (fun p => (wd w (fst p), snd p)) names /\
  forall i b sec, bs !! i = Some b -> v_ticks out !! i = Some sec ->
    s_tick sec = S i /\ exists f, words order f /\ (forall n, n ∈ order -> tick_eq F w (last_value b) f n) /\
      tick_shown w order names f (s_values sec).
Proof.
  intros Hb Hne Hl Hcov out names H. unfold simulate in H. rewrite (getlines_text _ (file_no_nl bs Hb)) in H.
  destruct (file_lines_len bs Hb Hne) as [fl EL]. rewrite EL in H. cbn [loop] in H.
  destruct good_empty as [G1 G2].
  rewrite (read_blocks bs 0 false ∅ Hb Hne Hl G1) in H. cbn [Nat.add] in H.
  destruct (length bs) as [|k] eqn:Ek; [destruct bs; [contradiction|discriminate]|].
  destruct (chunk F w order hash (store_all ∅ 0 bs) 1 0 (S k) (mkSt ∅ None [])) as [s| | |] eqn:Ec; try discriminate H.
  assert (Hgb : good_bufs (store_all ∅ 0 bs)) by (apply good_store_all; auto; lia).
  destruct (chunk_spec F w order hash h HF R T Hh _ 1 Hw (S k) 0 _ s (good_inp _ Hgb) (Inv_init w order) Ec)
    as (I & _ & Hid & _ & secs & Et & El & Hs).
  cbn [loop read_input] in H. injection H as <- <-. cbn [v_ticks v_final v_vars].
  destruct (Hid ltac:(congruence)) as [ids Eids]. rewrite Eids. cbn [default header].
  cbn [st_ticks app] in Et. rewrite Et.
  split; [lia|]. split; [lia|]. split; [eapply names_of_Inv; eauto|]. split; [reflexivity|].
  intros i b sec Hi Hsec. destruct (Hs i sec Hsec) as (A & f & ids' & E' & Wf & Sf & Sh). rewrite Eids in E'. injection E' as <-.
  split; [lia|]. exists f. split; [exact Wf|]. split; [|exact Sh].
  intros n Hn. eapply tick_eq_inp; [|apply (Sf n Hn)]. cbn [Nat.add]. intros nd Hnd Hin.
  eapply inp_block; eauto; [lia|]. rewrite Forall_forall in Hcov. apply Hcov. apply elem_of_list_lookup; eauto.
Qed.

Theorem simulate_runs bs : Forall block_ok bs -> bs <> [] -> (length bs <= buf_size)%nat -> Forall (covers w order) bs ->
  (forall n, n ∈ order -> 0 <= wd w n <= 64) ->
  (forall b, b ∈ bs -> exists f, words order f /\ forall n, n ∈ order -> tick_eq F w (last_value b) f n) ->
  exists out names, simulate F w order hash (text_of (file_lines bs)) = Some (SOk (out, names)).
Proof.
  intros Hb Hne Hl Hcov Hwd Hf. unfold simulate. rewrite (getlines_text _ (file_no_nl bs Hb)).
  destruct (file_lines_len bs Hb Hne) as [fl EL]. rewrite EL. cbn [loop]. destruct good_empty as [G1 G2].
  rewrite (read_blocks bs 0 false ∅ Hb Hne Hl G1). cbn [Nat.add].
  destruct (length bs) as [|k] eqn:Ek; [destruct bs; [contradiction|discriminate]|].
  assert (Hgb : good_bufs (store_all ∅ 0 bs)) by (apply good_store_all; auto; lia).
  destruct (chunk_total F w order hash h HF R T Hh (store_all ∅ 0 bs) 1 Hwd (S k) 0 (mkSt ∅ None [])
     (good_inp _ Hgb) (Inv_init w order)) as [s ->]; [lia| |].
  - intros j Hj. destruct (bs !! j) as [b|] eqn:Ej; [|apply lookup_ge_None in Ej; lia].
    destruct (Hf b) as (f & Wf & Sf); [apply elem_of_list_lookup; eauto|]. exists f. split; [exact Wf|].
    intros n Hn. eapply tick_eq_inp; [|apply (Sf n Hn)]. cbn [Nat.add]. intros nd Hnd Hin. symmetry.
    eapply inp_block; eauto; [lia|]. rewrite Forall_forall in Hcov. apply Hcov. apply elem_of_list_lookup; eauto.
  - cbn [loop read_input]. eauto.
Qed.

(** more than 200 blocks: the 201st tick indexes past the buffer *)
Theorem simulate_overrun bs : Forall block_ok bs -> (buf_size < length bs)%nat ->
  existsb (is_input w) order = true ->
  forall out, simulate F w order hash (text_of (file_lines bs)) <> Some (SOk out).
Proof.
  intros Hb Hl Hin out H. unfold simulate in H. rewrite (getlines_text _ (file_no_nl bs Hb)) in H.
  cbn [loop] in H.
  destruct good_empty as [G1 G2].
  destruct (read_blocks_long bs 0 false ∅ Hb) as (b & lo & ke & _ & _ & Er); [lia|exact buf_pos|exact G1|].
  rewrite Er in H. clear Er. replace (S buf_size) with (buf_size + 1)%nat in H by lia.
  rewrite chunk_app in H.
  destruct (chunk F w order hash _ 1 0 buf_size (mkSt ∅ None [])) as [s| | |]; cbn [sbind] in H;
    destruct (buf_size + 1)%nat eqn:E1 in H; try lia; try discriminate H.
  cbn [Nat.add chunk] in H. unfold one_tick in H. rewrite Nat.leb_refl, Hin in H. cbn in H. discriminate H.
Qed.
Theorem simulate_overrun_undefined bs : Forall block_ok bs -> (buf_size < length bs)%nat ->
  existsb (is_input w) order = true -> Forall (covers w order) bs ->
  (forall n, n ∈ order -> 0 <= wd w n <= 64) ->
  (forall b, b ∈ bs -> exists f, words order f /\ forall n, n ∈ order -> tick_eq F w (last_value b) f n) ->
  simulate F w order hash (text_of (file_lines bs)) = Some SUndef.
Proof.
  intros Hb Hl Hin Hcov Hwd Hf. unfold simulate. rewrite (getlines_text _ (file_no_nl bs Hb)).
  cbn [loop].
  destruct good_empty as [G1 G2].
  pose proof buf_pos as Hbp.
  destruct (read_blocks_long bs 0 false ∅ Hb) as (b & lo & ke & _ & _ & Er); [lia|exact Hbp|exact G1|].
  rewrite Er. clear Er. rewrite Nat.sub_0_r. set (pre := take buf_size bs).
  assert (Lp : length pre = buf_size) by (unfold pre; rewrite take_length; lia).
  assert (Bp : Forall block_ok pre) by (now apply Forall_take).
  assert (Np : pre <> []) by (intros E; rewrite E in Lp; cbn in Lp; lia).
  assert (Hgb : good_bufs (store_all ∅ 0 pre)) by (apply good_store_all; auto; lia).
  replace (S buf_size) with (buf_size + 1)%nat by lia. rewrite chunk_app.
  destruct (chunk_total F w order hash h HF R T Hh (store_all ∅ 0 pre) 1 Hwd buf_size 0 (mkSt ∅ None [])
     (good_inp _ Hgb) (Inv_init w order)) as [s ->]; [lia| |].
  - intros j Hj. destruct (pre !! j) as [b'|] eqn:Ej; [|apply lookup_ge_None in Ej; lia].
    assert (Hb' : b' ∈ bs) by (eapply elem_of_list_lookup_2, lookup_take_Some; exact Ej).
    destruct (Hf b' Hb') as (f & Wf & Sf). exists f. split; [exact Wf|].
    intros n Hn. eapply tick_eq_inp; [|apply (Sf n Hn)]. cbn [Nat.add]. intros nd Hnd Hi. symmetry.
    eapply inp_block; eauto; [lia|]. rewrite Forall_forall in Hcov. now apply Hcov.
  - cbn [sbind]. destruct (buf_size + 1)%nat eqn:E1; [lia|].
    cbn [Nat.add chunk]. unfold one_tick. rewrite Nat.leb_refl, Hin. reflexivity.
Qed.

(** any file: the result is defined, ticks are numbered 1,2,..., names are consistent *)
Theorem simulate_total file : simulate F w order hash file <> None.
Proof.
  unfold simulate. pose proof (loop_total F w order hash (S (length (getlines file ""))) (getlines file "") ∅ 1 (mkSt ∅ None [])
     ltac:(lia) good_empty) as H. destruct (loop _ _ _ _ _ _ _ _ _) as [[[s st0]| | |]|]; congruence.
Qed.
Theorem simulate_ticks file out names : simulate F w order hash file = Some (SOk (out, names)) ->
  exists total, map s_tick (v_ticks out) = seq 1 total /\ v_final out = S total /\
    v_vars out = map (fun p => (wd w (fst p), snd p)) names /\
    (names <> [] -> names_ok w order names /\
       (user_names_ok w order -> NoDup (map snd names))).
Proof.
  unfold simulate. destruct (loop _ _ _ _ _ _ _ _ _) as [[[s st0]| | |]|] eqn:E; try discriminate.
  intros H. injection H as <- <-.
  destruct (loop_ticks F w order hash h HF R T Hh Hw _ _ _ _ _ _ _ good_empty (Inv_init w order) (le_n 1) eq_refl E) as (A & B & I & _).
  exists (st0 - 1)%nat. cbn. split; [exact B|]. split; [lia|]. 
  destruct (st_ids s) as [ids|] eqn:Ei; cbn; [|split; [reflexivity|congruence]]. split; [reflexivity|]. intros _.
  split; [eapply names_of_Inv; eauto|]. intros U. destruct I as (_ & _ & I). rewrite Ei in I. destruct I as (keys & P & ->).
  assert (Hlive : forall n, n ∈ order -> node_name w n <> ""%string -> exists nd, w_nodes w !! n = Some nd /\ node_name w n = n_name nd).
  { intros n _ Hne. unfold node_name in *. destruct (w_nodes w !! n) as [nd|]; [eauto|contradiction]. }
  apply gen_names_NoDup.
  - rewrite P. apply T.
  - intros n m Hn Hm Hne Heq. rewrite P in Hn, Hm. destruct (Hlive n Hn Hne) as (nd & En & Enn).
    destruct (Hlive m Hm ltac:(congruence)) as (md & Em & Emn). apply (U n m nd md); auto; congruence.
  - intros n Hn G. rewrite P in Hn. assert (Hne : node_name w n <> ""%string).
    { intros E0. rewrite E0 in G. destruct G as [k G]. discriminate G. }
    destruct (Hlive n Hn Hne) as (nd & En & Enn). rewrite Enn in *. apply (U n n nd nd); auto.
Qed.

(** any file: every section shows a solution of the tick equations *)
Definition secs_ok (s : st) : Prop :=
  forall sec, sec ∈ st_ticks s -> exists f inp ids, st_ids s = Some ids /\ inp_words inp /\ words order f /\
    tick_solution F w inp order f /\ tick_shown w order ids f (s_values sec).
Lemma loop_secs : forall fuel lines d start s s' final, good_bufs d -> Inv w order s -> secs_ok s ->
  loop F w order hash fuel lines d start s = Some (SOk (s', final)) -> secs_ok s'.
Proof.
  induction fuel as [|fuel IH]; intros lines d start s s' final [G1 G2] I Hs H; [discriminate|]. cbn [loop] in H.
  destruct (read_input_safe lines 0 false d G1 G2) as [_ B].
  destruct (read_input lines 0 false d) as [[[rest d'] count]| | |] eqn:E; try discriminate.
  destruct (B _ _ _ eq_refl) as (B1 & B2 & _). destruct count as [|c].
  - injection H as <- <-. auto.
  - destruct (chunk F w order hash d' start 0 (S c) s) as [s1| | |] eqn:Ec; try discriminate.
    destruct (chunk_spec F w order hash h HF R T Hh d' start Hw (S c) 0 s s1 (good_inp d' (conj B1 B2)) I Ec) as (I1 & _ & Hid & Hids & secs & Et & El & Hsec).
    apply (IH _ _ _ _ _ _ (conj B1 B2) I1) in H; [exact H|].
    intros sec Hin. rewrite Et in Hin. apply elem_of_app in Hin as [Hin|Hin].
    + destruct (Hs sec Hin) as (f & inp & ids & A1 & A2). exists f, inp, ids. split; [auto|exact A2].
    + apply elem_of_list_lookup in Hin as [j Hj]. destruct (Hsec j sec Hj) as (_ & f & ids & A1 & A2 & A3 & A4).
      exists f, (tick_inp d' (0 + j)), ids. split; [exact A1|]. split; [apply good_inp; now split|]. auto.
Qed.
Theorem simulate_values file out names : simulate F w order hash file = Some (SOk (out, names)) ->
  forall sec, sec ∈ v_ticks out -> exists f inp, inp_words inp /\ words order f /\
    (forall n, n ∈ order -> tick_eq F w inp f n) /\ tick_shown w order names f (s_values sec).
Proof.
  unfold simulate. destruct (loop _ _ _ _ _ _ _ _ _) as [[[s st0]| | |]|] eqn:E; try discriminate.
  intros H. injection H as <- <-. intros sec Hin. cbn in Hin.
  assert (S0 : secs_ok (mkSt ∅ None [])) by (intros x Hx; now apply elem_of_nil in Hx).
  destruct (loop_secs _ _ _ _ _ _ _ good_empty (Inv_init w order) S0 E sec Hin) as (f & inp & ids & A1 & A2 & A3 & A4 & A5).
  rewrite A1. exists f, inp. auto.
Qed.

(** a kernel with a variable wider than 64 bits cannot be simulated for even one tick *)
Lemma write_values_wide v ids : forall keys vals, write_values w v ids keys = SOk vals -> forall n, n ∈ keys -> wd w n <= 64.
Proof.
  induction keys as [|m keys IH]; intros vals H n Hn; [now apply elem_of_nil in Hn|]. cbn [write_values] in H.
  destruct (value_to_binary (vget v m) (node_bits w m)) as [b| | |] eqn:Eb; try discriminate H. cbn [sbind] in H.
  destruct (id_of ids m); try discriminate H. cbn [sbind] in H.
  destruct (write_values w v ids keys) as [r| | |] eqn:Er; try discriminate H.
  apply elem_of_cons in Hn as [->|Hn]; [|eapply IH; eauto].
  unfold value_to_binary, node_bits in Eb. unfold wd. destruct (Z.leb_spec (match type_of w m with Some t => total_bits t | None => 0 end) 64); [exact H0|discriminate].
Qed.
Lemma chunk_wide d start : good_bufs d -> forall todo i s s', Inv w order s -> chunk F w order hash d start i (S todo) s = SOk s' ->
  forall n, n ∈ order -> wd w n <= 64.
Proof.
  intros G todo i s s' (I1 & I2 & I3) H. cbn [chunk] in H.
  destruct (one_tick F w order d i (st_vals s)) as [v| | |] eqn:E1; try discriminate H. cbn [sbind] in H.
  unfold one_tick in E1. destruct (_ && _); [discriminate E1|].
  set (ids := match st_ids s with Some ids => ids | None => gen_names w (keys_of hash v) 0 end) in *.
  destruct (write_values w v ids (keys_of hash v)) as [vals| | |] eqn:Ew; try discriminate H.
  intros n Hn. eapply write_values_wide; [exact Ew|]. rewrite keys_of_perm; [exact Hn|exact T|exact Hh|].
  intros m. rewrite (run_sim_dom _ _ _ _ _ _ E1 m). split; [intros [A|A]; auto|auto].
Qed.
Theorem simulate_wide file out names : simulate F w order hash file = Some (SOk (out, names)) ->
  v_ticks out <> [] -> forall n, n ∈ order -> wd w n <= 64.
Proof.
  unfold simulate. set (fuel := S _). cbn [loop fuel].
  destruct good_empty as [G1 G2]. destruct (read_input_safe (getlines file "") 0 false ∅ G1 G2) as [_ B].
  destruct (read_input (getlines file "") 0 false ∅) as [[[rest d'] count]| | |] eqn:E; try discriminate.
  destruct (B _ _ _ eq_refl) as (B1 & B2 & _). destruct count as [|c].
  - intros H. injection H as <- <-. cbn. congruence.
  - destruct (chunk F w order hash d' 1 0 (S c) (mkSt ∅ None [])) as [s1| | |] eqn:Ec; try discriminate.
    intros _ _. eapply chunk_wide; [split; [exact B1|exact B2]|apply Inv_init|exact Ec].
Qed.
End Files.
