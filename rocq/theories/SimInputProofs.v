(** Proofs about the simulation file parser and the VCD contents. *)
From Coq Require Import ZArith Bool String Ascii Lia DecimalString DecimalNat Decimal Permutation.
From stdpp Require Import gmap list strings.
From Verif Require Import Types Word Value OpSpec Graph GraphSpec WordProofs Sim SimSpec SimProofs SimFacts
     SimInput SimInputSpec.
Local Open Scope Z_scope.
Local Arguments String.append : simpl nomatch.

(** ** Strings *)
Lemma str_app_nil_r s : (s ++ "")%string = s.
Proof. induction s as [|c s IH]; cbn; [reflexivity|]. now rewrite IH. Qed.
Lemma str_app_assoc a b c : ((a ++ b) ++ c)%string = (a ++ b ++ c)%string.
Proof. induction a as [|x a IH]; cbn; [reflexivity|]. now rewrite IH. Qed.
Lemma str_app_inj_l a b c : (a ++ b = a ++ c -> b = c)%string.
Proof. induction a as [|x a IH]; cbn; [auto|]. intros H. injection H. auto. Qed.
Lemma char_in_cons c x s : char_in c (String x s) <-> c = x \/ char_in c s.
Proof.
  split.
  - intros [[|i] H]; cbn in H; [left; congruence|right; now exists i].
  - intros [->|[i H]]; [now exists 0%nat|now exists (S i)].
Qed.
Lemma char_in_nil c : ~ char_in c "".
Proof. intros [i H]. destruct i; discriminate H. Qed.
Lemma char_in_app c a b : char_in c (a ++ b) <-> char_in c a \/ char_in c b.
Proof.
  induction a as [|x a IH]; cbn [String.append].
  - split; [auto|]. intros [H|H]; [now apply char_in_nil in H|auto].
  - rewrite !char_in_cons, IH. tauto.
Qed.

(** ** Hexadecimal digits *)
Lemma digit_char_hex c d : digit_char c d -> hex_digit c = Some d /\ 0 <= d < 16 /\
  c <> "010"%char /\ c <> " "%char /\ is_ws c = false /\ c <> "-"%char /\ c <> "+"%char /\ c <> "x"%char /\ c <> "X"%char.
Proof.
  intros [Hd H].
  assert (Hlt : (Z.to_nat d < 16)%nat).
  { destruct (Nat.ltb_spec (Z.to_nat d) 16) as [L|L]; [exact L|exfalso].
    assert (G : forall s i, (String.length s <= i)%nat -> String.get i s = None).
    { induction s as [|x s IH]; intros i Hi; [destruct i; reflexivity|].
      cbn in Hi. destruct i as [|i]; [lia|]. cbn. apply IH. lia. }
    destruct H as [H|H]; rewrite G in H by (cbn; lia); discriminate H. }
  rewrite <- (Z2Nat.id d Hd). generalize dependent (Z.to_nat d). intros k H Hk. clear Hd d.
  do 16 (destruct k as [|k]; [destruct H as [H|H]; cbn in H; injection H as <-; repeat split; try reflexivity; try discriminate; try lia|]).
  lia.
Qed.
Lemma scan_hex_app s v : hex_digits s v -> forall acc t,
  scan_hex (s ++ t) acc = scan_hex t (acc * 16 ^ Z.of_nat (String.length s) + v).
Proof.
  intros H. induction H as [c d H|s v c d H IH Hc]; intros acc t.
  - cbn [String.append scan_hex String.length]. destruct (digit_char_hex _ _ H) as [-> _]. f_equal. cbn; lia.
  - rewrite str_app_assoc, IH. cbn [String.append scan_hex].
    destruct (digit_char_hex _ _ Hc) as [-> _]. f_equal.
    assert (El : String.length (s ++ String c "") = S (String.length s)).
    { clear. induction s as [|x s IH]; cbn; [reflexivity|]. now rewrite IH. }
    rewrite El, Nat2Z.inj_succ, Z.pow_succ_r by lia. lia.
Qed.
Lemma hex_digits_scan s v : hex_digits s v -> scan_hex s 0 = v.
Proof. intros H. rewrite <- (str_app_nil_r s), (scan_hex_app _ _ H). cbn. lia. Qed.
Lemma hex_digits_nonneg s v : hex_digits s v -> 0 <= v.
Proof. intros H. induction H as [c d [H _]|s v c d H IH [Hd _]]; lia. Qed.
Lemma hex_digits_head s v : hex_digits s v -> exists c s' d, s = String c s' /\ digit_char c d.
Proof.
  intros H. induction H as [c d H|s v c d H IH Hd]; [eauto|].
  destruct IH as (c0 & s' & d0 & -> & H0). cbn. eauto.
Qed.
Lemma hex_digits_chars s v : hex_digits s v -> forall c, char_in c s -> exists d, digit_char c d.
Proof.
  intros H. induction H as [c d H|s v c d H IH Hd]; intros c0 Hc.
  - apply char_in_cons in Hc as [->|Hc]; [eauto|now apply char_in_nil in Hc].
  - apply char_in_app in Hc as [Hc|Hc]; [auto|].
    apply char_in_cons in Hc as [->|Hc]; [eauto|now apply char_in_nil in Hc].
Qed.
Lemma hex_literal_chars s v : hex_literal s v -> s <> ""%string /\ ~ char_in "010" s.
Proof.
  intros [H|(s' & E & H)].
  - split; [destruct (hex_digits_head _ _ H) as (? & ? & ? & -> & _); discriminate|].
    intros Hc. destruct (hex_digits_chars _ _ H _ Hc) as (d & Hd). now apply digit_char_hex in Hd.
  - assert (G : ~ char_in "010" s').
    { intros Hc. destruct (hex_digits_chars _ _ H _ Hc) as (d & Hd). now apply digit_char_hex in Hd. }
    split; [destruct E as [->| ->]; discriminate|].
    intros Hc. destruct E as [->| ->]; cbn in Hc; rewrite !char_in_cons in Hc; destruct Hc as [Hc|[Hc|Hc]]; auto; discriminate.
Qed.

Lemma strip_digits s v : hex_digits s v -> strip_0x s = s.
Proof.
  intros H. destruct (hex_digits_head _ _ H) as (c & s' & d & -> & Hd).
  unfold strip_0x. destruct s' as [|x s']; [now destruct c as [[] [] [] [] [] [] [] []]|].
  assert (Hx : exists d, digit_char x d).
  { eapply hex_digits_chars; eauto. rewrite !char_in_cons. auto. }
  destruct Hx as (dx & Hx). apply digit_char_hex in Hx as (_ & _ & _ & _ & _ & _ & _ & Nx & NX).
  destruct c as [[] [] [] [] [] [] [] []]; try reflexivity.
  destruct (Ascii.eqb_spec x "x"); [contradiction|]. destruct (Ascii.eqb_spec x "X"); [contradiction|]. reflexivity.
Qed.
Lemma starts_digits s v : hex_digits s v -> starts_digit s = true.
Proof.
  intros H. destruct (hex_digits_head _ _ H) as (c & s' & d & -> & Hd). cbn.
  now destruct (digit_char_hex _ _ Hd) as [-> _].
Qed.
Lemma stoul_literal s v : hex_literal s v -> v < 2 ^ 64 -> stoul s = SOk v.
Proof.
  intros H Hv.
  assert (G : forall s0, starts_digit s0 = true -> scan_hex (strip_0x s0) 0 = v -> s0 = s -> stoul s = SOk v).
  { intros s0 Hs Hsc ->. unfold stoul.
    destruct s as [|c s']; [discriminate|]. cbn in Hs. destruct (hex_digit c) as [d|] eqn:Ed; [|discriminate].
    assert (Hc : is_ws c = false /\ c <> "-"%char /\ c <> "+"%char).
    { destruct c as [[] [] [] [] [] [] [] []]; try discriminate Ed; repeat split; discriminate. }
    destruct Hc as (Hw & Hm & Hp).
    assert (E : skip_ws (String c s') = String c s') by (cbn; now rewrite Hw). rewrite E.
    destruct (match String c s' with String "-" s'' => (true, s'') | String "+" s'' => (false, s'') | _ => (false, String c s') end) as [neg s1] eqn:Em.
    assert (neg = false /\ s1 = String c s') as [-> ->].
    { clear -Em Hm Hp. destruct c as [[] [] [] [] [] [] [] []]; try (injection Em as <- <-; auto; fail); contradiction. }
    replace (starts_digit (String c s')) with true by (cbn; now rewrite Ed).
    rewrite Hsc. destruct (Z.ltb_spec v two64) as [L|L]; [reflexivity|]. rewrite two64_eq in L. lia. }
  destruct H as [H|(s' & E & H)].
  - apply (G s); auto; [eapply starts_digits; eauto|]. rewrite (strip_digits _ _ H). now apply hex_digits_scan.
  - assert (S' := starts_digits _ _ H). assert (V := hex_digits_scan _ _ H).
    assert (Q : forall x, x = "x"%char \/ x = "X"%char -> strip_0x (String "0" (String x s')) = s').
    { intros x [->| ->]; cbv [strip_0x]; cbn [Ascii.eqb Bool.eqb orb andb]; now rewrite S'. }
    destruct E as [->| ->]; (eapply G; [| |reflexivity]; [reflexivity|cbn [String.append]; rewrite Q by auto; exact V]).
Qed.

(** ** Lines *)
Lemma split_space_line name val : ~ char_in " " name -> split_space (name ++ String " " val) = Some (name, val).
Proof.
  induction name as [|c name IH]; intros H; cbn; [reflexivity|].
  rewrite char_in_cons in H. destruct (Ascii.eqb_spec c " ") as [->|Hne]; [exfalso; auto|].
  rewrite IH by auto. reflexivity.
Qed.
Lemma parse_entry e : entry_ok e -> parse_line (entry_line e) = Some (e_name e, e_text e) /\ entry_line e <> ""%string.
Proof.
  intros (Hn & Hs & _ & Hl & _). unfold parse_line, entry_line. cbn [String.append].
  rewrite split_space_line by auto. apply hex_literal_chars in Hl as [Hl _].
  destruct (String.eqb_spec (e_name e) ""); [contradiction|]. destruct (String.eqb_spec (e_text e) ""); [contradiction|].
  split; [reflexivity|]. destruct (e_name e); discriminate.
Qed.
Lemma getlines_line l s : ~ char_in nl l -> forall cur, getlines (l ++ String nl s) cur = (cur ++ l)%string :: getlines s "".
Proof.
  induction l as [|c l IH]; intros H cur; cbn [getlines String.append].
  - rewrite Ascii.eqb_refl. now rewrite str_app_nil_r.
  - rewrite char_in_cons in H. destruct (Ascii.eqb_spec c nl) as [->|Hne]; [exfalso; auto|].
    rewrite IH by auto. rewrite str_app_assoc. reflexivity.
Qed.
Lemma getlines_text ls : Forall (fun l => ~ char_in nl l) ls -> getlines (text_of ls) "" = ls.
Proof.
  induction 1 as [|l ls H _ IH]; [reflexivity|]. cbn [text_of]. rewrite getlines_line by auto. now rewrite IH.
Qed.
Lemma entry_no_nl e : entry_ok e -> ~ char_in nl (entry_line e).
Proof.
  intros (_ & _ & Hn & Hl & _) H. apply hex_literal_chars in Hl as [_ Hl].
  unfold entry_line in H. apply char_in_app in H as [H|H]; [auto|]. cbn in H. apply char_in_cons in H as [H|H]; [discriminate|auto].
Qed.
Lemma file_no_nl bs : Forall block_ok bs -> Forall (fun l => ~ char_in nl l) (file_lines bs).
Proof.
  assert (G : forall b, block_ok b -> Forall (fun l => ~ char_in nl l) (map entry_line b)).
  { intros b [_ H]. apply Forall_map. eapply Forall_impl; [exact H|]. intros e He. now apply entry_no_nl. }
  induction 1 as [|b bs Hb Hbs IH]; [constructor|]. cbn [file_lines]. destruct bs as [|b' bs]; [auto|].
  apply Forall_app. split; [auto|]. constructor; [apply char_in_nil|exact IH].
Qed.

(** ** Buffers *)
Local Opaque buf_size.
Definition put (d : iovars) (i : nat) (e : entry) : iovars :=
  <[e_name e := <[i := e_val e]> (default (replicate buf_size 0) (d !! e_name e))]> d.
Definition bufs_ok (d : iovars) : Prop := forall name buf, d !! name = Some buf -> length buf = buf_size.
Definition rd (d : iovars) (name : string) (i : nat) : Z :=
  default 0 (default (replicate buf_size 0) (d !! name) !! i).
Definition store (d : iovars) (i : nat) (b : block) : iovars := fold_left (fun d e => put d i e) b d.
Fixpoint store_all (d : iovars) (i : nat) (bs : list block) : iovars :=
  match bs with [] => d | b :: bs' => store_all (store d i b) (S i) bs' end.

Lemma put_ok d i e : bufs_ok d -> bufs_ok (put d i e).
Proof.
  intros H name buf. unfold put. rewrite lookup_insert_Some. intros [[_ <-]|[_ E]]; [|eauto].
  rewrite insert_length. destruct (d !! e_name e) eqn:E; cbn; [eauto|apply replicate_length].
Qed.
Lemma store_ok b : forall d i, bufs_ok d -> bufs_ok (store d i b).
Proof. induction b as [|e b IH]; intros d i H; [exact H|]. cbn. apply IH. now apply put_ok. Qed.
Lemma write_put d i e : bufs_ok d -> (i < buf_size)%nat -> write d (e_name e) i (e_val e) = SOk (put d i e).
Proof.
  intros H Hi. unfold write. destruct (Nat.ltb_spec i (length (default (replicate buf_size 0) (d !! e_name e)))) as [L|L]; [reflexivity|].
  exfalso. destruct (d !! e_name e) eqn:E; cbn in L; [rewrite (H _ _ E) in L|rewrite replicate_length in L]; lia.
Qed.
Lemma rd_put d i e name j : bufs_ok d -> (i < buf_size)%nat ->
  rd (put d i e) name j = if decide (name = e_name e /\ j = i) then e_val e else rd d name j.
Proof.
  intros H Hi. unfold rd, put. destruct (decide (name = e_name e)) as [->|Hne].
  - rewrite lookup_insert. set (old := default (replicate buf_size 0) (d !! e_name e)).
    change (default (replicate buf_size 0) (Some (<[i:=e_val e]> old))) with (<[i:=e_val e]> old).
    assert (Hl : length old = buf_size).
    { unfold old. destruct (d !! e_name e) eqn:E; cbn; [eauto|apply replicate_length]. }
    destruct (decide (j = i)) as [->|Hj].
    + rewrite decide_True by auto. rewrite list_lookup_insert by lia. reflexivity.
    + rewrite decide_False by tauto. rewrite list_lookup_insert_ne by congruence. reflexivity.
  - rewrite decide_False by tauto. rewrite lookup_insert_ne by congruence. reflexivity.
Qed.
Lemma rd_store b : forall d i name j, bufs_ok d -> (i < buf_size)%nat ->
  rd (store d i b) name j = if decide (j = i) then default (rd d name j) (last_value b name) else rd d name j.
Proof.
  induction b as [|e b IH]; intros d i name j H Hi.
  - cbn. now destruct (decide (j = i)).
  - change (store d i (e :: b)) with (store (put d i e) i b). rewrite IH by (auto using put_ok).
    cbn [last_value]. destruct (decide (j = i)) as [->|Hj].
    + rewrite rd_put by auto. destruct (last_value b name); [reflexivity|]. cbn [default id].
      destruct (String.eqb_spec (e_name e) name) as [<-|Hne]; [now rewrite decide_True|now rewrite decide_False by (intros [-> _]; auto)].
    + rewrite rd_put by auto. now rewrite decide_False by tauto.
Qed.
Lemma seen_store b : forall d i name,
  is_Some (store d i b !! name) <-> is_Some (d !! name) \/ is_Some (last_value b name).
Proof.
  induction b as [|e b IH]; intros d i name; cbn [store fold_left last_value].
  - split; [auto|]. intros [H|[? H]]; [auto|discriminate].
  - change (fold_left (fun d0 e0 => put d0 i e0) b (put d i e)) with (store (put d i e) i b). rewrite IH.
    unfold put. rewrite lookup_insert_is_Some'.
    destruct (last_value b name) as [v|].
    + split; [intros _; right; eauto|right; eauto].
    + destruct (String.eqb_spec (e_name e) name) as [<-|Hne].
      * split; [right; eauto|intros _; left; auto].
      * split; [intros [[H|H]|[? H]]; [contradiction|auto|discriminate]|intros [H|[? H]]; [auto|discriminate]].
Qed.
Lemma rd_store_all bs : forall d i name j, bufs_ok d -> (i + length bs <= buf_size)%nat ->
  rd (store_all d i bs) name j =
  match bs !! (j - i)%nat with
  | Some b => if decide (i <= j)%nat then default (rd d name j) (last_value b name) else rd d name j
  | None => rd d name j
  end.
Proof.
  induction bs as [|b bs IH]; intros d i name j H Hi; cbn [store_all].
  - now rewrite lookup_nil.
  - cbn in Hi. rewrite IH by (try apply store_ok; auto; lia).
    rewrite rd_store by (auto; lia).
    destruct (decide (j = i)) as [->|Hj].
    + rewrite Nat.sub_diag. cbn [lookup list_lookup]. rewrite (decide_True (P := (i <= i)%nat)) by lia.
      destruct (bs !! (i - S i)%nat); [rewrite decide_False by lia|]; reflexivity.
    + destruct (decide (i <= j)%nat) as [L|L].
      * replace (j - i)%nat with (S (j - S i)%nat) by lia. cbn [lookup list_lookup]. 
        change (list_lookup (j - S i)%nat bs) with (bs !! (j - S i)%nat).
        destruct (bs !! (j - S i)%nat); [rewrite decide_True by lia|]; reflexivity.
      * replace (j - S i)%nat with 0%nat by lia. replace (j - i)%nat with 0%nat by lia.
        cbn [lookup list_lookup]. destruct bs; cbn; [reflexivity|]. rewrite decide_False by lia. reflexivity.
Qed.
Lemma seen_store_all bs : forall d i name,
  is_Some (store_all d i bs !! name) <-> is_Some (d !! name) \/ exists b, b ∈ bs /\ is_Some (last_value b name).
Proof.
  induction bs as [|b bs IH]; intros d i name; cbn [store_all].
  - split; [auto|]. intros [H|(b & H & _)]; [auto|now apply elem_of_nil in H].
  - rewrite IH, seen_store. setoid_rewrite elem_of_cons. split.
    + intros [[H|H]|(b' & H1 & H2)]; [auto|right; exists b; auto|right; exists b'; auto].
    + intros [H|(b' & [->|H1] & H2)]; [auto|auto|right; exists b'; auto].
Qed.

(** ** Reading *)
Lemma store_all_ok bs : forall d i, bufs_ok d -> bufs_ok (store_all d i bs).
Proof. induction bs as [|b bs IH]; intros d i H; [exact H|]. cbn. apply IH. now apply store_ok. Qed.

Lemma read_block b rest ind : Forall entry_ok b -> (ind < buf_size)%nat -> forall one d, bufs_ok d ->
  read_input (map entry_line b ++ rest) ind one d =
  read_input rest ind (one || negb (bool_decide (b = []))) (store d ind b).
Proof.
  intros Hb Hi. induction Hb as [|e b He Hb IH]; intros one d Hd.
  - cbn. now rewrite orb_false_r.
  - cbn [map app read_input]. destruct (Nat.ltb_spec ind buf_size) as [_|L]; [|lia].
    destruct (parse_entry e He) as [Hp Hne]. destruct (String.eqb_spec (entry_line e) ""); [contradiction|].
    rewrite Hp. destruct He as (_ & _ & _ & Hl & Hv). rewrite (stoul_literal _ _ Hl Hv). cbn [sbind].
    rewrite write_put by auto. cbn [sbind]. rewrite IH by (now apply put_ok).
    rewrite (bool_decide_eq_false_2 (e :: b = [])) by discriminate. now rewrite !orb_true_r.
Qed.

(** a file of at most 200 blocks is read completely in one go *)
Lemma read_blocks bs : forall ind one d, Forall block_ok bs -> bs <> [] -> (ind + length bs <= buf_size)%nat -> bufs_ok d ->
  read_input (file_lines bs) ind one d = SOk ([], store_all d ind bs, (ind + length bs)%nat).
Proof.
  induction bs as [|b bs IH]; intros ind one d Hb Hne Hi Hd; [contradiction|].
  inversion Hb as [|? ? [Hb1 Hb2] Hbs]; subst. cbn in Hi. cbn [file_lines]. destruct bs as [|b' bs].
  - rewrite <- (app_nil_r (map entry_line b)). rewrite read_block by (auto; lia). cbn.
    rewrite bool_decide_eq_false_2 by auto. rewrite orb_true_r. do 2 f_equal. lia.
  - rewrite read_block by (auto; lia). rewrite (bool_decide_eq_false_2 (b = [])) by auto. rewrite orb_true_r.
    cbn [read_input]. destruct (Nat.ltb_spec ind buf_size) as [_|L]; [|lia]. cbn [String.eqb].
    rewrite IH; [|auto|discriminate|cbn in *; lia|now apply store_ok].
    cbn [store_all length]. do 2 f_equal. lia.
Qed.
(** beyond that, the reader reports 201 blocks and swallows the next line *)
Lemma read_blocks_long bs : forall ind one d, Forall block_ok bs -> (buf_size < ind + length bs)%nat -> (ind < buf_size)%nat -> bufs_ok d ->
  exists b lost kept,
    bs !! (buf_size - ind)%nat = Some b /\ b = lost :: kept /\
    read_input (file_lines bs) ind one d =
      SOk (tail (file_lines (drop (buf_size - ind) bs)), store_all d ind (take (buf_size - ind) bs), S buf_size).
Proof.
  induction bs as [|b bs IH]; intros ind one d Hb Hi Hl Hd; [cbn in Hi; lia|].
  inversion Hb as [|? ? [Hb1 Hb2] Hbs]; subst. cbn in Hi. destruct bs as [|b' bs]; [cbn in Hi; lia|].
  change (file_lines (b :: b' :: bs)) with (map entry_line b ++ ""%string :: file_lines (b' :: bs)).
  rewrite read_block by (auto; lia). rewrite (bool_decide_eq_false_2 (b = [])) by auto. rewrite orb_true_r.
  cbn [read_input]. destruct (Nat.ltb_spec ind buf_size) as [_|L]; [|lia]. cbn [String.eqb].
  replace (buf_size - ind)%nat with (S (buf_size - S ind)%nat) by lia.
  cbn [lookup list_lookup drop take store_all]. change (list_lookup (buf_size - S ind)%nat (b' :: bs)) with ((b' :: bs) !! (buf_size - S ind)%nat).
  destruct (decide (S ind = buf_size)) as [E|E].
  - inversion Hbs as [|? ? [Hb1' Hb2'] Hbs']; subst. destruct b' as [|e b']; [contradiction|].
    exists (e :: b'), e, b'. rewrite E, Nat.sub_diag. split; [reflexivity|]. split; [reflexivity|].
    rewrite drop_0. cbn [take store_all].
    assert (Ef : exists t, file_lines ((e :: b') :: bs) = entry_line e :: t).
    { cbn [file_lines]. destruct bs; cbn; eauto. }
    destruct Ef as [t Et]. unfold block in *. rewrite Et. cbn [read_input tail]. now rewrite Nat.ltb_irrefl.
  - destruct (IH (S ind) true (store d ind b)) as (b0 & lo & ke & A & B & C); [auto|cbn in *; lia|lia|now apply store_ok|].
    exists b0, lo, ke. split; [exact A|]. split; [exact B|]. exact C.
Qed.

(** what a tick reads *)
Lemma tick_inp_store_all bs i b name : Forall block_ok bs -> (length bs <= buf_size)%nat -> bs !! i = Some b ->
  tick_inp (store_all ∅ 0 bs) i name =
  match last_value b name with
  | Some v => Some v
  | None => if existsb (fun b' => match last_value b' name with Some _ => true | None => false end) bs then Some 0 else None
  end.
Proof.
  intros Hb Hl Hi. assert (Hok : bufs_ok ∅) by (intros n buf; rewrite lookup_empty; discriminate).
  pose proof (rd_store_all bs ∅ 0 name i Hok Hl) as Hr. rewrite Nat.sub_0_r, Hi in Hr.
  rewrite decide_True in Hr by lia.
  assert (Hz : rd ∅ name i = 0).
  { unfold rd. rewrite lookup_empty. cbn [default id]. destruct (replicate buf_size 0 !! i) eqn:E; [|reflexivity].
    apply lookup_replicate in E as [-> _]. reflexivity. }
  rewrite Hz in Hr. unfold tick_inp.
  pose proof (seen_store_all bs ∅ 0 name) as Hs. rewrite lookup_empty in Hs.
  assert (Hlt : (i < buf_size)%nat) by (apply lookup_lt_Some in Hi; lia).
  destruct (store_all ∅ 0 bs !! name) as [buf|] eqn:Eb.
  - unfold rd in Hr. rewrite Eb in Hr. cbn [default id] in Hr.
    assert (Hlb : length buf = buf_size) by (eapply store_all_ok; eauto).
    destruct (buf !! i) as [x|] eqn:Ex; [|apply lookup_ge_None in Ex; lia]. cbn [default id] in Hr. subst x.
    destruct (last_value b name) as [v|]; [reflexivity|]. cbn [default id].
    replace (existsb _ bs) with true; [reflexivity|]. symmetry. apply existsb_exists.
    destruct Hs as [Hs _]. destruct Hs as [[? ?]|(b' & Hb' & Hv)]; [eauto|discriminate|].
    exists b'. split; [now apply elem_of_list_In|]. destruct Hv as [v ->]. reflexivity.
  - destruct (last_value b name) as [v|] eqn:El.
    + exfalso. destruct Hs as [_ Hs]. destruct Hs as [? H]; [|discriminate]. right. exists b. split; [apply elem_of_list_lookup; eauto|eauto].
    + destruct (existsb _ bs) eqn:Ee; [|reflexivity]. exfalso. apply existsb_exists in Ee as (b' & Hb' & Hv).
      destruct (last_value b' name) as [v|] eqn:El'; [|discriminate]. destruct Hs as [_ Hs].
      destruct Hs as [? H]; [|discriminate]. right. exists b'. split; [now apply elem_of_list_In|eauto].
Qed.
