(** * Rules for the API calls, continued (proofs). *)
From Coq Require Import ZArith Bool String Lia.
From stdpp Require Import gmap list.
From Verif Require Import Types Word Value OpSpec Graph GraphSpec TypingSpec TypesProofs BuilderProofs BuilderProofs2 BuilderTopo GraphFacts StreamSpec Dfcir DfcirBuild
     Verilog Stubs Naming Firrtl Lower RtlSpec KernelSpec KernelValues Instance InstanceSpec InstanceLoop InstanceMain InstanceStep InstanceFlow LifeProofs ProgTyping SliceFacts Prog ProgFrame ProgRules.
Local Open Scope Z_scope.

Section Calls.
Variable F : fltops.

Lemma one_type {A B} (P : A -> B -> Prop) a ts : Forall2 P [a] ts -> exists t, ts = [t] /\ P a t.
Proof. intro H. inversion H as [|? t ? l E H']. inversion H'. eauto. Qed.
Lemma two_types {A B} (P : A -> B -> Prop) a b ts : Forall2 P [a; b] ts -> exists t u, ts = [t; u] /\ P a t /\ P b u.
Proof. intro H. inversion H as [|? t ? l E H']. apply one_type in H' as (u & -> & Hu). eauto 6. Qed.

Lemma step_old {V} (I : interp V) w c w' r n i x : step F w c = Ok (w', r) -> WF w -> (forall a b, c <> CConnect a b) -> is_Some (w_nodes w !! n) -> kval I w n i x -> kval I w' n i x.
Proof. intros S W NC L. apply (step_kval F I w c w' r S W NC n i x L). Qed.
Lemma utype_kind t W : utype t W -> utype (kind t) W.
Proof. intros [-> | ->]; left; reflexivity. Qed.
Lemma num_unsigned t W x : utype t W -> 0 < W < 65536 -> h_num (t, x) = x.
Proof. intros U H. destruct (utype_facts t W U H) as (E & _). unfold h_num, num. cbn. rewrite E. reflexivity. Qed.

(** value of a one-operand operation *)
Lemma un_value e w c w' r k o t a W1 x W2 g : step F w c = Ok (w', r) -> WF w -> (forall a b, c <> CConnect a b) ->
  new_node w w' r k o t VStream EmptyString [a] ->
  (match o with BIN _ | UN _ | CAST | SHL _ | SHR _ | BITS _ _ | CAT => True | _ => False end) ->
  utype t W2 -> 0 < W1 < 65536 -> 0 < W2 < 65536 ->
  (forall ta v, utype ta W1 -> 0 <= v < 2 ^ W1 -> hw_op o t [(ta, v)] = Some (kind t, g v) /\ 0 <= g v < 2 ^ W2) ->
  arg e w k a W1 x ->
  forall i, 0 <= i -> utype (kind t) W2 /\ kval (hw e) w' r i (kind t, g (x i)) /\ 0 <= g (x i) < 2 ^ W2.
Proof.
  intros S W NC NN Ho UT H1 H2 HV A i Hi. destruct (a_val _ _ _ _ _ _ A) as (f & V). destruct (V i Hi) as (U & K & R). destruct (HV (f i) (x i) U R) as [E B]. split; [exact (utype_kind _ _ UT)|]. split; [|exact B].
  pose proof NN as (Fr & (nd & Hr & Er & Ht & _) & Hin & Hl). eapply kv_op; [exact Hr|rewrite Er; exact Ho|unfold type_of; rewrite Hr; exact Ht|exact Hi| |].
  - unfold operands. rewrite Hin, imap_src. constructor; [|constructor]. exact (step_old _ _ _ _ _ _ _ _ S W NC (Hl a ltac:(constructor)) K).
  - rewrite Er. exact E.
Qed.
Lemma bin_value e w c w' r k o t a b W1 x W2 y W3 g : step F w c = Ok (w', r) -> WF w -> (forall a b, c <> CConnect a b) ->
  new_node w w' r k o t VStream EmptyString [a; b] ->
  (match o with BIN _ | UN _ | CAST | SHL _ | SHR _ | BITS _ _ | CAT => True | _ => False end) ->
  utype t W3 -> 
  (forall ta va tb vb, utype ta W1 -> 0 <= va < 2 ^ W1 -> utype tb W2 -> 0 <= vb < 2 ^ W2 -> hw_op o t [(ta, va); (tb, vb)] = Some (kind t, g va vb) /\ 0 <= g va vb < 2 ^ W3) ->
  arg e w k a W1 x -> arg e w k b W2 y ->
  forall i, 0 <= i -> utype (kind t) W3 /\ kval (hw e) w' r i (kind t, g (x i) (y i)) /\ 0 <= g (x i) (y i) < 2 ^ W3.
Proof.
  intros S W NC NN Ho UT HV A B i Hi. destruct (a_val _ _ _ _ _ _ A) as (f & V). destruct (V i Hi) as (U & K & R).
  destruct (a_val _ _ _ _ _ _ B) as (f' & V'). destruct (V' i Hi) as (U' & K' & R'). destruct (HV (f i) (x i) (f' i) (y i) U R U' R') as [E Q]. split; [exact (utype_kind _ _ UT)|]. split; [|exact Q].
  pose proof NN as (Fr & (nd & Hr & Er & Ht & _) & Hin & Hl). eapply kv_op; [exact Hr|rewrite Er; exact Ho|unfold type_of; rewrite Hr; exact Ht|exact Hi| |].
  - unfold operands. rewrite Hin, imap_src. constructor; [exact (step_old _ _ _ _ _ _ _ _ S W NC (Hl a ltac:(constructor)) K)|]. constructor; [|constructor].
    exact (step_old _ _ _ _ _ _ _ _ S W NC (Hl b ltac:(right; constructor)) K').
  - rewrite Er. exact E.
Qed.

(** ** Types and constants *)
Lemma rule_type T h w t : st F T h w -> wf_type t -> wp F T h w (call (CType t)) (fun w' ty => fr T w w' /\ w_types w' !! ty = Some t).
Proof.
  intros S WT. pose proof (st_WF F T h w S) as W. eapply (wp_call F T h w (CType t)); [exact S|reflexivity|exact I|intros t' E; injection E as <-; exact WT|].
  assert (TY : forall i ty, w_types w !! i = Some ty -> w_types (fst (add_type w t)) !! i = Some ty) by (intros i ty H; cbn; apply lookup_app_l_Some, H).
  split; [|cbn; rewrite lookup_app_r, Nat.sub_diag by lia; reflexivity]. constructor.
  - apply gr_types_only; [reflexivity|reflexivity|exact TY].
  - exact (type_frame w t).
  - reflexivity.
  - intros _. apply tidy_same; [reflexivity|reflexivity|exact TY|exact W].
Qed.
Lemma rule_const T h w ty W c : st F T h w -> w_types w !! ty = Some (TFixed false W 0) -> 0 < W < 65536 -> 0 <= c < 2 ^ 64 -> is_Some (w_top w) ->
  wp F T h w (call (CConst ty c)) (fun w' r => fr T w w' /\ const_of w' r (TFixed false W 0) c).
Proof.
  intros S Ht HW Hc (k & Hk). pose proof (st_WF F T h w S) as WFw. destruct (cs_top _ (proj1 WFw) k Hk) as (g & Hg).
  assert (exists w' r, step F w (CConst ty c) = Ok (w', r)) as (w' & r & E).
  { cbn [step]. unfold create_or_use_const, get_type. rewrite Ht. cbn [of_opt rbind]. rewrite Hk. cbn [of_opt rbind]. rewrite Hg. cbn [of_opt rbind].
    destruct (List.find _ _); [eauto|]. unfold add_node. rewrite Hg. cbn [of_opt rbind]. eauto. }
  destruct (step_ext F _ _ _ _ E WFw) as [[W' P] (t & Et & CR)]. rewrite Ht in Et. injection Et as <-. rewrite Z.mod_small in CR by lia.
  eapply wp_call; [exact S|exact E|exact I|discriminate|]. split; [|exact (proj1 CR)].
  pose proof (gr_constr w w' r _ _ WFw W' P CR) as G. constructor; [exact G|exact (step_frame F _ _ _ _ E ltac:(discriminate))|exact (step_names F _ _ _ _ E WFw I)|].
  intros _ Ty. destruct CR as (CO & [->|(Fr & Hin & _)]); [exact Ty|]. destruct CO as (nd & Hr & Ev & Eo & Et).
  eapply (tidy_node [] w w' r (n_meta nd) (CONST c) (TFixed false W 0) VConst (n_name nd) []); [exact WFw|exact W'|exact G|exact P| |intros a Ha; inversion Ha| | |left; cbn; lia|discriminate|exact I|exact Ty].
  - split; [exact Fr|]. split; [exists nd; auto 10|]. split; [exact Hin|]. intros a Ha. inversion Ha.
  - apply (utype_facts (TFixed false W 0) W); [left; reflexivity|exact HW].
  - intros ts lat F2. inversion F2. cbn. auto.
Qed.

(** ** Operations *)
Lemma const_value_none w a nd : WF w -> w_nodes w !! a = Some nd -> ~ is_const w a -> const_value nd = None.
Proof. intros W H N. unfold const_value. destruct (n_vk nd) eqn:E; try reflexivity. exfalso. apply N. exists nd. auto. Qed.
Lemma held e w k n W x : whold e w k n W x -> exists nd t, w_nodes w !! n = Some nd /\ w_types w !! n_ty nd = Some t /\ type_of w n = Some t /\ utype t W /\ n_meta nd = k /\ 0 < W < 65536.
Proof.
  intros (A & N & O). destruct (a_node _ _ _ _ _ _ A) as (nd & H & _). destruct (a_type _ _ _ _ _ _ A) as (t & Ht & UT). exists nd, t.
  split; [exact H|]. split; [unfold type_of in Ht; rewrite H in Ht; exact Ht|]. split; [exact Ht|]. split; [exact UT|]. split; [unfold owner in O; rewrite H in O; exact O|apply A].
Qed.
Lemma kern_of T h w n nd : st F T h w -> w_nodes w !! n = Some nd -> is_Some (w_kern w !! n_meta nd).
Proof. intros S H. pose proof (st_WF F T h w S) as W. destruct (cs_owned _ (proj1 W) n nd H) as (g & Hg & _). eauto. Qed.

Lemma rule_slice_w e T h w k a W x l r : st F T h w -> whold e w k a W x -> 0 <= r <= l -> l < W ->
  wp F T h w (call (CSlice a l r)) (fun w' s => fr T w w' /\ holds e w' k s (l - r + 1) (fun i => (x i / 2 ^ r) mod 2 ^ (l - r + 1))).
Proof.
  intros S H LR LW. pose proof (st_WF F T h w S) as WFw. destruct (held _ _ _ _ _ _ H) as (nd & t & Hn & Hty & Ht & UT & Em & HW). destruct (utype_facts t W UT HW) as (_ & _ & TB & _).
  destruct (mk_op_progress (fst (add_type w (mkRaw (l - r + 1)))) k (BITS l r) (length (w_types w)) [a]) as (w' & s & E).
  { apply (add_type_WF w _ WFw). } { cbn. rewrite lookup_app_r, Nat.sub_diag by lia. eauto. } { discriminate. } { cbn. rewrite <- Em. exact (kern_of _ _ _ _ _ S Hn). }
  { intros b Hb. apply elem_of_list_singleton in Hb as ->. apply usable_types. exact (arg_usable _ _ _ _ _ _ (proj1 H)). }
  assert (ES : step F w (CSlice a l r) = Ok (w', s)).
  { cbn [step]. unfold do_slice, get_node, get_type. rewrite Hn. cbn [of_opt rbind]. rewrite Hty. cbn [of_opt rbind]. unfold u16. rewrite !Z.mod_small by lia.
    destruct (Z.ltb_spec r l).
    - replace (total_bits t <=? l) with false by (symmetry; apply Z.leb_gt; lia). cbn. rewrite Em. exact E.
    - assert (l = r) by lia. subst l. replace (total_bits t <=? r) with false by (symmetry; apply Z.leb_gt; lia). cbn. rewrite Em. exact E. }
  destruct (step_ext F _ _ _ _ ES WFw) as [_ (ta & Hta & _ & NN)]. rewrite !Z.mod_small in NN by lia. rewrite (proj2 (proj2 H)) in NN.
  rewrite Z.max_l, Z.min_r, Z.abs_eq, slice_raw in NN by lia.
  assert (U2 : utype (TRaw (l - r + 1)) (l - r + 1)) by (right; reflexivity).
  eapply wp_call; [exact S|exact ES|exact I|discriminate|]. split.
  - eapply node_fr; [exact S|exact ES|discriminate|exact I|exact NN| |exact I| |exact I].
    + intros b Hb. apply elem_of_list_singleton in Hb as ->. exact (arg_nohole _ _ _ _ _ _ (proj1 H)).
    + intros _. split; [apply (utype_facts _ _ U2); lia|]. split; [|left; cbn; lia]. intros ts lat F2. exact I.
  - eapply (node_holds F e T h w _ w' s k _ _ _ (l - r + 1) _ (fun _ => kind (TRaw (l - r + 1)))); [exact S|exact ES|discriminate|exact NN|discriminate|exact U2|lia|].
    eapply (un_value e w _ w' s k _ _ a W x (l - r + 1) (fun v => (v / 2 ^ r) mod 2 ^ (l - r + 1))); [exact ES|exact WFw|discriminate|exact NN|exact I|exact U2|exact HW|lia| |exact (proj1 H)].
    intros ta0 v _ _. cbn. split; [reflexivity|]. apply Z.mod_pos_bound, Z.pow_pos_nonneg; lia.
Qed.
Lemma rule_slice e T h w k a W x l r : st F T h w -> holds e w k a W x -> 0 <= r <= l -> l < W ->
  wp F T h w (call (CSlice a l r)) (fun w' s => fr T w w' /\ holds e w' k s (l - r + 1) (fun i => (x i / 2 ^ r) mod 2 ^ (l - r + 1))).
Proof. intros S H. exact (rule_slice_w e T h w k a W x l r S (weak _ _ _ _ _ _ H)). Qed.
Lemma cat_node e T h w k a b W1 x W2 y : st F T h w -> arg e w k a W1 x -> owner w a = k -> arg e w k b W2 y -> W1 + W2 < 65536 ->
  wp F T h w (call (CCat a b)) (fun w' s => fr T w w' /\ holds e w' k s (W1 + W2) (fun i => x i * 2 ^ W2 + y i)).
Proof.
  intros S A OW B LW. pose proof (st_WF F T h w S) as WFw. destruct (a_node _ _ _ _ _ _ A) as (na & Na & _ & Ua). destruct (a_type _ _ _ _ _ _ A) as (ta & Hta & UTa). pose proof (a_width _ _ _ _ _ _ A) as HW1.
  destruct (a_node _ _ _ _ _ _ B) as (nb & Nb & _ & Ub). destruct (a_type _ _ _ _ _ _ B) as (tb & Htb & UTb). pose proof (a_width _ _ _ _ _ _ B) as HW2.
  destruct (utype_facts ta W1 UTa HW1) as (Sa & Fa & TBa & _). destruct (utype_facts tb W2 UTb HW2) as (Sb & Fb & TBb & _).
  assert (Em : n_meta na = k) by (unfold owner in OW; rewrite Na in OW; exact OW).
  destruct (mk_op_progress (fst (add_type w (mkRaw (W1 + W2)))) k CAT (length (w_types w)) [a; b]) as (w' & s & E).
  { apply (add_type_WF w _ WFw). } { cbn. rewrite lookup_app_r, Nat.sub_diag by lia. eauto. } { discriminate. } { cbn. rewrite <- Em. exact (kern_of _ _ _ _ _ S Na). }
  { intros z Hz. apply usable_types. rewrite !elem_of_cons in Hz. destruct Hz as [->|[->|Hz]]; [exact (arg_usable _ _ _ _ _ _ A)|exact (arg_usable _ _ _ _ _ _ B)|inversion Hz]. }
  assert (ES : step F w (CCat a b) = Ok (w', s)).
  { cbn [step]. unfold do_cat, get_node, get_type. rewrite Na, Nb. cbn [of_opt rbind]. unfold type_of in Hta, Htb. rewrite Na in Hta. rewrite Nb in Htb. rewrite Hta, Htb. cbn [of_opt rbind]. rewrite TBa, TBb. cbn. rewrite Em. exact E. }
  destruct (step_ext F _ _ _ _ ES WFw) as [_ (ta' & tb' & Hta' & Htb' & NN)]. rewrite Hta in Hta'. injection Hta' as <-. rewrite Htb in Htb'. injection Htb' as <-. rewrite TBa, TBb, slice_raw, OW in NN by lia.
  assert (U2 : utype (TRaw (W1 + W2)) (W1 + W2)) by (right; reflexivity).
  eapply wp_call; [exact S|exact ES|exact I|discriminate|]. split.
  - eapply node_fr; [exact S|exact ES|discriminate|exact I|exact NN| |exact I| |exact I].
    + intros z Hz. rewrite !elem_of_cons in Hz. destruct Hz as [->|[->|Hz]]; [exact (arg_nohole _ _ _ _ _ _ A)|exact (arg_nohole _ _ _ _ _ _ B)|inversion Hz].
    + intros _. split; [apply (utype_facts _ _ U2); lia|]. split; [|left; cbn; lia]. intros ts lat F2. apply two_types in F2 as (t1 & t2 & -> & E1 & E2).
      rewrite Hta in E1. rewrite Htb in E2. injection E1 as <-. injection E2 as <-. cbn. rewrite Sa, Sb, TBa, TBb. split; [reflexivity|lia].
  - eapply (node_holds F e T h w _ w' s k _ _ _ (W1 + W2) _ (fun _ => kind (TRaw (W1 + W2)))); [exact S|exact ES|discriminate|exact NN|discriminate|exact U2|lia|].
    eapply (bin_value e w _ w' s k _ _ a b W1 x W2 y (W1 + W2) (fun v u => v * 2 ^ W2 + u)); [exact ES|exact WFw|discriminate|exact NN|exact I|exact U2| |exact A|exact B].
    intros t1 v1 t2 v2 U1 R1 U2' R2. destruct (utype_facts t2 W2 U2' HW2) as (_ & _ & TB2 & _). cbn [hw_op fst snd]. rewrite TB2. split; [reflexivity|]. rewrite Z.pow_add_r by lia. nia.
Qed.
Lemma rule_cat e T h w k a b W1 x W2 y : st F T h w -> holds e w k a W1 x -> arg e w k b W2 y -> W1 + W2 < 65536 ->
  wp F T h w (call (CCat a b)) (fun w' s => fr T w w' /\ holds e w' k s (W1 + W2) (fun i => x i * 2 ^ W2 + y i)).
Proof. intros S A. apply cat_node; [exact S|apply A|apply A]. Qed.
Lemma rule_cast e T h w k a W x ty W' : st F T h w -> holds e w k a W x -> w_types w !! ty = Some (TFixed false W' 0) -> 0 < W' < 65536 ->
  wp F T h w (call (CCast a ty)) (fun w' s => fr T w w' /\ holds e w' k s W' (fun i => x i mod 2 ^ W')).
Proof.
  intros S H HT HW'. pose proof (st_WF F T h w S) as WFw. destruct (held _ _ _ _ _ _ (weak _ _ _ _ _ _ H)) as (nd & t & Hn & Hty & Ht & UT & Em & HW). destruct (utype_facts t W UT HW) as (Sg & Fl & TB & _).
  destruct (Nat.eqb ty (n_ty nd)) eqn:EQ.
  - assert (ES : step F w (CCast a ty) = Ok (w, a)) by (cbn [step]; unfold do_cast, get_node, get_type; rewrite Hn; cbn [of_opt rbind]; rewrite HT; cbn [of_opt rbind]; rewrite EQ; reflexivity).
    apply Nat.eqb_eq in EQ. subst ty. rewrite Hty in HT. injection HT as ->. destruct UT as [E|E]; [injection E as ->|discriminate]. clear Sg Fl.
    eapply wp_call; [exact S|exact ES|exact I|discriminate|]. split; [apply fr_refl|]. eapply holds_ext; [|exact H]. intros i Hi. cbn. symmetry. apply Z.mod_small.
    destruct H as [A _]. destruct (a_val _ _ _ _ _ _ A) as (f & V). apply (V i Hi).
  - destruct (mk_op_progress w k CAST ty [a]) as (w' & s & E).
    { apply WFw. } { eauto. } { discriminate. } { rewrite <- Em. exact (kern_of _ _ _ _ _ S Hn). }
    { intros b Hb. apply elem_of_list_singleton in Hb as ->. exact (arg_usable _ _ _ _ _ _ (proj1 H)). }
    assert (ES : step F w (CCast a ty) = Ok (w', s)) by (cbn [step]; unfold do_cast, get_node, get_type; rewrite Hn; cbn [of_opt rbind]; rewrite HT; cbn [of_opt rbind]; rewrite EQ, Em; exact E).
    destruct (step_ext F _ _ _ _ ES WFw) as [_ (t' & Ht' & [(-> & -> & y & Hy & Ey)|NN])].
    { exfalso. rewrite Hn in Hy. injection Hy as <-. apply Nat.eqb_neq in EQ. congruence. }
    rewrite HT in Ht'. injection Ht' as <-. rewrite (proj2 (proj2 H)) in NN. assert (U2 : utype (TFixed false W' 0) W') by (left; reflexivity).
    eapply wp_call; [exact S|exact ES|exact I|discriminate|]. split.
    + eapply node_fr; [exact S|exact ES|discriminate|exact I|exact NN| |exact I| |exact I].
      * intros b Hb. apply elem_of_list_singleton in Hb as ->. exact (arg_nohole _ _ _ _ _ _ (proj1 H)).
      * intros _. split; [apply (utype_facts _ _ U2); lia|]. split; [|left; cbn; lia]. intros ts lat F2. apply one_type in F2 as (t1 & -> & E1). rewrite Ht in E1. injection E1 as <-.
        cbn. rewrite Sg. right. auto.
    + eapply (node_holds F e T h w _ w' s k _ _ _ W' _ (fun _ => kind (TFixed false W' 0))); [exact S|exact ES|discriminate|exact NN|discriminate|exact U2|lia|].
      eapply (un_value e w _ w' s k _ _ a W x W' (fun v => v mod 2 ^ W')); [exact ES|exact WFw|discriminate|exact NN|exact I|exact U2|exact HW|lia| |exact (proj1 H)].
      intros ta0 v U R. destruct (utype_facts ta0 W U HW) as (_ & Fl' & _). destruct (utype_facts _ _ U2 HW') as (_ & _ & TB2 & _). replace (hw_op CAST (TFixed false W' 0) [(ta0, v)]) with (Some (TFixed false W' 0, v mod 2 ^ W')); [split; [reflexivity|]|].

      apply Z.mod_pos_bound, Z.pow_pos_nonneg; lia.
      cbn [hw_op fst]. change (RtlSpec.is_float (TFixed false W' 0)) with false. rewrite Fl', TB2, (num_unsigned ta0 W v U HW). reflexivity.
Qed.
Lemma rule_shift_w e T h w k a W x (l : bool) n : st F T h w -> whold e w k a W x -> 0 <= n < 256 ->
  wp F T h w (call (CShift l a n)) (fun w' s => fr T w w' /\ holds e w' k s W (fun i => if l then (x i * 2 ^ n) mod 2 ^ W else x i / 2 ^ n) /\ w_nodes w !! s = None /\ type_of w' s = type_of w a).
Proof.
  intros S H Hn8. pose proof (st_WF F T h w S) as WFw. destruct (held _ _ _ _ _ _ H) as (nd & t & Hn & Hty & Ht & UT & Em & HW). destruct (utype_facts t W UT HW) as (Sg & Fl & TB & PR & _).
  destruct (mk_op_progress w k ((if l then SHL else SHR) n) (n_ty nd) [a]) as (w' & s & E).
  { apply WFw. } { eauto. } { destruct l; discriminate. } { rewrite <- Em. exact (kern_of _ _ _ _ _ S Hn). }
  { intros b Hb. apply elem_of_list_singleton in Hb as ->. exact (arg_usable _ _ _ _ _ _ (proj1 H)). }
  assert (ES : step F w (CShift l a n) = Ok (w', s)).
  { cbn [step]. unfold do_shift, get_node, u8. rewrite Hn, (Z.mod_small n) by lia. cbn [of_opt rbind]. rewrite (const_value_none w a nd WFw Hn (proj1 (proj2 H))), Em. destruct l; exact E. }
  destruct (step_ext F _ _ _ _ ES WFw) as [_ [(ta & va & v & (y & Hy & Ev & _) & _)|(ta & Hta & _ & NN)]]; [exfalso; apply (proj1 (proj2 H)); exists y; auto|].
  rewrite Ht in Hta. injection Hta as <-. rewrite (Z.mod_small n), (proj2 (proj2 H)) in NN by lia.
  eapply wp_call; [exact S|exact ES|exact I|discriminate|]. split; [|split].
  - eapply node_fr; [exact S|exact ES|discriminate|exact I|exact NN| |destruct l; exact I| |destruct l; exact I].
    + intros b Hb. apply elem_of_list_singleton in Hb as ->. exact (arg_nohole _ _ _ _ _ _ (proj1 H)).
    + intros _. split; [exact PR|]. split; [|left; cbn; lia]. intros ts lat F2. apply one_type in F2 as (t1 & -> & E1). destruct l; cbn; [split; [lia|exact Sg]|lia].
  - eapply (node_holds F e T h w _ w' s k _ _ _ W _ (fun _ => kind (t))); [exact S|exact ES|discriminate|exact NN|destruct l; discriminate|exact UT|exact HW|].
    eapply (un_value e w _ w' s k _ _ a W x W (fun v => if l then (v * 2 ^ n) mod 2 ^ W else v / 2 ^ n)); [exact ES|exact WFw|discriminate|exact NN|destruct l; exact I|exact UT|exact HW|exact HW| |exact (proj1 H)].
    assert (0 < 2 ^ W) by (apply Z.pow_pos_nonneg; lia). assert (0 < 2 ^ n) by (apply Z.pow_pos_nonneg; lia).
    intros ta0 v U R. destruct l; cbn [hw_op snd]; rewrite TB.
    + split; [reflexivity|]. apply Z.mod_pos_bound. assumption.
    + rewrite (num_unsigned ta0 W v U HW). assert (0 <= v / 2 ^ n < 2 ^ W) by (split; [apply Z.div_pos; lia|apply Z.div_lt_upper_bound; nia]). rewrite Z.mod_small by assumption. split; [reflexivity|assumption].
  - destruct NN as (Fr & (z & Hz & _ & Tz & _) & _). split; [exact Fr|]. unfold type_of at 1. rewrite Hz, Tz. symmetry. exact Ht.
Qed.
Lemma rule_shift e T h w k a W x (l : bool) n : st F T h w -> holds e w k a W x -> 0 <= n < 256 ->
  wp F T h w (call (CShift l a n)) (fun w' s => fr T w w' /\ holds e w' k s W (fun i => if l then (x i * 2 ^ n) mod 2 ^ W else x i / 2 ^ n) /\ w_nodes w !! s = None /\ type_of w' s = type_of w a).
Proof. intros S H. exact (rule_shift_w e T h w k a W x l n S (weak _ _ _ _ _ _ H)). Qed.
Definition bin_fun (o : bop) (W x y : Z) : Z := bin_math o x y mod 2 ^ W.
Lemma rule_bin e T h w k o a b W x y : st F T h w -> (o = XOR \/ o = ADD) -> arg e w k a W x -> arg e w k b W y -> holds e w k a W x \/ holds e w k b W y ->
  wp F T h w (call (CBin o a b)) (fun w' s => fr T w w' /\ holds e w' k s W (fun i => bin_fun o W (x i) (y i)) /\ w_nodes w !! s = None /\ type_of w' s = type_of w a).
Proof.
  intros S Ho A B OW0. assert (OW : whold e w k a W x \/ whold e w k b W y) by (destruct OW0 as [Q|Q]; [left|right]; exact (weak _ _ _ _ _ _ Q)). clear OW0. pose proof (st_WF F T h w S) as WFw. destruct (a_node _ _ _ _ _ _ A) as (na & Na & _ & Ua). destruct (a_type _ _ _ _ _ _ A) as (ta & Hta & UTa). pose proof (a_width _ _ _ _ _ _ A) as HW.
  destruct (a_node _ _ _ _ _ _ B) as (nb & Nb & _ & Ub). destruct (a_type _ _ _ _ _ _ B) as (tb & Htb & UTb).
  destruct (utype_facts ta W UTa HW) as (Sa & Fa & TBa & PRa & _). destruct (utype_facts tb W UTb HW) as (Sb & Fb & TBb & _).
  assert (Hty : w_types w !! n_ty na = Some ta) by (unfold type_of in Hta; rewrite Na in Hta; exact Hta).
  assert (NC : ~ (is_const w a /\ is_const w b)) by (intros [C1 C2]; destruct OW as [(_ & Q & _)|(_ & Q & _)]; contradiction).
  assert (KK : (if is_constb w a then owner w b else owner w a) = k).
  { unfold is_constb. rewrite Na. destruct (n_vk na) eqn:E; [| |destruct OW as [(_ & Q & _)|(_ & _ & Q)]; [exfalso; apply Q; exists na; auto|exact Q]]; unfold owner; rewrite Na; destruct Ua as [Ua|Ua]; congruence. }
  assert (KE : (match const_value na with Some _ => n_meta nb | None => n_meta na end) = k).
  { unfold is_constb in KK. rewrite Na in KK. unfold const_value. destruct (n_vk na) eqn:E; [unfold owner in KK; rewrite Na in KK; exact KK|unfold owner in KK; rewrite Na in KK; exact KK|].
    apply (cs_const _ (proj1 WFw) a na Na) in E as (c & ->). unfold owner in KK. rewrite Nb in KK. exact KK. }
  assert (IC : is_comp o = false) by (destruct Ho as [->| ->]; reflexivity).
  destruct (mk_op_progress w k (BIN o) (n_ty na) [a; b]) as (w' & s & E).
  { apply WFw. } { eauto. } { discriminate. } { destruct OW as [(X & _ & <-)|(X & _ & <-)]; unfold owner; [rewrite Na|rewrite Nb]; eapply kern_of; eauto. }
  { intros z Hz. rewrite !elem_of_cons in Hz. destruct Hz as [->|[->|Hz]]; [exact (arg_usable _ _ _ _ _ _ A)|exact (arg_usable _ _ _ _ _ _ B)|inversion Hz]. }
  assert (ES : step F w (CBin o a b) = Ok (w', s)).
  { cbn [step]. unfold do_bin, get_node. rewrite Na, Nb. cbn [of_opt rbind]. rewrite IC.
    destruct (const_value na) as [va|] eqn:Ea; [destruct (const_value nb) as [vb|] eqn:Eb|]; [|rewrite KE; exact E|rewrite KE; exact E].
    exfalso. apply NC. unfold const_value in Ea, Eb. split; [exists na|exists nb]; (split; [assumption|]); [destruct (n_vk na)|destruct (n_vk nb)]; congruence. }
  destruct (step_ext F _ _ _ _ ES WFw) as [_ [(ta' & tb' & va & vb & v & (y1 & Hy1 & Ev1 & _) & (y2 & Hy2 & Ev2 & _) & _)|(ta' & Hta' & _ & NN)]]; [exfalso; apply NC; split; [exists y1|exists y2]; auto|].
  rewrite Hta in Hta'. injection Hta' as <-. rewrite IC, KK in NN.
  eapply wp_call; [exact S|exact ES|exact I|discriminate|]. split; [|split].
  - eapply node_fr; [exact S|exact ES|discriminate|exact I|exact NN| |exact I| |exact I].
    + intros z Hz. rewrite !elem_of_cons in Hz. destruct Hz as [->|[->|Hz]]; [exact (arg_nohole _ _ _ _ _ _ A)|exact (arg_nohole _ _ _ _ _ _ B)|inversion Hz].
    + intros _. split; [exact PRa|]. split; [|left; cbn; lia]. intros ts lat F2. apply two_types in F2 as (t1 & t2 & -> & E1 & E2).
      rewrite Hta in E1. rewrite Htb in E2. injection E1 as <-. injection E2 as <-. destruct Ho as [->| ->]; cbn; rewrite Sa, Sb, TBa, TBb; [|split; [reflexivity|split; [right; reflexivity|left; lia]]]. split; [reflexivity|split; [reflexivity|lia]].
  - eapply (node_holds F e T h w _ w' s k _ _ _ W _ (fun _ => kind (ta))); [exact S|exact ES|discriminate|exact NN|discriminate|exact UTa|exact HW|].
    eapply (bin_value e w _ w' s k _ _ a b W x W y W (bin_fun o W)); [exact ES|exact WFw|discriminate|exact NN|exact I|exact UTa| |exact A|exact B].
    intros t1 v1 t2 v2 U1 R1 U2 R2. destruct (utype_facts t1 W U1 HW) as (_ & F1 & _). destruct (utype_facts t2 W U2 HW) as (_ & F2 & _).
    unfold bin_fun. split; [|apply Z.mod_pos_bound, Z.pow_pos_nonneg; lia]. cbn [hw_op fst]. rewrite (num_unsigned t1 W v1 U1 HW), (num_unsigned t2 W v2 U2 HW), TBa, F1, F2, andb_false_r. destruct Ho as [->| ->]; reflexivity.
  - destruct NN as (Fr & (z & Hz & _ & Tz & _) & _). split; [exact Fr|]. unfold type_of at 1. rewrite Hz, Tz. symmetry. exact Hta.
Qed.
End Calls.
