(** * The whole kernel RowIDCT (proofs). *)
From Coq Require Import ZArith Bool String Lia.
From stdpp Require Import gmap list.
From Verif Require Import Types Word Value OpSpec Graph GraphSpec TypingSpec TypesProofs BuilderProofs BuilderProofs2 BuilderTopo GraphFacts StreamSpec Dfcir DfcirBuild
     Verilog Stubs Naming StubsSpec Firrtl Lower RtlSpec KernelFlow KernelSpec KernelValues Instance InstanceSpec InstanceLoop InstanceMain InstanceStep InstanceFlow LifeProofs ProgTyping SliceFacts
     Prog ProgFrame ProgRules ProgCalls ProgPorts StdKernels ProgLib ProgTop FlatRules FlatCalls FlatSpec FlatTop Idct IdctSpec IdctKernel IdctBody RowSpec RowIdct RowKernel.
Local Open Scope Z_scope.

(** ** Names *)
Definition xnames : list string := map xname (seq 0 SIZE).
Definition onames : list string := map oname (seq 0 SIZE).
Fixpoint distinct (l : list string) : bool := match l with [] => true | s :: l' => negb (existsb (String.eqb s) l') && distinct l' end.
Lemma distinct_NoDup l : distinct l = true -> NoDup l.
Proof.
  induction l as [|s l IH]; intro H; [constructor|]. cbn [distinct] in H. apply andb_prop in H as [H1 H2]. constructor; [|exact (IH H2)].
  intro I. apply elem_of_list_In in I. apply negb_true_iff in H1. assert (existsb (String.eqb s) l = true); [|congruence]. apply existsb_exists. exists s. split; [exact I|apply String.eqb_refl].
Qed.
Lemma names_distinct : NoDup (rev onames ++ rev xnames).
Proof. apply distinct_NoDup. vm_compute. reflexivity. Qed.
Lemma find_port (L : list (string * nat)) s n : NoDup (map fst L) -> (s, n) ∈ L -> name_lookup L s = Some n.
Proof.
  unfold name_lookup. induction L as [|[s' n'] L IH]; intros ND I; [inversion I|]. cbn [map fst] in ND. apply NoDup_cons in ND as [N ND]. cbn [List.find fst snd].
  apply elem_of_cons in I as [E|I]; [injection E as -> ->; rewrite String.eqb_refl; reflexivity|]. destruct (String.eqb_spec s' s) as [->|NE]; [|exact (IH ND I)].
  exfalso. apply N. apply elem_of_list_In, in_map_iff. exists (s, n). split; [reflexivity|apply elem_of_list_In, I].
Qed.
Lemma map_fst_zip {A B} (l : list A) (m : list B) : length l = length m -> map fst (zip l m) = l.
Proof. revert m. induction l as [|a l IH]; intros [|b m] H; try discriminate H; [reflexivity|]. cbn. f_equal. apply IH. injection H as H. exact H. Qed.
Lemma zip_in {A B} (l : list A) (m : list B) i a b : l !! i = Some a -> m !! i = Some b -> (a, b) ∈ zip l m.
Proof. intros Ha Hb. apply elem_of_list_lookup. exists i. apply lookup_zip_with_Some. eauto. Qed.
Lemma sext_same X Y w w' : (forall n, n ∈ X <-> n ∈ Y) -> sext X w w' -> sext Y w w'.
Proof. intros E [G FM TD]. constructor; [|exact FM|exact TD]. apply (gr_weaken X); [exact G|intros n; apply E|]. intros n I. apply E in I. exact (g_old _ _ _ G n I). Qed.
Lemma ctx_sext16 X w w' k C bt it : sext X w w' -> RowKernel.ctx w k C bt it -> RowKernel.ctx w' k C bt it.
Proof.
  intros [G FM _] []. constructor; try (eapply (gr_const _ _ _ _ _ _ G); assumption); try (apply (g_types _ _ _ G); assumption).
  - eapply top_frame; eassumption.
  - eapply kern_frame; eassumption.
Qed.
Lemma xname_ok i : xname i <> EmptyString /\ xname i <> "left"%string.
Proof. split; discriminate. Qed.
Lemma oname_ok i : oname i <> EmptyString.
Proof. discriminate. Qed.

Section Body.
Variable F : fltops.
Variables (e : env) (k : nat).
Notation st := (st F true).
Notation wp := (wp F true).
Ltac cur := match goal with |- ProgFrame.st _ _ _ _ => eassumption end.
Ltac ctop := match goal with FR : sfr ?a ?b, TP : is_Some (w_top ?a) |- is_Some (w_top ?b) => exact (top_sfr a b FR TP) end.
Lemma r_inputs ty (X : nat -> Z -> Z) l : forall h w, st h w -> w_types w !! ty = Some T16 -> is_Some (w_kern w !! k) -> (forall n, n ∈ l -> sfed e (xname n) 16 (X n)) ->
  wp h w (pmap (fun i => io_input k (xname i) ty) l)
    (fun w' rs => sext rs w w' /\ Forall2 (fun n r => svar e w' k r T16 (X n) /\ in_port w' r) l rs /\ names w' k = rev (zip (map xname l) rs) ++ names w k).
Proof.
  induction l as [|n l IH]; intros h w S HT HK HX; cbn [pmap].
  - apply wp_ret; [exact S|]. split; [exact (sfr_sext _ _ (sfr_refl w))|]. split; [constructor|reflexivity].
  - destruct (xname_ok n) as [N1 N2].
    eapply rule_bind; [apply (srule_input F e h w k (xname n) ty T16 true 16 (X n) S HT I16 HK N1 N2)|].
    { intros i Hi. destruct (HX n ltac:(left) i Hi) as [E R]. rewrite E, Z.mod_small by exact R. reflexivity. }
    cbv beta. intros h1 w1 r S1 (XR & _ & VR & PR & NR).
    eapply rule_bind; [apply (IH h1 w1 S1 (g_types _ _ _ (sx_gr _ _ _ XR) _ _ HT) (kern_frame _ _ _ (sx_frame _ _ _ XR) HK)); intros m Hm; apply HX; right; exact Hm|].
    cbv beta. intros h2 w2 rs S2 (XS & VS & NS). apply wp_ret; [exact S2|]. split; [exact (sext_trans [r] rs _ _ _ XR XS)|]. split.
    + constructor; [|exact VS]. split; [exact (svar_gr e _ _ _ _ _ _ _ (sx_gr _ _ _ XS) VR)|exact (in_port_gr _ _ _ _ (sx_gr _ _ _ XS) PR)].
    + rewrite NS, NR. cbn [map zip zip_with]. cbn [rev]. rewrite <- app_assoc. reflexivity.
Qed.
Lemma r_outputs ty values (V : nat -> Z -> Z) l : forall h w, st h w -> w_types w !! ty = Some T16 -> is_Some (w_kern w !! k) -> (forall n, n ∈ l -> svar e w k (nth n values 0%nat) T16 (V n)) ->
  wp h w (pmap (fun i => do out <- io_output k (oname i) ty; call (CConnect out (nth i values 0%nat))) l)
    (fun w' _ => exists os, sext os w w' /\ Forall (fun o => w_nodes w !! o = None) os /\
       Forall2 (fun n o => has_op w' o OUT /\ type_of w' o = Some T16 /\ exists d, operands w' o = [d] /\ sarg e w' k d T16 (V n)) l os /\ names w' k = rev (zip (map oname l) os) ++ names w k).
Proof.
  induction l as [|n l IH]; intros h w S HT HK HV; cbn [pmap].
  - apply wp_ret; [exact S|]. exists []. split; [exact (sfr_sext _ _ (sfr_refl w))|]. split; [constructor|]. split; [constructor|reflexivity].
  - eapply rule_bind.
    { eapply rule_bind; [exact (srule_output F h w k (oname n) ty T16 true 16 S HT I16 HK (oname_ok n))|].
      cbv beta. intros h1 w1 o S1 (XO & FO & OO & TO & NO). pose proof (svar_gr e _ _ _ _ _ _ _ (sx_gr _ _ _ XO) (HV n ltac:(left))) as V1.
      eapply wp_conseq; [exact (srule_connect F e h1 w1 k o _ T16 true 16 _ S1 OO V1 TO I16)|].
      cbv beta. intros w2 ret (XC & HO & OP & _ & _ & NC). 
      exact (ex_intro (fun o => sext [o] w w2 /\ w_nodes w !! o = None /\ has_op w2 o OUT /\ type_of w2 o = Some T16 /\ operands w2 o = [nth n values 0%nat] /\ names w2 k = (oname n, o) :: names w k) o
        (conj (sext_same ([o] ++ [o]) [o] w w2 ltac:(intro m; rewrite elem_of_app; tauto) (sext_trans _ _ _ _ _ XO XC)) (conj FO (conj HO (conj (gr_type _ _ _ _ _ (sx_gr _ _ _ XC) TO) (conj OP (eq_trans (NC k) NO))))))). }
    cbv beta. intros h1 w1 r S1 (o & XO & FO & HO & TO & OP & NO).
    eapply rule_bind; [apply (IH h1 w1 S1 (g_types _ _ _ (sx_gr _ _ _ XO) _ _ HT) (kern_frame _ _ _ (sx_frame _ _ _ XO) HK)); intros m Hm; exact (svar_gr e _ _ _ _ _ _ _ (sx_gr _ _ _ XO) (HV m ltac:(right; exact Hm)))|].
    cbv beta. intros h2 w2 rs S2 (os & XS & FS & VS & NS). apply wp_ret; [exact S2|]. exists (o :: os).
    assert (LO : is_Some (w_nodes w1 !! o)) by (destruct HO as (nd & Hn & _); eauto).
    assert (NI : o ∉ os) by (intro I; rewrite Forall_forall in FS; rewrite (FS o I) in LO; destruct LO; discriminate).
    pose proof (sx_gr _ _ _ XS) as G. split; [exact (sext_trans [o] os _ _ _ XO XS)|]. split; [|split].
    + constructor; [exact FO|]. eapply Forall_impl; [exact FS|]. cbv beta. intros m Hm. destruct (w_nodes w !! m) as [nd|] eqn:E; [|reflexivity]. destruct (g_live _ _ _ (sx_gr _ _ _ XO) m nd E) as (nd' & E' & _). congruence.
    + constructor; [|exact VS]. split; [apply (op_old _ _ _ _ _ G LO), HO|]. split; [exact (gr_type _ _ _ _ _ G TO)|]. exists (nth n values 0%nat).
      split; [rewrite (g_ops _ _ _ G o LO NI); exact OP|]. exact (sarg_gr e _ _ _ _ _ _ _ G (sarg_gr e _ _ _ _ _ _ _ (sx_gr _ _ _ XO) (proj1 (HV n ltac:(left))))).
    + rewrite NS, NO. cbn [map zip zip_with]. cbn [rev]. rewrite <- app_assoc. reflexivity.
Qed.
Lemma row_body h w (X : nat -> Z -> Z) : st h w -> starts w k -> (forall n, (n < 64)%nat -> sfed e (xname n) 16 (X n)) ->
  wp h w (RowIDCT k) (fun w2 _ => exists ports outs, flat e w w2 k (sint 16) (sint 16) xnames ports onames outs (map (fun n i => row_word (fun j => X j i) n) (seq 0 64))).
Proof.
  intros S (SK & STop & _ & SN & SE & SO) FD. unfold RowIDCT. pose proof (sfr_refl w) as FR0.
  assert (TP : is_Some (w_top w)) by (rewrite STop; eauto).
  eapply rule_bind; [apply (df_int_rule F _ _ 16 S); lia|]. nxt IT. change (16 - 1) with 15 in IT.
  eapply rule_bind; [apply (df_int_rule F _ _ 32 S0); lia|]. nxt BT. change (32 - 1) with 31 in BT.
  eapply rule_bind; [apply (r_const F _ _ _ 31 32 128 ltac:(cur) BT ltac:(ctop) I32); lia|]. nxt Kk128.
  eapply rule_bind; [apply (r_const F _ _ _ 31 32 181 ltac:(cur) BT ltac:(ctop) I32); lia|]. nxt Kk181.
  eapply rule_bind; [apply (r_const F _ _ _ 31 32 8192 ltac:(cur) BT ltac:(ctop) I32); lia|]. nxt Kk8192.
  eapply rule_bind; [apply (r_const F _ _ _ 31 32 4 ltac:(cur) BT ltac:(ctop) I32); lia|]. nxt Kk4.
  eapply rule_bind; [exact (srule_const F _ _ _ 15 (-256) true 16 ltac:(cur) IT I16 ltac:(ctop))|]. nxt KkM256.
  eapply rule_bind; [apply (r_const F _ _ _ 15 16 255 ltac:(cur) IT ltac:(ctop) I16); lia|]. nxt Kk255.
  eapply rule_bind; [apply (r_const F _ _ _ 31 32 2841 ltac:(cur) BT ltac:(ctop) I32); lia|]. nxt Kw1.
  eapply rule_bind; [apply (r_const F _ _ _ 31 32 2676 ltac:(cur) BT ltac:(ctop) I32); lia|]. nxt Kw2.
  eapply rule_bind; [apply (r_const F _ _ _ 31 32 2408 ltac:(cur) BT ltac:(ctop) I32); lia|]. nxt Kw3.
  eapply rule_bind; [apply (r_const F _ _ _ 31 32 1609 ltac:(cur) BT ltac:(ctop) I32); lia|]. nxt Kw5.
  eapply rule_bind; [apply (r_const F _ _ _ 31 32 1108 ltac:(cur) BT ltac:(ctop) I32); lia|]. nxt Kw6.
  eapply rule_bind; [apply (r_const F _ _ _ 31 32 565 ltac:(cur) BT ltac:(ctop) I32); lia|]. nxt Kw7.
  cbv zeta. match goal with |- context [row_pass ?c _ _ _] => set (C := c) end.
  match goal with FR : sfr w ?v |- _ => assert (CX : RowKernel.ctx v k C r0 r) end.
  { constructor; try assumption; [ctop|match goal with FR : sfr w ?v |- is_Some (w_kern ?v !! k) => exact (kern_frame _ _ _ (sf_frame _ _ FR) SK) end]. }
  clear Kk128 Kk181 Kk8192 Kk4 KkM256 Kk255 Kw1 Kw2 Kw3 Kw5 Kw6 Kw7.
  match type of CX with RowKernel.ctx ?v _ _ _ _ => rename v into wA end. match goal with X : ProgFrame.st F true ?h wA |- _ => rename X into SA; rename h into hA end. rename FR0 into FRA.
  assert (HXs : forall n, n ∈ seq 0 SIZE -> sfed e (xname n) 16 (X n)) by (intros n Hn; apply elem_of_seq in Hn; apply FD; unfold SIZE in Hn; lia).
  eapply rule_bind; [exact (r_inputs r X (seq 0 SIZE) hA wA SA IT (RowKernel.cx_kern _ _ _ _ _ CX) HXs)|].
  cbv beta. intros hI wI ps SI (XI & VI & NI). apply (ctx_sext16 _ _ _ _ _ _ _ XI) in CX.
  assert (CE : cells e k wI ps (fun _ => T16) X).
  { split; [pose proof (Forall2_length _ _ _ VI) as L; rewrite seq_length in L; symmetry; exact L|]. intros n Hn.
    destruct (Forall2_lookup_l _ _ _ n n VI) as (q & Hq & V & _); [apply lookup_seq; unfold SIZE; lia|]. rewrite (nth_lookup_Some _ _ _ _ Hq). exact V. }
  eapply rule_bind; [apply (RowKernel.r_loop F e k hI wI C r0 r ps row_at _ _ (row_pass C r0 r) T16 T16 (fun X j i => row_out (fun c => wrap 16 (X c i)) j) _ SI CX rows_indexing CE)|].
  { intros h' w' v Y S' CX' HX. exact (RowKernel.r_row F e k h' w' C r0 r v Y T16 true 16 S' CX' I16 ltac:(discriminate) ltac:(lia) HX). }
  cbv beta. intros hr wr vs Sr (FRr & [_ CR]). apply (RowKernel.ctx_sfr _ _ _ _ _ _ FRr) in CX.
  eapply rule_bind; [apply (r_outputs r vs (fun n i => row_word (fun j => X j i) n) (seq 0 SIZE) hr wr Sr (RowKernel.cx_it _ _ _ _ _ CX) (RowKernel.cx_kern _ _ _ _ _ CX))|].
  { intros n Hn. apply elem_of_seq in Hn. unfold SIZE in Hn. eapply svar_cong; [|exact (CR n ltac:(lia))]. intros i _. cbv beta. change (total_bits T16) with 16. unfold row_word. rewrite Z.mod_mod by discriminate. reflexivity. }
  cbv beta. intros ho wo rets So (os & XO & _ & VO & NO). apply wp_ret; [exact So|]. exists ps, os.
  assert (G : gr os wI wo) by exact (gr_trans [] os _ _ _ (sf_gr _ _ FRr) (sx_gr _ _ _ XO)).
  pose proof (Forall2_length _ _ _ VI) as LP. pose proof (Forall2_length _ _ _ VO) as LO.
  assert (NM : names wo k = rev (zip onames os) ++ rev (zip xnames ps)).
  { rewrite NO, (sf_names _ _ FRr), NI, (sf_names _ _ FRA), SN, app_nil_r. reflexivity. }
  assert (ND : NoDup (map fst (names wo k))).
  { rewrite NM, map_app, !map_rev, !map_fst_zip by (unfold xnames, onames; rewrite map_length; assumption). exact names_distinct. }
  assert (PT : forall s n, (s, n) ∈ zip onames os \/ (s, n) ∈ zip xnames ps -> port wo k s n).
  { intros s n H. apply find_port; [exact ND|]. rewrite NM. apply elem_of_app. rewrite !elem_of_list_In, <- !in_rev, <- !elem_of_list_In. exact H. }
  constructor.
  - apply (sext_same ([] ++ ps ++ [] ++ os)); [intro n; rewrite !elem_of_app, !elem_of_nil; tauto|].
    exact (sext_trans _ _ _ _ _ (sfr_sext _ _ FRA) (sext_trans _ _ _ _ _ XI (sext_trans _ _ _ _ _ (sfr_sext _ _ FRr) XO))).
  - apply Forall2_same_length_lookup. split; [unfold xnames; rewrite map_length; exact LP|]. intros j s n Hs Hn. split; [apply PT; right; exact (zip_in _ _ j _ _ Hs Hn)|].
    destruct (Forall2_lookup_r _ _ _ _ _ VI Hn) as (q & _ & V & P). split; [exact (in_port_gr _ _ _ _ G P)|exact (gr_type _ _ _ _ _ G (sa_type _ _ _ _ _ _ (proj1 V)))].
  - apply Forall2_same_length_lookup. split; [unfold onames; rewrite map_length; exact LO|]. intros j s n Hs Hn. split; [apply PT; left; exact (zip_in _ _ j _ _ Hs Hn)|].
    destruct (Forall2_lookup_r _ _ _ _ _ VO Hn) as (q & _ & HO & HT & _). split; [exact HO|exact HT].
  - apply Forall2_same_length_lookup. split; [rewrite map_length; symmetry; exact LO|]. intros j o y Ho Hy. destruct (Forall2_lookup_r _ _ _ _ _ VO Ho) as (q & Hq & _ & _ & D). change SIZE with 64%nat in Hq.
    match type of Hy with map ?f ?l !! _ = _ => change (map f l) with (f <$> l) in Hy end. rewrite list_lookup_fmap, Hq in Hy. injection Hy as <-. exact D.
Qed.
End Body.
