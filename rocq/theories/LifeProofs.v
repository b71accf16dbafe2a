(** * Construction and destruction of kernel objects (proofs for PropertiesLife.v). *)
From Coq Require Import ZArith Bool String Lia.
From stdpp Require Import gmap list.
From Verif Require Import Types Word Value Graph GraphSpec BuilderProofs BuilderProofs2 BuilderTopo
  Instance InstanceSpec InstanceProofs InstanceBind InstanceLoop InstanceMain InstanceStep InstanceDrop InstanceFlow.

Ltac openall H := repeat match type of H with rbind _ _ = Ok _ =>
  let x := fresh "x" in let X := fresh "X" in apply rbind_ok in H; destruct H as (x & X & H); try match type of x with (_ * _)%type => destruct x as [? ?] end end.

(** the kernels alive, the stack and the top kernel are the same *)
Definition frame (w w' : world) : Prop :=
  w_stack w' = w_stack w /\ w_top w' = w_top w /\ forall k, is_Some (w_kern w' !! k) <-> is_Some (w_kern w !! k).
Lemma frame_refl w : frame w w.
Proof. repeat split; auto. Qed.
Lemma frame_trans w1 w2 w3 : frame w1 w2 -> frame w2 w3 -> frame w1 w3.
Proof. intros (A1 & A2 & A3) (B1 & B2 & B3). split; [congruence|]. split; [congruence|]. intro k. rewrite B3. apply A3. Qed.
Lemma add_node_frame w k o ty vk nm w' n : add_node w k o ty vk nm = Ok (w', n) -> frame w w'.
Proof.
  unfold add_node. intro H. openall H. injection H as <- _. split; [reflexivity|]. split; [reflexivity|]. intro j. cbn. destruct (decide (j = k)) as [->|N].
  - rewrite lookup_insert. destruct (w_kern w !! k); [|discriminate]. split; eauto.
  - rewrite lookup_insert_ne by auto. tauto.
Qed.
Lemma add_chan_frame w k s t i c w' : add_chan w k s t i c = Ok w' -> frame w w'.
Proof.
  unfold add_chan. intro H. openall H. destruct (_ && _); [|discriminate]. unfold add_chan_nodes in H. openall H. injection H as <-. repeat split; auto.
Qed.
Lemma add_chans_frame : forall srcs w k t i w', add_chans w k srcs t i = Ok w' -> frame w w'.
Proof.
  induction srcs as [|s srcs IH]; intros w k t i w' H; cbn in H; [injection H as <-; apply frame_refl|].
  openall H. eapply frame_trans; [eapply add_chan_frame; eassumption|eapply IH; eassumption].
Qed.
Lemma mk_op_frame w k o ty args w' n : mk_op w k o ty args = Ok (w', n) -> frame w w'.
Proof.
  unfold mk_op. destruct (forallb _ _); [|discriminate]. intro H. openall H. injection H as <- _.
  eapply frame_trans; [eapply add_node_frame; eassumption|eapply add_chans_frame; eassumption].
Qed.
Lemma const_frame w ty v w' n : create_or_use_const w ty v = Ok (w', n) -> frame w w'.
Proof.
  unfold create_or_use_const. intro H. openall H. destruct (List.find _ _); [injection H as <- _; apply frame_refl|]. eapply add_node_frame. eassumption.
Qed.
Lemma type_frame w t : frame w (fst (add_type w t)).
Proof. repeat split; auto. Qed.
Lemma step_frame F w c w' r : step F w c = Ok (w', r) -> c <> KNew -> frame w w'.
Proof.
  destruct c; cbn [step]; intros H NK.
  - contradiction.
  - injection H as <- _. apply type_frame.
  - unfold do_io in H. openall H. eapply add_node_frame. eassumption.
  - unfold do_io in H. openall H. eapply add_node_frame. eassumption.
  - unfold do_io in H. openall H. eapply add_node_frame. eassumption.
  - eapply const_frame. eassumption.
  - unfold do_bin in H. apply rbind_ok in H as (na & Ha & H). apply rbind_ok in H as (nb & Hb & H).
    assert (MK : forall k, (if is_comp o then let (w1, tb) := add_type w mkBool in mk_op w1 k (BIN o) tb [a; b] else mk_op w k (BIN o) (n_ty na) [a; b]) = Ok (w', r) -> frame w w').
    { intros k X. destruct (is_comp o); [|eapply mk_op_frame; eassumption]. cbn in X. apply mk_op_frame in X. eapply frame_trans; [apply (type_frame w mkBool)|exact X]. }
    destruct (const_value na) as [va|]; [destruct (const_value nb) as [vb|]|]; [|exact (MK _ H)..].
    openall H. eapply const_frame; eassumption.
  - unfold do_un in H. openall H. destruct (const_value _); [openall H; eapply const_frame; eassumption|eapply mk_op_frame; eassumption].
  - unfold do_shift in H. openall H. destruct (const_value _); [openall H; eapply const_frame; eassumption|eapply mk_op_frame; eassumption].
  - unfold do_slice in H. openall H. destruct (_ <=? _)%Z; [discriminate|]. apply mk_op_frame in H. eapply frame_trans; [apply type_frame|exact H].
  - unfold do_cat in H. openall H. apply mk_op_frame in H. eapply frame_trans; [apply type_frame|exact H].
  - unfold do_cast in H. openall H. destruct (Nat.eqb _ _); [injection H as <- _; apply frame_refl|]. eapply mk_op_frame; eassumption.
  - unfold do_mux in H. destruct args; [discriminate|]. openall H. eapply mk_op_frame; eassumption.
  - unfold do_offset in H. openall H. destruct (n_vk _); try discriminate. eapply mk_op_frame; eassumption.
  - openall H. injection H as <- _. unfold do_connect in *. match goal with X : rbind _ _ = _ |- _ => openall X; eapply add_chan_frame; exact X end.
Qed.

(** the stack lists the kernels alive, and the top kernel is the oldest of them *)
Record stacked (w : world) : Prop := {
  sk_live : forall k, is_Some (w_kern w !! k) <-> k ∈ w_stack w;
  sk_nodup : NoDup (w_stack w);
  sk_top : w_top w = last (w_stack w)
}.
Lemma init_stacked : stacked init_world.
Proof. constructor; [|constructor|reflexivity]. intro k. cbn. rewrite lookup_empty. split; [intros [? ?]; discriminate|intro X; inversion X]. Qed.
Lemma stacked_frame w w' : frame w w' -> stacked w -> stacked w'.
Proof. intros (A & B & C) [L N T]. constructor; [intro k; rewrite C, A; apply L|rewrite A; exact N|rewrite A, B; exact T]. Qed.

Lemma filter_head k st : NoDup (k :: st) -> List.filter (fun j => negb (Nat.eqb j k)) (k :: st) = st.
Proof.
  intro N. apply NoDup_cons in N as [Nk _]. cbn. rewrite Nat.eqb_refl. cbn. induction st as [|a st IH]; [reflexivity|]. cbn.
  destruct (Nat.eqb_spec a k) as [->|Na]; [exfalso; apply Nk; left|]. cbn. f_equal. apply IH. intro X. apply Nk. right. exact X.
Qed.
Section Alive.
Variable F : fltops.
Lemma alive_stack : forall h w w', irun F w h = Ok w' -> instances_ok F w h -> sound w -> stacked w -> stacked w' /\ w_stack w' = alive F w (w_stack w) h.
Proof.
  induction h as [|c h IH]; intros w w' R O S K; cbn [irun instances_ok alive] in *; [injection R as <-; auto|].
  ropen R. destruct x as [w1 rs]. rewrite Hx in *. destruct O as [O1 O2]. pose proof (istep_sound F _ _ _ _ Hx O1 S) as S1.
  match goal with |- _ /\ _ = alive F w1 ?l h => assert (X : stacked w1 /\ w_stack w1 = l) end.
  { pose proof S as [W N L]. pose proof K as [Kl Kn Kt]. destruct c as [c|p k bs|k].
    - cbn in Hx. ropen Hx. destruct x as [w2 r2]. injection Hy0 as <- <-. destruct (match c with KNew => true | _ => false end) eqn:Ec.
      + destruct c; try discriminate. cbn in Hx0. injection Hx0 as <- <-. split; [|reflexivity].
        assert (Fr : w_next w ∉ w_stack w) by (intro X; apply Kl in X; pose proof (cs_fresh_k _ (proj1 W) _ X); lia).
        constructor; cbn.
        * intro k. destruct (decide (k = w_next w)) as [->|Nk]; [rewrite lookup_insert; split; [constructor|eauto]|rewrite lookup_insert_ne by auto]. rewrite Kl, elem_of_cons. tauto.
        * constructor; assumption.
        * rewrite Kt. destruct (w_stack w) as [|a st]; [reflexivity|]. cbn. destruct (last (a :: st)) eqn:E; [reflexivity|]. apply last_None in E. discriminate.
      + assert (Fw : frame w w2) by (apply (step_frame F _ _ _ _ Hx0); intros ->; discriminate). split; [exact (stacked_frame _ _ Fw K)|]. destruct c; try discriminate; apply Fw.
    - destruct (instance_runs w p k bs W N L O1) as (w2 & rs2 & σ & H). change (do_instance w p k bs = Ok (w1, rs)) in Hx. rewrite (in_run _ _ _ _ _ _ _ H) in Hx. injection Hx as <- <-.
      destruct (io_stack _ _ _ _ O1) as (st & Est & Nst). rewrite Est in *. rewrite (filter_head _ _ Kn). pose proof (in_stack _ _ _ _ _ _ _ H) as E1. rewrite Est in E1. cbn in E1. split; [|exact E1].
      apply NoDup_cons in Kn as [Nk Kn]. constructor.
      + intro j. rewrite (in_kern _ _ _ _ _ _ _ H), Kl, E1, elem_of_cons. split; [intros [[->|X] Y]; [contradiction|exact X]|]. intro X. split; [auto|]. intros ->. contradiction.
      + rewrite E1. exact Kn.
      + rewrite E1, (in_top _ _ _ _ _ _ _ H), Kt. destruct st as [|a st]; [contradiction|]. reflexivity.
    - destruct (drop_runs w k W N L O1) as (w2 & H). cbn in Hx. rewrite (dd_run _ _ _ H) in Hx. injection Hx as <- <-.
      destruct (dr_last _ _ O1) as (st & Est). rewrite Est in *. rewrite (filter_head _ _ Kn). pose proof (dd_stack _ _ _ H) as E1. rewrite Est in E1. cbn in E1. split; [|exact E1].
      apply NoDup_cons in Kn as [Nk Kn]. constructor.
      + intro j. rewrite (dd_kern _ _ _ H), E1. destruct (decide (j = k)) as [->|Nj]; [rewrite lookup_delete; split; [intros [? ?]; discriminate|intro X; contradiction]|].
        rewrite lookup_delete_ne by auto. rewrite Kl, elem_of_cons. tauto.
      + rewrite E1. exact Kn.
      + rewrite E1, (dd_top _ _ _ H). destruct (decide (w_top w = Some k)) as [E|E].
        * apply (dr_top _ _ O1) in E. rewrite Est in E. injection E as ->. reflexivity.
        * rewrite Kt. destruct st as [|a st]; [|reflexivity]. exfalso. apply E, (dr_top _ _ O1). exact Est. }
  destruct X as [K1 Ek]. rewrite <- Ek. apply (IH w1); assumption.
Qed.
Lemma elab_stack h w : elaborates F h w -> stacked w /\ w_stack w = alive F init_world [] h.
Proof. intros [R O]. exact (alive_stack h init_world w R O init_sound init_stacked). Qed.
End Alive.

(** given that, the conditions on the top kernel hold by themselves *)
Lemma stacked_drop w k st : stacked w -> w_stack w = k :: st -> is_Some (w_kern w !! k) /\ (w_top w = Some k <-> w_stack w = [k]).
Proof.
  intros [L N T] E. split; [apply L; rewrite E; constructor|]. rewrite T, E. split.
  - intro X. destruct st as [|a st]; [reflexivity|]. exfalso. rewrite E in N. apply NoDup_cons in N as [N _]. apply N. cbn in X. apply (last_Some_elem_of (a :: st)). exact X.
  - intro X. injection X as ->. reflexivity.
Qed.
Lemma stacked_instance w k st : stacked w -> w_stack w = k :: st -> st <> [] -> is_Some (w_kern w !! k) /\ w_top w <> Some k.
Proof.
  intros S E Ns. destruct (stacked_drop w k st S E) as [A B]. split; [exact A|]. intro X. apply B in X. rewrite E in X. injection X as ->. contradiction.
Qed.
