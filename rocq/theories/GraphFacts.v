(** Remaining lemmas behind PropertiesGraph.v. *)
From Coq Require Import ZArith Bool String Lia Relations Permutation.
From stdpp Require Import gmap list.
From Verif Require Import Types TypesProofs Word Value Graph GraphSpec BuilderProofs
     BuilderProofs2 TopSort TopSortProofs KernelSort BuilderTopo.

(** checking a concrete history by computation *)
Lemma run_check F h (f : world -> bool) :
  match run F init_world h with Ok w => f w | _ => false end = true ->
  exists w, run F init_world h = Ok w /\ f w = true.
Proof. destruct (run F init_world h); try discriminate. eauto. Qed.

Definition ok_callb (w : world) (c : cmd) : bool :=
  match c with
  | CConnect a b => negb (Nat.eqb a b) && match operands w a with [] => true | _ => false end
      && match readers w a with [] => true | _ => false end
      && match w_nodes w !! a with
         | Some nd => match n_op nd with OUT | NONE => true | _ => false end
         | None => false end
  | _ => true
  end.
Fixpoint disciplinedb (F : fltops) (w : world) (h : list cmd) : bool :=
  match h with
  | [] => true
  | c :: h' => ok_callb w c && match step F w c with Ok (w', _) => disciplinedb F w' h' | _ => true end
  end.
Lemma disciplinedb_sound F : forall h w, disciplinedb F w h = true -> disciplined F w h.
Proof.
  induction h as [|c h IH]; intros w H; cbn [disciplined disciplinedb] in *; [exact I|].
  apply andb_true_iff in H as [A B]. split.
  - destruct c; try exact I. cbn in A |- *. rewrite !andb_true_iff in A. destruct A as [[[A1 A2] A3] A4].
    split; [intros ->; rewrite Nat.eqb_refl in A1; discriminate|].
    split; [destruct (operands w a); [reflexivity|discriminate]|].
    split; [destruct (readers w a); [reflexivity|discriminate]|].
    destruct (w_nodes w !! a) as [nd|]; [|discriminate]. exists nd. split; [reflexivity|].
    destruct (n_op nd); try discriminate; auto.
  - destruct (step F w c) as [[w' r]| | |]; auto.
Qed.
Fixpoint nat_list_eqb (a b : list nat) : bool :=
  match a, b with
  | [], [] => true
  | x :: a, y :: b => Nat.eqb x y && nat_list_eqb a b
  | _, _ => false
  end.
Lemma nat_list_eqb_eq a : forall b, nat_list_eqb a b = true -> a = b.
Proof.
  induction a as [|x a IH]; intros [|y b] H; cbn in H; try discriminate; [reflexivity|].
  apply andb_true_iff in H as [H1 H2]. apply Nat.eqb_eq in H1 as ->. f_equal. auto.
Qed.

Lemma single_kernel_sorts F h w g :
  run F init_world (KNew :: h) = Ok w ->
  disciplined F init_world (KNew :: h) ->
  forallb (fun c => negb (is_knew c)) h = true ->
  w_kern w !! 0 = Some g -> complete w 0 ->
  (forall n, n ∈ g_nodes g -> n ∈ g_starts g \/
     exists s, s ∈ g_starts g /\ clos_trans nat (fun a b => a ∈ operands w b) s n) /\
  forall hash, (forall l, Permutation (hash l) l) -> exists r, sort_by hash w 0 = Some (TSOk r) /\ Permutation r (g_nodes g) /\
    forall i j a b, r !! i = Some a -> r !! j = Some b -> a ∈ operands w b -> i < j.
Proof.
  intros R D Hc Hg Cm. destruct (single_kernel_owns F _ _ R Hc) as [Ok _]. split.
  - destruct (run_ff F _ _ _ R D init_WF init_ranked init_srcs_clean) as [Rk _].
    exact (reach_from_start w 0 g (run_WF F _ _ _ R init_WF) Rk Cm Ok Hg).
  - exact (feedforward_sorts F _ _ _ _ R D Hg Cm Ok).
Qed.

Lemma top_sort_correct outs nodes starts :
  (forall a b, In a nodes -> In b (outs a) -> In b nodes) ->
  (forall s, In s starts -> In s nodes) -> List.NoDup starts -> List.NoDup nodes ->
  (forall n, ~ clos_trans nat (fun a b => In b (outs a)) n n) ->
  (forall a s, In s starts -> ~ In s (outs a)) ->
  (forall x, In x nodes -> In x starts \/
     exists s, In s starts /\ clos_trans nat (fun a b => In b (outs a)) s x) ->
  exists r, top_sort outs starts (length nodes) = TSOk r /\ Permutation r nodes /\
    forall l1 x l2 y, r = l1 ++ x :: l2 -> In y (outs x) -> In y l2.
Proof.
  intros Hcl Hin Hnds Hndn Acy Src Reach.
  destruct (top_sort_ok_iff outs nodes starts Hcl Hin Hnds Hndn) as [_ H].
  destruct (H Reach) as [r Hr]. exists r. split; [exact Hr|].
  destruct (top_sort_ok_perm outs nodes starts Hcl Hin Hnds r Hr) as (P & T & _).
  split; [exact P|]. intros l1 x l2 y E Hy. eapply T; eauto.
Qed.

(** o = output; t = o + x; o.connect(t) *)
Definition cyc : list cmd :=
  [ KNew; CType (dfUInt 8); CInput 0 false "x" 0; COutput 0 false "o" 0; CBin ADD 1 2; CConnect 2 3 ].
Definition cyc_flt : fltops := {| fl_bin := fun _ _ _ => 0%Z; fl_neg := fun _ => 0%Z |}.
Lemma cyclic_kernel_sorts :
  exists F h w r, run F init_world h = Ok w /\ check w 0 = Ok true /\
    (exists n, clos_trans nat (fun a b => a ∈ operands w b) n n) /\
    sort_kernel w 0 = Some (TSOk r).
Proof.
  exists cyc_flt, cyc.
  destruct (run_check cyc_flt cyc (fun w => nat_list_eqb (operands w 2) [3] && nat_list_eqb (operands w 3) [1; 2] &&
     match check w 0 with Ok true => true | _ => false end &&
     match sort_kernel w 0 with Some (TSOk r) => nat_list_eqb r [1; 3; 2] | _ => false end)) as (w & R & H); [reflexivity|].
  rewrite !andb_true_iff in H. destruct H as [[[A B] D] E].
  apply nat_list_eqb_eq in A, B. exists w, [1; 3; 2]. split; [exact R|].
  split; [destruct (check w 0) as [[]| | |]; congruence|]. split.
  - exists 2. eapply t_trans with (y := 3); apply t_step; rewrite ?A, ?B; set_solver.
  - destruct (sort_kernel w 0) as [[]|]; try discriminate. apply nat_list_eqb_eq in E. congruence.
Qed.

(** *** progress: calls on live variables of one kernel succeed *)
Definition usable (w : world) (k : nat) (a : nat) : Prop :=
  exists nd, w_nodes w !! a = Some nd /\ (n_vk nd = VConst \/ n_meta nd = k).

Lemma add_chan_progress w k s t i b : consistent w -> usable w k s ->
  (exists g, w_kern w !! k = Some g /\ t ∈ g_nodes g) -> exists w', add_chan w k s t i b = Ok w'.
Proof.
  intros C (nd & Hn & Hu) (g & Hg & Ht). unfold add_chan, get_node. rewrite Hn. cbn [of_opt rbind].
  destruct (cs_owned _ C _ _ Hn) as (g1 & Hg1 & Hs).
  assert (E : find_node w (match n_vk nd with VConst => n_meta nd | _ => k end) s = Ok true).
  { unfold find_node. destruct Hu as [Hv|Hm].
    - rewrite Hv, Hg1. cbn. now rewrite bool_decide_eq_true_2.
    - rewrite Hm in Hg1. replace (match n_vk nd with VConst => n_meta nd | _ => k end) with k by (destruct (n_vk nd); congruence).
      rewrite Hg1. cbn. now rewrite bool_decide_eq_true_2. }
  destruct (cs_member _ C _ _ _ Hg Ht) as (nt & Hnt & _).
  assert (E2 : find_node w k t = Ok true).
  { unfold find_node. rewrite Hg. cbn. now rewrite bool_decide_eq_true_2. }
  assert (E3 : exists w', add_chan_nodes w s t i b = Ok w').
  { unfold add_chan_nodes, get_node. rewrite Hn, Hnt. cbn. eauto. }
  destruct E3 as [w' E3]. exists w'.
  destruct (n_vk nd) eqn:Ev; cbn [of_opt rbind].
  - rewrite E, E2. cbn. exact E3.
  - rewrite E, E2. cbn. exact E3.
  - rewrite (cs_const_top _ C _ _ Hn Ev). cbn [of_opt rbind]. rewrite E, E2. cbn. exact E3.
Qed.

Lemma usable_heads w w' k a : heads_eq w w' -> usable w k a -> usable w' k a.
Proof.
  intros [H _] (nd & Hn & Hu). destruct (H _ _ Hn) as (nd' & Hn' & (A & B & D & E & G)).
  exists nd'. split; [auto|]. rewrite <- D, <- G. auto.
Qed.

Lemma add_chans_progress : forall srcs w k t i, consistent w -> (forall s, s ∈ srcs -> usable w k s) ->
  (exists g, w_kern w !! k = Some g /\ t ∈ g_nodes g) -> exists w', add_chans w k srcs t i = Ok w'.
Proof.
  induction srcs as [|s srcs IH]; intros w k t i C Hs Ht; cbn [add_chans]; [eauto|].
  destruct (add_chan_progress w k s t i false C) as [w1 E]; [apply Hs; left|auto|].
  rewrite E. cbn [rbind]. apply add_chan_inv in E as [E _].
  pose proof (add_chan_nodes_heads _ _ _ _ _ _ E) as (Hh & _ & _ & Hk & _).
  apply IH.
  - eapply add_chan_nodes_consistent; eauto.
  - intros x Hx. eapply usable_heads; eauto. apply Hs. now right.
  - rewrite Hk. exact Ht.
Qed.

Lemma mk_op_progress w k o ty args :
  consistent w -> is_Some (w_types w !! ty) -> (forall v, o <> CONST v) -> is_Some (w_kern w !! k) ->
  (forall a, a ∈ args -> usable w k a) -> exists w' n, mk_op w k o ty args = Ok (w', n).
Proof.
  intros C Hty Ho [g Hg] Ha. unfold mk_op.
  assert (E : forallb (fun a => bool_decide (is_Some (w_nodes w !! a))) args = true).
  { apply forallb_forall. intros a Hin. apply bool_decide_eq_true_2. apply elem_of_list_In in Hin.
    destruct (Ha _ Hin) as (nd & Hn & _). eauto. }
  rewrite E. clear E.
  destruct (add_node w k o ty VStream "") as [[w1 n]| | |] eqn:E;
    [|unfold add_node in E; rewrite Hg in E; cbn in E; discriminate..].
  cbn [rbind].
  assert (C1 : consistent w1).
  { eapply add_node_consistent; eauto.
    - split; [intros [v Hv]; destruct (Ho v); auto|discriminate].
    - discriminate. }
  pose proof E as E0. apply add_node_inv in E as (g' & Hg' & En & ->).
  match goal with |- exists a b, rbind (add_chans ?W k args n 0) _ = _ => destruct (add_chans_progress args W k n 0) as [w2 E2]; auto end.
  - intros a Hin. destruct (Ha _ Hin) as (nd & Hn & Hu). exists nd. split; [|auto]. cbn [w_nodes].
    rewrite lookup_insert_ne; [auto|]. intros <-. assert (n < w_next w) by (apply (cs_fresh_n _ C); eauto). lia.
  - cbn [w_kern]. rewrite lookup_insert. eexists. split; [reflexivity|]. cbn. left.
  - rewrite E2. cbn. eauto.
Qed.

Lemma slice_call F h w a f s : run F init_world h = Ok w -> is_Some (w_nodes w !! a) ->
  (0 <= f < 65536 -> 0 <= s < 65536 ->
   exists t, type_of w a = Some t /\
   ((Z.max f s < total_bits t < 2 ^ 16 -> exists w' r,
       step F w (CSlice a f s) = Ok (w', r) /\ step F w (CSlice a s f) = Ok (w', r) /\
       new_node w w' r (owner w a) (BITS (Z.max f s) (Z.min f s)) (TRaw (Z.abs (f - s) + 1))
                VStream EmptyString [a]) /\
    (total_bits t <= Z.max f s ->
       step F w (CSlice a f s) = Throw /\ step F w (CSlice a s f) = Throw)))%Z.
Proof.
  intros R [nd Hn] Hf Hs. pose proof (run_WF F _ _ _ R init_WF) as W. pose proof W as [C _].
  destruct (cs_type _ C _ _ Hn) as [t Ht]. exists t.
  assert (Hto : type_of w a = Some t) by (unfold type_of; now rewrite Hn). split; [exact Hto|].
  assert (E : step F w (CSlice a f s) = if (total_bits t <=? Z.max f s)%Z then Throw else
                (let (w1, tr) := add_type w (mkRaw (Z.abs (f - s) + 1)) in mk_op w1 (n_meta nd) (BITS (Z.max f s) (Z.min f s)) tr [a])).
  { cbn [step]. unfold do_slice, get_node, get_type, u16. rewrite !Z.mod_small by lia. rewrite Hn. cbn [of_opt rbind]. rewrite Ht. cbn [of_opt rbind].
    destruct (Z.ltb_spec s f).
    - rewrite (Z.max_l f s), (Z.min_r f s), (Z.abs_eq (f - s)) by lia. reflexivity.
    - rewrite (Z.max_r f s), (Z.min_l f s), (Z.abs_neq (f - s)) by lia. replace (- (f - s))%Z with (s - f)%Z by lia. reflexivity. }
  assert (E' : step F w (CSlice a s f) = if (total_bits t <=? Z.max f s)%Z then Throw else
                (let (w1, tr) := add_type w (mkRaw (Z.abs (f - s) + 1)) in mk_op w1 (n_meta nd) (BITS (Z.max f s) (Z.min f s)) tr [a])).
  { cbn [step]. unfold do_slice, get_node, get_type, u16. rewrite !Z.mod_small by lia. rewrite Hn. cbn [of_opt rbind]. rewrite Ht. cbn [of_opt rbind].
    destruct (Z.ltb_spec f s).
    - rewrite (Z.max_r f s), (Z.min_l f s), (Z.abs_neq (f - s)) by lia. replace (- (f - s))%Z with (s - f)%Z by lia. reflexivity.
    - rewrite (Z.max_l f s), (Z.min_r f s), (Z.abs_eq (f - s)) by lia. reflexivity. }
  split.
  - intros Hlt. destruct (Z.leb_spec (total_bits t) (Z.max f s)); [lia|].
    cbn [add_type] in E, E'. unfold add_type in E, E'.
    destruct (mk_op_progress (fst (add_type w (mkRaw (Z.abs (f - s) + 1)))) (n_meta nd) (BITS (Z.max f s) (Z.min f s)) (length (w_types w)) [a]) as (w' & r & Em).
    + apply (add_type_WF w _ W).
    + cbn. rewrite lookup_app_r, Nat.sub_diag by lia. eauto.
    + discriminate.
    + destruct (cs_owned _ C _ _ Hn) as (g & Hg & _). cbn. eauto.
    + intros x Hx. apply elem_of_list_singleton in Hx as ->. exists nd. auto.
    + unfold add_type in Em. cbn [fst] in Em. exists w', r. rewrite E, E'. split; [exact Em|]. split; [exact Em|].
      rewrite Em in E. destruct (step_ext F _ _ _ _ E W) as [_ Q]. cbn [call_post] in Q.
      destruct Q as (ta & Hta & _ & Q). rewrite !Z.mod_small in Q by lia.
      unfold mkRaw in Q. unfold u16 in Q. rewrite Z.mod_small in Q; [exact Q|].
      change (2 ^ 16)%Z with 65536%Z in Hlt. lia.
  - intros Hge. destruct (Z.leb_spec (total_bits t) (Z.max f s)); [|lia]. auto.
Qed.

Definition completeb (w : world) (k : nat) : bool :=
  forallb (fun p : nat * node => let (n, nd) := p in
     if Nat.eqb (n_meta nd) k then
       match n_op nd with NONE => false | OUT => match operands w n with [] => false | _ => true end | _ => true end
     else true) (map_to_list (w_nodes w)).
Lemma completeb_sound w k : completeb w k = true -> complete w k.
Proof.
  unfold completeb. rewrite forallb_forall. intros H n nd Hn Hm.
  specialize (H (n, nd)). rewrite <- elem_of_list_In, elem_of_map_to_list in H. specialize (H Hn). cbn in H.
  rewrite Hm, Nat.eqb_refl in H. destruct (n_op nd); try discriminate; split; try discriminate.
  intros _ E. rewrite E in H. discriminate.
Qed.

Lemma type_facts :
  (forall a b, ty_eqb a b = true <-> a = b) /\
  (forall s i f, 0 <= i < 2 ^ 16 -> 0 <= f < 2 ^ 16 -> i + f + 1 < 2 ^ 16 ->
     total_bits (mkFixed s i f) = (if s then 1 else 0) + i + f)%Z /\
  (forall e f, 0 <= e < 2 ^ 8 -> 0 <= f < 2 ^ 8 -> total_bits (mkFloat e f) = e + f + 1)%Z /\
  (forall n, 0 <= n < 2 ^ 16 -> total_bits (mkRaw n) = n)%Z /\
  (forall n, 0 < n < 2 ^ 16 -> exists t, dfInt n = Some t /\ total_bits t = n /\ total_bits (dfUInt n) = n)%Z.
Proof.
  split; [exact ty_eqb_eq|]. change (2 ^ 16)%Z with 65536%Z. change (2 ^ 8)%Z with 256%Z. repeat split.
  - intros s i f Hi Hf H. cbn. unfold u16. rewrite (Z.mod_small i), (Z.mod_small f) by lia.
    apply Z.mod_small. destruct s; lia.
  - intros e f He Hf. cbn. unfold u16, u8. rewrite (Z.mod_small e), (Z.mod_small f) by lia. apply Z.mod_small. lia.
  - intros n Hn. cbn. unfold u16. apply Z.mod_small. lia.
  - intros n Hn. unfold dfInt, dfUInt. unfold u16 at 1 2. rewrite (Z.mod_small n) by lia.
    destruct (Z.ltb_spec 0 n); [|lia]. eexists. split; [reflexivity|]. unfold mkFixed. cbn [total_bits]. unfold u16.
    change (0 mod 65536)%Z with 0%Z.
    rewrite (Z.mod_small n), (Z.mod_small (n - 1)), !Z.mod_small by (rewrite ?Z.mod_small; lia). lia.
Qed.

Lemma cast_same F h w a nd : run F init_world h = Ok w -> w_nodes w !! a = Some nd ->
  step F w (CCast a (n_ty nd)) = Ok (w, a).
Proof.
  intros R Hn. pose proof (run_WF F _ _ _ R init_WF) as [C _].
  destruct (cs_type _ C _ _ Hn) as [t Ht].
  cbn [step]. unfold do_cast, get_node, get_type. rewrite Hn. cbn. rewrite Ht. cbn. now rewrite Nat.eqb_refl.
Qed.

Lemma cast_equal_type_node :
  exists F h w a ty w' r, run F init_world h = Ok w /\
    type_of w a = w_types w !! ty /\ is_Some (type_of w a) /\
    step F w (CCast a ty) = Ok (w', r) /\ r <> a.
Proof.
  exists cyc_flt, [KNew; CType (dfUInt 8); CType (dfUInt 8); CInput 0 false "x" 0].
  eexists _, 1, 1, _, 2. split; [reflexivity|]. split; [reflexivity|]. split; [vm_compute; eauto|].
  split; [vm_compute; reflexivity|]. discriminate.
Qed.
