(** * Property theorems: lifetimes of kernel objects and the owner of constants (C39). *)
From Coq Require Import ZArith Bool String Lia.
From stdpp Require Import gmap list.
From Verif Require Import Types Word Value Graph GraphSpec GraphFacts BuilderTopo BuilderProofs BuilderProofs2 KernelSort TopSort Dfcir StreamSpec KernelSpec
  Instance InstanceSpec InstanceFlow InstanceFacts LifeProofs SchedFacts PropertiesSched PropertiesInstance.

(** Whatever kernels are constructed, instantiated and destroyed, in the nested way of
    [elaborates]: every constant is owned by the outermost kernel alive, asking for a
    constant gives one owned by it, and while a kernel is alive this never fails.
    Missing: lifetimes that are not nested, see below. *)
Theorem C39_partial :
  forall F h w, elaborates F h w ->
  let l := alive F init_world [] h in
  (forall k, is_Some (w_kern w !! k) <-> k ∈ l) /\
  (forall n, is_const w n -> last l = Some (owner w n)) /\
  (forall ty v w' r, step F w (CConst ty v) = Ok (w', r) -> is_const w' r /\ last l = Some (owner w' r)) /\
  (l <> [] -> forall ty v t, w_types w !! ty = Some t -> exists w' r, step F w (CConst ty v) = Ok (w', r)).
Proof.
  intros F h w E. cbv zeta. destruct (elab_stack F h w E) as [K Ek]. rewrite <- Ek. pose proof (elab_WF F h w E) as W.
  assert (CO : forall w, WF w -> stacked w -> forall n, is_const w n -> last (w_stack w) = Some (owner w n)).
  { intros w0 W0 K0 n (nd & Hn & V). rewrite <- (sk_top _ K0). unfold owner. rewrite Hn. exact (cs_const_top _ (proj1 W0) n nd Hn V). }
  split; [exact (sk_live _ K)|]. split; [exact (CO w W K)|]. split.
  - intros ty v w' r St. destruct (step_ext F _ _ _ _ St W) as [[W' _] (t & _ & (nd & Hn & V & _) & _)].
    assert (Fr : frame w w') by (apply (step_frame F _ _ _ _ St); discriminate). assert (IC : is_const w' r) by (exists nd; auto). split; [exact IC|].
    rewrite <- (proj1 Fr). apply CO; [exact W'|exact (stacked_frame _ _ Fr K)|exact IC].
  - intros Ne ty v t Ht. cbn [step]. unfold create_or_use_const, get_type. rewrite Ht. cbn [of_opt rbind].
    assert (exists k, w_top w = Some k) as (k & Ek').
    { rewrite (sk_top _ K). destruct (last (w_stack w)) eqn:El; [eauto|]. apply last_None in El. contradiction. }
    rewrite Ek'. cbn [of_opt rbind]. destruct (cs_top _ (proj1 W) k Ek') as (g & Hg). rewrite Hg. cbn [of_opt rbind]. destruct (List.find _ _); [eauto|]. unfold add_node. rewrite Hg. cbn. eauto.
Qed.

(** what [instance_ok] and [drop_ok] ask about the top kernel holds by itself *)
Theorem C39_conditions :
  forall F h w k st, elaborates F h w -> alive F init_world [] h = k :: st ->
  w_stack w = k :: st /\ is_Some (w_kern w !! k) /\ (w_top w = Some k <-> w_stack w = [k]) /\ (st <> [] -> w_top w <> Some k).
Proof.
  intros F h w k st E A. destruct (elab_stack F h w E) as [K Ek]. rewrite A in Ek. split; [exact Ek|].
  destruct (stacked_drop w k st K Ek) as [H1 H2]. split; [exact H1|]. split; [exact H2|]. intro Ns. exact (proj2 (stacked_instance w k st K Ek Ns)).
Qed.

(** a case: the polynomial with an instance, whose sub-kernel also uses a constant, built
    after another kernel was constructed and destroyed *)
Definition seq_h : list icmd := map ICall
  [ KNew; CType (TFixed false 8 0); CInput 0 false "a" 0; CConst 0 7; CBin ADD 1 2; COutput 0 false "b" 0; CConnect 6 3 ] ++   (* kernel 0; 1 2 3 6 *)
  [ IDrop 0 ] ++ map ICall
  [ KNew; CType (TFixed false 32 0); CInput 8 false "y" 1; CNewVar 8 false 1;                                                    (* kernel 8; 9, 10 *)
    KNew; CInput 11 false "x" 1; CConst 1 3; CBin MUL 12 13; COutput 11 false "out" 1; CConnect 17 14 ] ++                        (* kernel 11; 12 13 14 17 *)
  [ IInst 8 11 [(9, "x"%string); (10, "out"%string)] ] ++ map ICall
  [ COutput 8 false "res" 1; CConnect 19 14 ].                                                                                    (* 19 *)
Definition seq_rank (n : nat) : nat := if n =? 10 then 18 else n.
Definition seq_flow (w : world) : bool :=
  completeb w 8 && forallb (fun q : nat * node => n_meta (snd q) =? 8) (map_to_list (w_nodes w)) && bool_decide (is_Some (w_nodes w !! 13)) &&
  schedulableb w && match sort_kernel w 8 with Some (TSOk r) => nat_list_eqb r [13; 9; 14; 19] | _ => false end.
Example C39_case : exists w order, elaborates noflt0 seq_h w /\ alive noflt0 init_world [] seq_h = [8] /\ owner w 13 = 8 /\ built noflt0 seq_h w order.
Proof.
  assert (X : irun_ok noflt0 seq_rank seq_h seq_flow = true) by (vm_compute; reflexivity).
  destruct (irun_check _ _ _ _ X) as (w & R & D & El & Y). exists w, [13; 9; 14; 19]. unfold seq_flow in Y. rewrite !andb_true_iff in Y. destruct Y as [[[[Y1 Y2] Yc] Y3] Y4].
  assert (OK : only_kernel w 8) by (intros n nd Hn; pose proof (map_forallb w _ Y2 n nd Hn) as Z; apply Nat.eqb_eq, Z).
  split; [exact El|]. split; [vm_compute; reflexivity|]. split.
  - apply bool_decide_eq_true in Yc as (nd & Hn). unfold owner. rewrite Hn. exact (OK 13 nd Hn).
  - exists 8. split; [exact R|]. split; [exact D|]. split; [exact OK|]. split; [apply completeb_sound, Y1|]. destruct (sort_kernel w 8) as [[r| |]|] eqn:ES; try discriminate Y4. apply nat_list_eqb_eq in Y4 as ->. exact (sort_sorts _ _ _ ES).
Qed.

(** Two kernels alive at once, neither inside the other: the constants of the younger are
    put into the older, and compiling the younger, though it is complete, fails: the
    topological sort misses the constant, so translating its reader uses a value that was
    never created (map[first] is a null mlir::Value, dfcir_builder.cpp:185). *)
Definition sib_h : list icmd := map ICall
  [ KNew; CType (TFixed false 8 0);
    KNew; CInput 1 false "x" 0; CConst 0 5; CBin ADD 2 3; COutput 1 false "o" 0; CConnect 7 4 ].   (* kernel 1; 2 3 4 7 *)
Theorem C39_refuted : exists F h w k n c, irun F init_world h = Ok w /\ idisciplined F init_world h /\ elaborates F h w /\ complete w k /\
  owner w n = k /\ is_const w c /\ c ∈ operands w n /\ owner w c <> k /\
  exists order, sort_kernel w k = Some (TSOk order) /\ c ∉ order /\ build w order = UB.
Proof.
  set (f := fun w => completeb w 1 && (owner w 4 =? 1) && match w_nodes w !! 3 with Some nd => bool_decide (n_vk nd = VConst) && negb (n_meta nd =? 1) | None => false end &&
     bool_decide (3 ∈ operands w 4) && match sort_kernel w 1 with Some (TSOk r) => nat_list_eqb r [2; 4; 7] && match build w [2; 4; 7] with UB => true | _ => false end | _ => false end).
  assert (X : irun_ok noflt0 (fun n => n) sib_h f = true) by (vm_compute; reflexivity).
  destruct (irun_check _ _ _ _ X) as (w & R & D & El & Y). unfold f in Y. rewrite !andb_true_iff in Y. destruct Y as [[[[Y1 Y2] Y3] Y4] Y5].
  destruct (w_nodes w !! 3) as [nd|] eqn:Hn; [|discriminate Y3]. apply andb_true_iff in Y3 as [Y3 Y6]. apply bool_decide_eq_true in Y3, Y4. apply Nat.eqb_eq in Y2. apply negb_true_iff, Nat.eqb_neq in Y6.
  exists noflt0, sib_h, w, 1, 4, 3. split; [exact R|]. split; [exact D|]. split; [exact El|]. split; [apply completeb_sound, Y1|]. split; [exact Y2|]. split; [exists nd; auto|]. split; [exact Y4|].
  split; [unfold owner; rewrite Hn; exact Y6|]. destruct (sort_kernel w 1) as [[r| |]|]; try discriminate Y5. apply andb_true_iff in Y5 as [Y5 Y7]. apply nat_list_eqb_eq in Y5 as ->. exists [2; 4; 7]. split; [reflexivity|].
  split; [rewrite !elem_of_cons, elem_of_nil; lia|]. destruct (build w [2; 4; 7]); try discriminate Y7. reflexivity.
Qed.

(** Destroying the older of two kernels first: the younger is alive, but asking for a
    constant dereferences a null pointer (KernelMeta::top). *)
Theorem C39_order_refuted : exists F h w k t, irun F init_world h = Ok w /\ is_Some (w_kern w !! k) /\ is_Some (w_types w !! t) /\
  forall v, step F w (CConst t v) = UB.
Proof.
  set (h := map ICall [ KNew; CType (TFixed false 8 0); KNew ] ++ [ IDrop 0 ]).
  assert (X : match irun noflt0 init_world h with Ok w => bool_decide (is_Some (w_kern w !! 1)) && bool_decide (is_Some (w_types w !! 0)) && bool_decide (w_top w = None) | _ => false end = true) by (vm_compute; reflexivity).
  destruct (irun noflt0 init_world h) as [w| | |] eqn:E; try discriminate X. rewrite !andb_true_iff in X. destruct X as [[X1 X2] X3]. apply bool_decide_eq_true in X1, X2, X3.
  exists noflt0, h, w, 1, 0. split; [exact E|]. split; [exact X1|]. split; [exact X2|]. intro v. cbn [step]. unfold create_or_use_const, get_type. destruct X2 as (t & ->). cbn [of_opt rbind]. rewrite X3. reflexivity.
Qed.

(** A nested kernel that used a constant and is destroyed without having been instantiated
    leaves the graph of the outer kernel with a channel to a freed node. *)
Theorem C39_abandoned : exists F h w, irun F init_world h = Ok w /\ alive F init_world [] h <> [] /\ ~ consistent w.
Proof.
  set (h := sib_h ++ [ IDrop 1 ]).
  assert (X : match irun noflt0 init_world h with Ok w => match w_chans w !! 6 with Some ch => bool_decide (w_nodes w !! c_tgt ch = None) | None => false end | _ => false end = true) by (vm_compute; reflexivity).
  assert (Y : alive noflt0 init_world [] h = [0]) by (vm_compute; reflexivity).
  destruct (irun noflt0 init_world h) as [w| | |] eqn:E; try discriminate X. destruct (w_chans w !! 6) as [ch|] eqn:Hc; [|discriminate X]. apply bool_decide_eq_true in X.
  exists noflt0, h, w. split; [exact E|]. split; [rewrite Y; discriminate|]. intro C. destruct (cs_tgt _ C 6 ch Hc) as (nd & Hn & _). congruence.
Qed.

Definition PropertiesLife_theorems := (C39_partial, C39_conditions, C39_refuted, C39_order_refuted, C39_abandoned).
Print Assumptions PropertiesLife_theorems.
