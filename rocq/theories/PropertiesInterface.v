(** * Property theorems: the interface of the generated hardware (C56). *)
From Coq Require Import ZArith Bool String Lia.
From stdpp Require Import gmap list.
From Verif Require Import Types Word Value Graph GraphSpec BuilderProofs BuilderProofs2 BuilderTopo GraphFacts TopSort KernelSort Instance InstanceSpec InstanceFacts InstanceMain InstanceDrop InstanceFlow
  Dfcir StreamSpec Sched SchedSpec SchedFinal SchedFacts DfcirProofs Linear Pipeline ProgTyping Verify RtlFacts RtlFlow Stubs Verilog Naming PropertiesSched PropertiesRtl PropertiesAsm
  Interface InterfaceSpec InterfaceProofs.
Local Open Scope Z_scope.

Notation clock := (mkPort "clk" HClock true).

(** all types of a program whose types are made by the API are as the API makes them *)
Lemma irun_api F : forall h w w', irun F w h = Ok w' -> instances_ok F w h -> sound w -> (forall u, ICall (CType u) ∈ h -> api_type u) ->
  (forall t, t ∈ w_types w -> api_type t) -> forall t, t ∈ w_types w' -> api_type t.
Proof.
  induction h as [|c h IH]; intros w w' R O S G T; cbn [irun instances_ok] in R, O; [injection R as <-; exact T|].
  ropen R. destruct x as [w1 r]. rewrite Hx in O. destruct O as [O1 O2]. assert (S1 := istep_sound F _ _ _ _ Hx O1 S).
  apply (IH w1); [exact Hy|exact O2|exact S1|intros t Ht; apply G; right; exact Ht|]. destruct c as [c|p k bs|k].
  - cbn in Hx. ropen Hx. destruct x as [w2 r2]. injection Hy0 as <- <-. intros t Ht. apply step_new_types in Hx0 as [EQ|(t' & EQ & Y)]; rewrite EQ in Ht; [auto|].
    apply elem_of_app in Ht as [Ht|Ht]; [auto|]. apply elem_of_list_singleton in Ht as ->.
    destruct Y as [->|[(m & ->)| ->]]; [apply G; left|right; right; right; left; eauto|right; right; right; right; reflexivity].
  - destruct S as [W N L]. destruct (instance_runs w p k bs W N L O1) as (w2 & rs & σ & H). change (do_instance w p k bs = Ok (w1, r)) in Hx. rewrite (in_run _ _ _ _ _ _ _ H) in Hx. injection Hx as <- <-.
    rewrite (in_types _ _ _ _ _ _ _ H). exact T.
  - destruct S as [W N L]. destruct (drop_runs w k W N L O1) as (w2 & X). cbn in Hx. rewrite (dd_run _ _ _ X) in Hx. injection Hx as <- <-. rewrite (dd_types _ _ _ X). exact T.
Qed.

(** [h] builds the one kernel [k] (sub-kernels included), translated to [P], of which [Q] is a schedule *)
Definition compiled (F : fltops) (h : list icmd) (k : nat) (w : world) (Q : program) : Prop :=
  exists order P, irun F init_world h = Ok w /\ idisciplined F init_world h /\ only_kernel w k /\ complete w k /\ sorts w k order /\
    good_types F h /\ build w order = Ok P /\ (Q = P \/ scheduled P Q).
Definition api_types (h : list icmd) : Prop := forall u, ICall (CType u) ∈ h -> api_type u.

Lemma compiled_ports F h k w Q : compiled F h k w Q -> sub_names_distinct (fun _ => []) h -> api_types h ->
  exists ps, module_ports Q = ps ++ [clock] /\ ps ≡ₚ omap (port_of (w_types w)) (declared h k) /\ lists w k (declared h k).
Proof.
  intros (order & P & R & D & K & C & S & GT & EB & SC) DN A. exists (omap stmt_port P).
  assert (T : ptyped P) by (eapply kernel_ptyped; eassumption).
  split; [|split; [|eapply kernel_lists; eassumption]].
  { destruct SC as [->|SC]; [reflexivity|]. rewrite (scheduled_ports P Q T SC). reflexivity. }
  rewrite (kernel_ports F h w order R D K C S P EB DN).
  assert (API : forall t, t ∈ w_types w -> api_type t).
  { eapply irun_api; [exact R|apply disciplined_instances, D|apply init_sound|exact A|intros t H; inversion H]. }
  replace (omap (conv_port w) (declared h k)) with (omap (port_of (w_types w)) (declared h k)); [reflexivity|].
  induction (declared h k) as [|d l IH]; [reflexivity|]. cbn. rewrite IH. unfold conv_port, port_of. destruct (w_types w !! d_type d) as [t|] eqn:E; [|reflexivity].
  destruct (api_kept t) as [X _]; [apply API; eapply elem_of_list_lookup_2; exact E|]. rewrite X. reflexivity.
Qed.

(** the module has the declared ports, each with its name, direction, width and signedness,
    and after them the clock; nothing else *)
Theorem C56_ports : forall F h k w Q, compiled F h k w Q -> sub_names_distinct (fun _ => []) h -> api_types h ->
  exists ps ds, module_ports Q = ps ++ [clock] /\ ds ≡ₚ declared h k /\ Forall2 (fun d p => port_of (w_types w) d = Some p) ds ps.
Proof.
  intros F h k w Q CQ DN A. destruct (compiled_ports F h k w Q CQ DN A) as (ps & E & P & (ns & _ & _ & F2)).
  assert (X : exists qs, Forall2 (fun d p => port_of (w_types w) d = Some p) (declared h k) qs /\ qs = omap (port_of (w_types w)) (declared h k)).
  { clear -F2. induction F2 as [|n d ns l (nd & t & _ & _ & _ & _ & _ & T) F2 (qs & IH & ->)]; [exists []; split; constructor|].
    eexists. split; [constructor; [unfold port_of; rewrite T; reflexivity|exact IH]|]. cbn. unfold port_of at 2. rewrite T. reflexivity. }
  destruct X as (qs & X & ->). destruct (Permutation_Forall2 (Permutation_sym P) (proj2 (Forall2_flip _ _ _) X)) as (ds & P2 & Y).
  exists ps, ds. split; [exact E|]. split; [symmetry; exact P2|]. apply Forall2_flip in Y. exact Y.
Qed.
(** when every port of every sub-kernel is bound these are the ports the calls on the
    kernel itself declare, one for each call *)
Theorem C56_own : forall h k, all_bound (fun _ => []) h -> (forall p bs, IInst p k bs ∉ h) -> IDrop k ∉ h -> declared h k = own_ports h k.
Proof. intros h k B I D. unfold declared. rewrite own_all by assumption. reflexivity. Qed.
(** the scheduler, its parameters and the order in which hash tables are walked do not change
    the interface, but for the order of the ports *)
Theorem C56_same : forall F h k w Q w' Q', compiled F h k w Q -> compiled F h k w' Q' -> sub_names_distinct (fun _ => []) h -> api_types h ->
  module_ports Q ≡ₚ module_ports Q'.
Proof.
  intros F h k w Q w' Q' C1 C2 DN A. destruct (compiled_ports F h k w Q C1 DN A) as (ps & -> & P1 & _). destruct (compiled_ports F h k w' Q' C2 DN A) as (ps' & -> & P2 & _).
  destruct C1 as (? & ? & R1 & _). destruct C2 as (? & ? & R2 & _). assert (w = w') by congruence. subst. rewrite P1, P2. reflexivity.
Qed.
(** a scheduler does not even change their order *)
Theorem C56_scheduler : forall F h k w order P Q, irun F init_world h = Ok w -> idisciplined F init_world h -> only_kernel w k -> complete w k -> sorts w k order ->
  good_types F h -> build w order = Ok P -> scheduled P Q -> module_ports Q = module_ports P.
Proof. intros. apply scheduled_ports; [eapply kernel_ptyped; eassumption|assumption]. Qed.
(** distinct names other than "clk" give distinct ports *)
Theorem C56_names : forall F h k w Q, compiled F h k w Q -> sub_names_distinct (fun _ => []) h -> api_types h ->
  NoDup (map d_name (declared h k)) -> "clk"%string ∉ map d_name (declared h k) -> NoDup (map pt_name (module_ports Q)).
Proof.
  intros F h k w Q CQ DN A N1 N2. destruct (C56_ports F h k w Q CQ DN A) as (ps & ds & -> & P & F2).
  assert (E : map pt_name ps = map d_name ds).
  { clear -F2. induction F2 as [|d p ds ps H F2 IH]; [reflexivity|]. cbn. rewrite IH. f_equal. unfold port_of in H. destruct (_ !! _); [|discriminate]. injection H as <-. reflexivity. }
  rewrite map_app, E. cbn. assert (PM : map d_name ds ≡ₚ map d_name (declared h k)) by (apply fmap_Permutation; exact P).
  apply NoDup_app. rewrite PM. split; [exact N1|]. split; [|apply NoDup_singleton]. intros x X Y. apply elem_of_list_singleton in Y as ->. rewrite PM in X. contradiction.
Qed.

(** every output of the module is driven, by one connection, and nothing else is *)
Lemma scheduled_dests P Q : ptyped P -> scheduled P Q -> dests Q = dests P.
Proof.
  intros T [(cfg & perm & L & E)|[(solve & cfg & perm & L & E)|(rnd & eps & m & perm & E)]].
  - unfold asap_pass in E. destruct (sgraph _) as [[ns cs]|]; [|discriminate]. destruct (asap ns cs) as [[[mm bs] mx]|]; [|discriminate].
    destruct (insert_buffers _ _ _) as [P2|] eqn:E2; [|discriminate]. injection E as <- _.
    rewrite erases_dests; [|eapply inserts_ptyped; [apply cfg_ptyped; exact T|apply fresh_lt|exact E2]]. rewrite (inserts_dests _ _ _ _ (cfg_ptyped _ _ T) (fresh_lt _) E2). apply cfg_dests.
  - unfold linear_pass in E. destruct (sgraph _) as [[ns cs]|]; [|discriminate]. destruct (lp_schedule _ _ _) as [bs|]; [|discriminate].
    destruct (insert_buffers _ _ _) as [P2|] eqn:E2; [|discriminate]. injection E as <- _.
    rewrite erases_dests; [|eapply inserts_ptyped; [apply cfg_ptyped; exact T|apply fresh_lt|exact E2]]. rewrite (inserts_dests _ _ _ _ (cfg_ptyped _ _ T) (fresh_lt _) E2). apply cfg_dests.
  - unfold Pipeline.comb_pass in E. destruct (Z.eqb_spec m 0); [injection E as <-; reflexivity|]. set (P1 := apply_config _ P) in E.
    destruct (Pipeline.cgraph P1) as [[ns cs]|]; [|discriminate]. destruct (Pipeline.comb_layers ns cs) as [mm mx].
    destruct (Pipeline.cascades _ _ _ _) as [ks|]; [|discriminate]. destruct (Pipeline.comb_buffers _ _ _ _) as [bs|]; [|discriminate].
    rewrite (inserts_dests _ _ _ _ (cfg_ptyped _ _ T) (fresh_lt _) E). apply cfg_dests.
Qed.
Definition drives (Q : program) (s d : nat) : Prop := Con d s ∈ Q.
Definition is_out (Q : program) (d : nat) : Prop := exists sc nm kd t l a, Def d (DOut sc nm) kd t l a ∈ Q.
Theorem C56_driven : forall F h k w Q, compiled F h k w Q ->
  NoDup (dests Q) /\ (forall d, is_out Q d <-> exists s, drives Q s d) /\ (forall d s s', drives Q s d -> drives Q s' d -> s = s').
Proof.
  intros F h k w Q (order & P & R & D & K & C & S & GT & EB & SC).
  assert (T : ptyped P) by (eapply kernel_ptyped; eassumption).
  assert (TQ : ptyped Q) by (destruct SC as [->|SC]; [exact T|eapply scheduled_ptyped; eassumption]).
  assert (DE : dests Q = dests P) by (destruct SC as [->|SC]; [reflexivity|apply scheduled_dests; assumption]).
  assert (PE : omap stmt_port Q = omap stmt_port P).
  { destruct SC as [->|SC]; [reflexivity|]. pose proof (scheduled_ports P Q T SC) as X. unfold module_ports in X. apply app_inv_tail in X. exact X. }
  assert (DI : forall d s, Con d s ∈ Q -> d ∈ dests Q) by (intros d s X; apply dests_elem; eauto).
  split; [apply TQ|]. split.
  - intro d. split.
    + intros (sc & nm & kd & t & l & a & H). assert (Hd : d ∈ dests P); [|rewrite <- DE in Hd; apply dests_elem in Hd; exact Hd].
      assert (O : is_out P d).
      { destruct SC as [->|SC]; [exists sc, nm, kd, t, l, a; exact H|]. exact (scheduled_out P Q T SC _ _ _ _ _ _ _ H). }
      destruct O as (sc' & nm' & kd' & t' & l' & a' & O).
      pose proof (kernel_node F h w order R D K C S P EB GT d t' (ex_intro _ (DOut sc' nm') (ex_intro _ kd' (ex_intro _ l' (ex_intro _ a' O))))) as (nd & t2 & Hn & _).
      eapply (kernel_dest F h w order R D K C S P EB); [exact Hn|]. exact (kernel_out F h w order R D K C S P EB d sc' nm' kd' t' l' a' nd O Hn).
    + intros (s & X). destruct (pt_con Q TQ d s X) as [Y _]. exact Y.
  - intros d s s' X Y. pose proof (pt_dests Q TQ) as N. eapply con_unique; eassumption.
Qed.

(** ** A case: a sub-kernel with an output that nobody binds *)
Definition sub_h : list icmd := (map ICall
  [ KNew; CType (TFixed true 7 0); CInput 0 false "y" 0; CInput 0 true "gain" 0; CNewVar 0 false 0;
    KNew; CInput 4 false "x" 0; CBin ADD 5 5; COutput 4 false "out" 0; CConnect 9 6; COutput 4 false "spare" 0; CConnect 11 5 ] ++
  [ IInst 0 4 [(1%nat, "x"); (3%nat, "out")] ] ++ map ICall [ CBin MUL 6 2; COutput 0 false "res" 0; CConnect 16 13 ])%list%string.
Definition sub_flow (ok : program -> bool) (h : list icmd) (w : world) : bool :=
  completeb w 0 && forallb (fun q : nat * node => Nat.eqb (n_meta (snd q)) 0) (map_to_list (w_nodes w)) && bindings_typedb noflt0 init_world h &&
  match sort_kernel w 0 with
  | Some (TSOk r) => match build w r with Ok P => ok P | _ => false end
  | _ => false
  end.
Definition rank3 (n : nat) : nat := if Nat.eqb n 3 then 20%nat else if Nat.leb 13 n then (n + 20)%nat else n.
Lemma sub_check ok h : irun_ok noflt0 rank3 h (sub_flow ok h) = true -> made_types h ->
  exists w order P, irun noflt0 init_world h = Ok w /\ idisciplined noflt0 init_world h /\ only_kernel w 0 /\ complete w 0 /\ sort_kernel w 0 = Some (TSOk order) /\ sorts w 0 order /\
    good_types noflt0 h /\ build w order = Ok P /\ ok P = true.
Proof.
  intros X MT. destruct (irun_check _ _ _ _ X) as (w & R & D & _ & Y). clear X. unfold sub_flow in Y. rewrite !andb_true_iff in Y. destruct Y as [[[Y1 Y2] Y4] Y5].
  destruct (sort_kernel w 0) as [[r| |]|] eqn:ES; try discriminate Y5. destruct (build w r) as [P| | |] eqn:EB; try discriminate Y5.
  exists w, r, P. split; [exact R|]. split; [exact D|]. split; [intros n nd Hn; apply Nat.eqb_eq; exact (map_forallb w (fun q : nat * node => Nat.eqb (n_meta (snd q)) 0) Y2 n nd Hn)|].
  split; [apply completeb_sound, Y1|]. split; [exact ES|]. split; [exact (sort_sorts _ _ _ ES)|]. split; [split; [exact MT|apply bindings_typedb_sound, Y4]|]. auto.
Qed.
Ltac in_types I := cbn in I; repeat (apply elem_of_cons in I as [I|I]; [try discriminate I; injection I as ->|]); try (inversion I; fail).
(** the unbound output of the sub-kernel is a port of the top module *)
Example C56_case : exists w Q, compiled noflt0 sub_h 0 w Q /\ sub_names_distinct (fun _ => []) sub_h /\ api_types sub_h /\
  declared sub_h 0 = [("y", 0%nat, true); ("gain", 0%nat, true); ("spare", 0%nat, false); ("res", 0%nat, false)]%string /\
  own_ports sub_h 0 = [("y", 0%nat, true); ("gain", 0%nat, true); ("res", 0%nat, false)]%string /\
  module_ports Q ≡ₚ [mkPort "y" (HBits (mkP true 8)) true; mkPort "gain" (HBits (mkP true 8)) true; mkPort "spare" (HBits (mkP true 8)) false;
                     mkPort "res" (HBits (mkP true 8)) false; clock]%string.
Proof.
  assert (X : irun_ok noflt0 rank3 sub_h (sub_flow (fun P => match asap_pass (fun _ => Some 2) (fun b => b) P with Some (Q, _) => true | None => false end) sub_h) = true) by (vm_compute; reflexivity).
  assert (MT : made_types sub_h) by (intros t I; unfold sub_h in I; in_types I; cbn; lia).
  destruct (sub_check _ _ X MT) as (w & r & P & R & D & K & C & _ & S & GT & EB & OK). destruct (asap_pass _ _ P) as [[Q L]|] eqn:EA; [|discriminate OK].
  assert (CQ : compiled noflt0 sub_h 0 w Q).
  { exists r, P. split; [exact R|]. split; [exact D|]. split; [exact K|]. split; [exact C|]. split; [exact S|]. split; [exact GT|]. split; [exact EB|]. right. left. eauto. }
  assert (DN : sub_names_distinct (fun _ => []) sub_h).
  { cbn. repeat split. apply NoDup_cons. split; [intro Y; repeat (apply elem_of_cons in Y as [Y|Y]; [discriminate Y|]); inversion Y|].
    apply NoDup_cons. split; [intro Y; repeat (apply elem_of_cons in Y as [Y|Y]; [discriminate Y|]); inversion Y|]. apply NoDup_singleton. }
  assert (A : api_types sub_h) by (intros t I; unfold sub_h in I; in_types I; right; left; exists 8; reflexivity).
  exists w, Q. split; [exact CQ|]. split; [exact DN|]. split; [exact A|]. split; [reflexivity|]. split; [reflexivity|].
  destruct (compiled_ports _ _ _ _ _ CQ DN A) as (ps & -> & PP & _). rewrite PP.
  assert (T0 : w_types w !! 0%nat = Some (TFixed true 7 0)).
  { assert (Y : irun_ok noflt0 rank3 sub_h (fun w => bool_decide (w_types w !! 0%nat = Some (TFixed true 7 0))) = true) by (vm_compute; reflexivity).
    destruct (irun_check _ _ _ _ Y) as (w' & R' & _ & _ & Z). assert (w = w') by congruence. subst. apply bool_decide_eq_true in Z. exact Z. }
  change (declared sub_h 0) with [("y", 0%nat, true); ("gain", 0%nat, true); ("spare", 0%nat, false); ("res", 0%nat, false)]%string.
  cbn [omap list_omap]. unfold port_of. cbn. rewrite T0. cbn. reflexivity.
Qed.

(** ** What goes wrong *)
(** An input may be called "clk", and then the module has two ports of that name *)
Definition clk_h : list cmd := [ CType (TFixed false 8 0); CInput 0 false "clk" 0; COutput 0 false "res" 0; CConnect 2 1 ]%string.
Definition clk_P : program := [ Def 1 (DIn false "clk") VStream (TFixed false 8 0) (-1) []; Def 2 (DOut false "res") VStream (TFixed false 8 0) (-1) []; Con 2 1 ]%string.
Theorem C56_clock_refuted : exists w Q, compiled noflt0 (calls clk_h) 0 w Q /\ check w 0 = Ok true /\ verified Q /\ NoDup (map d_name (declared (calls clk_h) 0)) /\ ~ NoDup (map pt_name (module_ports Q)).
Proof.
  assert (Fl : flow_ok noflt0 clk_h clk_P (fun w => match check w 0 with Ok b => b | _ => false end) = true) by (vm_compute; reflexivity).
  destruct (flow_check _ _ _ _ Fl) as (w & o & R & D & K & C & S & B & X). exists w, clk_P. split.
  { exists o, clk_P. split; [exact R|]. split; [exact D|]. split; [exact K|]. split; [exact C|]. split; [exact S|]. split.
    - split; [|exact (InstanceFlow.calls_typed noflt0 (KNew :: clk_h) init_world)]. intros t I. unfold calls, clk_h in I. in_types I. cbn. lia.
    - auto. }
  split; [destruct (check w 0) as [[]| | |]; congruence|]. split; [vm_compute; reflexivity|]. split.
  - cbn. apply NoDup_cons. split; [intro Y; apply elem_of_list_singleton in Y; discriminate|apply NoDup_singleton].
  - cbn. rewrite NoDup_cons. intros [N _]. apply N. right. left.
Qed.
(** An input and an output may have the same name *)
Definition dup_h : list cmd := [ CType (TFixed false 8 0); CInput 0 false "x" 0; COutput 0 false "x" 0; CConnect 2 1 ]%string.
Definition dup_P : program := [ Def 1 (DIn false "x") VStream (TFixed false 8 0) (-1) []; Def 2 (DOut false "x") VStream (TFixed false 8 0) (-1) []; Con 2 1 ]%string.
Theorem C56_twice_refuted : exists w Q, compiled noflt0 (calls dup_h) 0 w Q /\ check w 0 = Ok true /\ verified Q /\ ~ NoDup (map pt_name (module_ports Q)).
Proof.
  assert (Fl : flow_ok noflt0 dup_h dup_P (fun w => match check w 0 with Ok b => b | _ => false end) = true) by (vm_compute; reflexivity).
  destruct (flow_check _ _ _ _ Fl) as (w & o & R & D & K & C & S & B & X). exists w, dup_P. split.
  { exists o, dup_P. split; [exact R|]. split; [exact D|]. split; [exact K|]. split; [exact C|]. split; [exact S|]. split.
    - split; [|exact (InstanceFlow.calls_typed noflt0 (KNew :: dup_h) init_world)]. intros t I. unfold calls, dup_h in I. in_types I. cbn. lia.
    - auto. }
  split; [destruct (check w 0) as [[]| | |]; congruence|]. split; [vm_compute; reflexivity|].
  cbn. rewrite NoDup_cons. intros [N _]. apply N. left.
Qed.
(** The order of the ports depends on the order in which a hash table is walked *)
Definition two_h : list cmd := [ CType (TFixed false 8 0); CInput 0 false "a" 0; CInput 0 false "b" 0; CBin ADD 1 2; COutput 0 false "res" 0; CConnect 6 3 ]%string.
Definition two_P (a b : stmt) : program := let u := TFixed false 8 0 in
  [ a; b; Def 3 (DBin ADD) VStream u (-1) [1%nat; 2%nat]; Def 6 (DOut false "res") VStream u (-1) []; Con 6 3 ]%string.
Definition two_a : stmt := Def 1 (DIn false "a") VStream (TFixed false 8 0) (-1) [].
Definition two_b : stmt := Def 2 (DIn false "b") VStream (TFixed false 8 0) (-1) [].
Definition swap2 (l : list nat) : list nat := match l with [a; b] => [b; a] | _ => l end.
Theorem C56_order_refuted : exists w Q Q', compiled noflt0 (calls two_h) 0 w Q /\ compiled noflt0 (calls two_h) 0 w Q' /\ map pt_name (module_ports Q) = ["b"; "a"; "res"; "clk"]%string /\
  map pt_name (module_ports Q') = ["a"; "b"; "res"; "clk"]%string.
Proof.
  assert (Fl : flow_ok noflt0 two_h (two_P two_b two_a) (fun w => match sort_by swap2 w 0 with Some (TSOk o) => match build w o with Ok P => bool_decide (P = two_P two_a two_b) | _ => false end | _ => false end) = true) by (vm_compute; reflexivity).
  destruct (flow_check _ _ _ _ Fl) as (w & o & R & D & K & C & S & B & X).
  assert (GT : good_types noflt0 (calls two_h)).
  { split; [|exact (InstanceFlow.calls_typed noflt0 (KNew :: two_h) init_world)]. intros t I. unfold calls, two_h in I. in_types I. cbn. lia. }
  destruct (sort_by swap2 w 0) as [[o'| |]|] eqn:ES; try discriminate X. destruct (build w o') as [P'| | |] eqn:EB; try discriminate X. apply bool_decide_eq_true in X. subst P'.
  assert (S' : sorts w 0 o'). { exists swap2. split; [|exact ES]. intro l. destruct l as [|a [|b [|c l]]]; try reflexivity. cbn. apply perm_swap. }
  exists w, (two_P two_b two_a), (two_P two_a two_b). split; [exists o, (two_P two_b two_a); auto 10|]. split; [exists o', (two_P two_a two_b); auto 10|]. split; reflexivity.
Qed.

Definition PropertiesInterface_theorems := (C56_ports, C56_own, C56_same, C56_scheduler, C56_names, C56_driven, C56_case, C56_clock_refuted, C56_twice_refuted, C56_order_refuted).
Print Assumptions PropertiesInterface_theorems.
