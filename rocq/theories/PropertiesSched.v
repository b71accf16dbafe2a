(** * Property theorems: translation to DFCIR and ASAP scheduling. *)
From Coq Require Import ZArith Bool String.
From stdpp Require Import gmap list.
From Verif Require Import Instance InstanceSpec Types Word Value Graph GraphSpec GraphFacts BuilderTopo KernelSort TopSort
     Dfcir StreamSpec Sched SchedSpec SchedProofs SchedFinal KernelSpec KernelFlow SchedProgress SchedFacts SchedGraph.
Local Open Scope Z_scope.

(** The hypotheses shared below: after [h] one kernel is alive, feed-forward and complete,
    possibly with instances of sub-kernels (all of them merged into it) and possibly
    constructed after others were destroyed, and [order] is what the topological sort
    returns for it. *)
Definition built (F : fltops) (h : list icmd) (w : world) (order : list nat) : Prop :=
  exists k, irun F init_world h = Ok w /\ idisciplined F init_world h /\
    only_kernel w k /\ complete w k /\ sorts w k order.

(** ** C18 *)
Theorem C18_translation :
  forall F h w order, built F h w order ->
  exists P, build w order = Ok P /\
    forall V (I : interp V) n i x, is_Some (w_nodes w !! n) -> (kval I w n i x <-> dval I P n i x).
Proof.
  intros F h w order (kern & R & D & K & C & S).
  destruct (kernel_translates F h w order R D K C S) as (P & B & _ & _ & X). exact (ex_intro _ P (conj B X)).
Qed.

(** a kernel with an offset, a multiplexer, a comparison and two outputs *)
Definition ex_h : list cmd :=
  [ CType (dfUInt 8); CInput 0 false "x" 0; CInput 0 false "y" 0; COffset 0 1 2;      (* 1 2 3 *)
    CBin MUL 3 2; CBin LESS 1 2;                                                       (* 5, 8 *)
    CMux 0 8 [5; 1; 2]%nat;                                                            (* 11 *)
    COutput 0 false "o" 0; CConnect 16 11; COutput 0 false "p" 0; CConnect 18 1 ].
Definition ex_P : program :=
  let t := TFixed false 8 0 in let b := TFixed false 1 0 in
  [ Def 2 (DIn false "y") VStream t (-1) []; Def 1 (DIn false "x") VStream t (-1) [];
    Def 18 (DOut false "p") VStream t (-1) []; Con 18 1;
    Def 8 (DBin LESS) VStream b (-1) [1%nat; 2%nat];
    Def 3 (DOffset 2) VStream t (-1) [1%nat];
    Def 5 (DBin MUL) VStream t (-1) [3%nat; 2%nat];
    Def 11 DMux VStream t (-1) [8%nat; 2%nat; 1%nat; 5%nat];
    Def 16 (DOut false "o") VStream t (-1) []; Con 16 11 ].
Example C18_case : exists w order, built noflt0 (calls ex_h) w order /\ build w order = Ok ex_P /\ schedulable w.
Proof.
  assert (Fl : flow_ok noflt0 ex_h ex_P schedulableb = true) by (vm_compute; reflexivity).
  destruct (flow_check _ _ _ _ Fl) as (w & o & R & D & K & C & S & B & Sc).
  exists w, o. split; [exact (ex_intro _ 0%nat (conj R (conj D (conj K (conj C S)))))|]. split; [exact B|]. apply schedulableb_sound. exact Sc.
Qed.

(** ** C19 *)
Theorem C19_buffers_positive :
  forall P ns cs m bs mx, wfp P -> connects_back P ->
  sgraph P = Some (ns, cs) -> asap ns cs = Some (m, bs, mx) ->
  forall c z, (c, z) ∈ bs -> 0 < z.
Proof. exact asap_positive. Qed.

(** no assertion of the pass fails: it completes, whatever the latencies *)
Theorem C19_pass_completes :
  forall cfg order P maxlat maxoff,
  wfp P -> connects_back P -> narrow P -> bounded cfg P maxlat maxoff -> (forall bs, order bs ≡ₚ bs) ->
  exists Q L, asap_pass cfg order P = Some (Q, L).
Proof. exact asap_pass_completes. Qed.

(** every kernel satisfies the hypotheses on [P] *)
Theorem C19_kernels_qualify :
  forall F h w order P, built F h w order -> schedulable w -> build w order = Ok P ->
  wfp P /\ connects_back P /\ narrow P.
Proof.
  intros F h w order P (kern & R & D & K & C & S) Sc B.
  destruct (kernel_schedulable F h w order R D K C S P Sc B) as (A1 & A2 & _ & A3 & _). exact (conj A1 (conj A2 A3)).
Qed.

Definition ex_cfg : latcfg := fun c => match c with OBin MUL _ => Some 3 | OBin LESS _ => Some 1 | _ => None end.
Example C19_case :
  match sgraph (apply_config ex_cfg ex_P) with
  | Some (ns, cs) => match asap ns cs with
      | Some (_, bs, mx) => bool_decide (bs = [(mkSChan 2 5 1 0, 2); (mkSChan 8 11 0 0, 4); (mkSChan 2 11 1 0, 5); (mkSChan 1 11 2 0, 5)]) && (mx =? 5)
      | None => false end
  | None => false end = true.
Proof. vm_compute. reflexivity. Qed.

(** ** C20 *)
Theorem C20_balanced :
  forall P ns cs m bs mx, wfp P -> connects_back P ->
  sgraph P = Some (ns, cs) -> asap ns cs = Some (m, bs, mx) ->
  forall buf, (forall c, c ∈ cs -> node_is_const ns (sc_src c) = false -> buf_of bs c (buf c)) ->
  forall a a' b z z', bpath ns cs buf a b z -> bpath ns cs buf a' b z' ->
    (a = a' \/ (forall c, c ∈ cs -> sc_tgt c <> a /\ sc_tgt c <> a')) -> z = z'.
Proof. exact asap_balanced. Qed.

(** ** C21 *)
Theorem C21_optimal :
  forall P ns cs m bs mx, wfp P -> connects_back P ->
  sgraph P = Some (ns, cs) -> asap ns cs = Some (m, bs, mx) ->
  feasible ns cs m /\ (forall t, feasible ns cs t -> forall x, m x <= t x) /\
  (forall x, (exists a, path ns cs a x (m x)) /\ forall a z, path ns cs a x z -> z <= m x) /\
  (forall x, node_is_output ns x = true -> m x <= mx) /\
  (mx = 0 \/ exists x, node_is_output ns x = true /\ m x = mx).
Proof. exact asap_optimal. Qed.

(** ** C22 *)
Theorem C22_partial :
  forall F h w order cfg perm P Q L, built F h w order -> schedulable w ->
  build w order = Ok P -> (forall bs, perm bs ≡ₚ bs) -> asap_pass cfg perm P = Some (Q, L) ->
  exists delay_of : nat -> Z,
    (forall d nd, w_nodes w !! d = Some nd -> n_op nd = OUT -> 0 <= delay_of d <= L) /\
    (L = 0 \/ exists d nd, w_nodes w !! d = Some nd /\ n_op nd = OUT /\ delay_of d = L) /\
    forall V (I : interp V) sig, circuit I Q sig ->
      forall d nd i x, w_nodes w !! d = Some nd -> n_op nd = OUT -> 0 <= i ->
        kval I w d i x -> sig d (i + delay_of d) = x.
Proof.
  intros F h w order cfg perm P Q L (kern & R & D & K & C & S) Sc B PM A.
  destruct (kernel_scheduled F h w order R D K C S cfg perm P Q L Sc B PM A) as (Dl & D1 & D2 & _ & D3). exists Dl. auto.
Qed.

(** without [schedulable] the claim is false: an output that is read and whose driver
    has a negative offset is delayed twice *)
Theorem C22_refuted : exists F h w order P Q L, built F h w order /\ build w order = Ok P /\
  asap_pass (fun _ => Some 0) (fun b => b) P = Some (Q, L) /\
  exists (I : interp Z) sig d nd, circuit I Q sig /\ w_nodes w !! d = Some nd /\ n_op nd = OUT /\
    forall D, ~ (forall i x, 0 <= i -> kval I w d i x -> sig d (i + D) = x).
Proof.
  destruct dbl_refuted as (F & h & w & o & P & Q & L & H1 & H2 & H3 & H4 & H5 & H6 & H7 & H8).
  exists F, h, w, o, P, Q, L. exact (conj (ex_intro _ 0%nat (conj H1 (conj H2 (conj H3 (conj H4 H5))))) (conj H6 (conj H7 H8))).
Qed.

(** the example kernel is scheduled, and has a circuit in which [C22_partial] says
    something: output "o" shows position 0 in cycle 5 *)
Example C22_case :
  exists w order Q, built noflt0 (calls ex_h) w order /\ schedulable w /\ build w order = Ok ex_P /\
    asap_pass ex_cfg (fun b => b) ex_P = Some (Q, 5).
Proof.
  destruct C18_case as (w & o & B & E & Sc).
  assert (X : match asap_pass ex_cfg (fun b => b) ex_P with Some (_, L) => L =? 5 | None => false end = true) by (vm_compute; reflexivity).
  destruct (asap_pass ex_cfg (fun b => b) ex_P) as [[Q L]|] eqn:Ea; [|discriminate]. apply Z.eqb_eq in X. subst L.
  exists w, o, Q. auto.
Qed.

(** ** C23: outputs are not aligned with each other *)
Theorem C23_refuted : exists F h w order P Q L, built F h w order /\ schedulable w /\ build w order = Ok P /\
  asap_pass (fun _ => None) (fun b => b) P = Some (Q, L) /\
  exists (I : interp Z) sig, circuit I Q sig /\
    forall D, ~ (forall d nd i x, w_nodes w !! d = Some nd -> n_op nd = OUT -> 0 <= i ->
                   kval I w d i x -> sig d (i + D) = x).
Proof.
  destruct mis_refuted as (F & h & w & o & P & Q & L & H1 & H2 & H3 & H4 & H5 & H6 & H7 & H8 & H9).
  exists F, h, w, o, P, Q, L. exact (conj (ex_intro _ 0%nat (conj H1 (conj H2 (conj H3 (conj H4 H6))))) (conj H5 (conj H7 (conj H8 H9)))).
Qed.

(** outputs whose longest paths are equally long are aligned *)
Theorem C23_partial :
  forall F h w order cfg perm P Q L ns cs, built F h w order -> schedulable w ->
  build w order = Ok P -> (forall bs, perm bs ≡ₚ bs) -> asap_pass cfg perm P = Some (Q, L) ->
  sgraph (apply_config cfg P) = Some (ns, cs) ->
  forall z, (forall d nd, w_nodes w !! d = Some nd -> n_op nd = OUT ->
               (exists a, path ns cs a d z) /\ (forall a y, path ns cs a d y -> y <= z)) ->
  forall V (I : interp V) sig, circuit I Q sig ->
    forall d nd i x, w_nodes w !! d = Some nd -> n_op nd = OUT -> 0 <= i -> kval I w d i x -> sig d (i + z) = x.
Proof.
  intros F h w order cfg perm P Q L ns cs (kern & R & D & K & C & S) Sc B PM A G z Hz V I sig Ci d nd i x Hd Ho Hi Kv.
  destruct (kernel_scheduled F h w order R D K C S cfg perm P Q L Sc B PM A) as (Dl & _ & _ & (ns' & cs' & G' & Hp) & D3).
  rewrite G in G'. injection G' as <- <-. destruct (Hz d nd Hd Ho) as ((a & Pa) & Mx). destruct (Hp d) as ((a' & Pa') & Mx').
  assert (Dl d = z) as <- by (apply Z.le_antisymm; [eapply Mx; exact Pa'|eapply Mx'; exact Pa]).
  eapply D3; eassumption.
Qed.

(** one report for all theorems of this file *)
Definition PropertiesSched_theorems :=
  (C18_translation,
   C19_buffers_positive,
   C19_pass_completes,
   C19_kernels_qualify,
   C20_balanced,
   C21_optimal,
   C22_partial,
   C22_refuted,
   C23_refuted,
   C23_partial).
Print Assumptions PropertiesSched_theorems.
