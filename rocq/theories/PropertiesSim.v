(** * Property theorems: constant folding and simulation. *)
From Coq Require Import ZArith Bool String Relations Permutation Lia.
From stdpp Require Import gmap list.
From Verif Require Import Instance InstanceSpec InstanceFlow Types TypesProofs Word Value OpSpec Graph GraphSpec TopSort KernelSort GraphFacts
     BuilderTopo Sim SimSpec SimProofs HwSpec HwProofs SimFacts.
Local Open Scope Z_scope.

Definition noflt : fltops := {| fl_bin := fun _ _ _ => 0; fl_neg := fun _ => 0 |}.
Lemma noflt_words : flt_words noflt.
Proof. split; intros; cbn; lia. Qed.

(** ** C06 *)
Definition const_ofb (w : world) (n : nat) (t : dftype) (v : Z) : bool :=
  match w_nodes w !! n with
  | Some nd => match n_vk nd, n_op nd, w_types w !! n_ty nd with
               | VConst, CONST v', Some t' => (v' =? v) && ty_eqb t' t
               | _, _, _ => false end
  | None => false end.
Lemma const_ofb_sound w n t v : const_ofb w n t v = true -> const_of w n t v.
Proof.
  unfold const_ofb, const_of. destruct (w_nodes w !! n) as [nd|]; [|discriminate].
  intros H. exists nd. destruct (n_vk nd), (n_op nd), (w_types w !! n_ty nd); try discriminate.
  apply andb_true_iff in H as [H1 H2]. apply Z.eqb_eq in H1 as ->. apply ty_eqb_eq in H2 as ->. auto.
Qed.
Definition type_ofb (w : world) (n : nat) (t : dftype) : bool :=
  match type_of w n with Some t' => ty_eqb t' t | None => false end.
Lemma type_ofb_sound w n t : type_ofb w n t = true -> type_of w n = Some t.
Proof. unfold type_ofb. destruct (type_of w n); [|discriminate]. intros H. apply ty_eqb_eq in H as ->. auto. Qed.
(** On the left a call on two constants, on the right the same call on two variables
    (not both constant) whose current values are those constants' patterns: the folded
    constant is what the simulator's processing of the new node returns. *)
Theorem C06_partial :
  forall F h1 w1 o a b t va vb w1' r h2 w2 x y w2' n inp vals,
  flt_words F ->
  elaborates F h1 w1 -> const_of w1 a t va -> (exists tb, const_of w1 b tb vb) ->
  step F w1 (CBin o a b) = Ok (w1', r) -> foldable o t ->
  elaborates F h2 w2 -> type_of w2 x = Some t -> ~ (is_const w2 x /\ is_const w2 y) ->
  step F w2 (CBin o x y) = Ok (w2', n) -> vget vals x = va -> vget vals y = vb ->
  exists v, const_of w1' r t v /\ process F w2' inp vals n = SOk v.
Proof. exact fold_agrees_bin. Qed.
Theorem C06_unary_partial :
  forall F h1 w1 u a t va w1' r h2 w2 x w2' n inp vals,
  elaborates F h1 w1 -> const_of w1 a t va ->
  step F w1 (CUn u a) = Ok (w1', r) -> (u = NOT \/ is_raw t = false) ->
  elaborates F h2 w2 -> type_of w2 x = Some t -> ~ is_const w2 x ->
  step F w2 (CUn u x) = Ok (w2', n) -> vget vals x = va ->
  exists v, const_of w1' r t v /\ process F w2' inp vals n = SOk v.
Proof. exact fold_agrees_un. Qed.
Theorem C06_shift_partial :
  forall F h1 w1 l k a t va w1' r h2 w2 x w2' n inp vals,
  elaborates F h1 w1 -> const_of w1 a t va ->
  step F w1 (CShift l a k) = Ok (w1', r) ->
  elaborates F h2 w2 -> type_of w2 x = Some t -> ~ is_const w2 x ->
  step F w2 (CShift l x k) = Ok (w2', n) -> vget vals x = va ->
  exists v, const_of w1' r t v /\ process F w2' inp vals n = SOk v.
Proof. exact fold_agrees_shift. Qed.

(** the hypotheses are met: 200 + 100 on 8-bit unsigned variables (the fold keeps the
    64-bit sum 300) *)
Definition c06_consts (t : dftype) (a b : Z) : list cmd := [KNew; CType t; CConst 0 a; CConst 0 b].
Definition c06_vars (t : dftype) : list cmd := [KNew; CType t; CInput 0 false "x" 0; CInput 0 false "y" 0].
Definition folded (t : dftype) (a b : Z) (o : bop) : option Z :=
  match run noflt init_world (c06_consts t a b ++ [CBin o 1 2]) with
  | Ok w => match w_nodes w !! 3%nat with Some nd => match n_op nd with CONST v => Some v | _ => None end | None => None end
  | _ => None
  end.
Definition simulated (t : dftype) (a b : Z) (o : bop) : option Z :=
  match run noflt init_world (c06_vars t ++ [CBin o 1 2]) with
  | Ok w => match process noflt w (fun _ => None) {[1%nat := a; 2%nat := b]} 3 with SOk v => Some v | _ => None end
  | _ => None
  end.
Example C06_case :
  (opt_eqb (folded (TFixed false 8 0) 200 100 ADD) 300 && opt_eqb (simulated (TFixed false 8 0) 200 100 ADD) 300) = true.
Proof. vm_compute. reflexivity. Qed.

(** False for signed comparisons: -1 < 0 folds to 1 and simulates as 0, because the
    simulator picks signedness from the (unsigned, 1-bit) result type. *)
Theorem C06_refuted :
  exists h1 w1 o a b t va vb w1' r h2 w2 x y w2' n vals v1 v2,
  run noflt init_world h1 = Ok w1 /\ const_of w1 a t va /\ const_of w1 b t vb /\
  t = TFixed true 7 0 /\
  step noflt w1 (CBin o a b) = Ok (w1', r) /\
  run noflt init_world h2 = Ok w2 /\ type_of w2 x = Some t /\ type_of w2 y = Some t /\
  step noflt w2 (CBin o x y) = Ok (w2', n) /\ vget vals x = va /\ vget vals y = vb /\
  const_of w1' r t v1 /\ process noflt w2' (fun _ => None) vals n = SOk v2 /\ v1 <> v2.
Proof.
  destruct (run_check noflt (c06_consts (TFixed true 7 0) (-1) 0)
    (fun w => const_ofb w 1 (TFixed true 7 0) (2 ^ 64 - 1) && const_ofb w 2 (TFixed true 7 0) 0 &&
       match step noflt w (CBin LESS 1 2) with Ok (w', r) => const_ofb w' r (TFixed true 7 0) 1 | _ => false end))
    as (w1 & R1 & H1); [vm_compute; reflexivity|].
  destruct (run_check noflt (c06_vars (TFixed true 7 0))
    (fun w => type_ofb w 1 (TFixed true 7 0) && type_ofb w 2 (TFixed true 7 0) &&
       match step noflt w (CBin LESS 1 2) with
       | Ok (w', n) => match process noflt w' (fun _ => None) {[1%nat := 2 ^ 64 - 1; 2%nat := 0]} n with
                       | SOk v => v =? 0 | _ => false end
       | _ => false end))
    as (w2 & R2 & H2); [vm_compute; reflexivity|].
  rewrite !andb_true_iff in H1, H2. destruct H1 as [[A1 A2] A3], H2 as [[B1 B2] B3].
  apply const_ofb_sound in A1, A2. apply type_ofb_sound in B1, B2.
  destruct (step noflt w1 (CBin LESS 1 2)) as [[w1' r]| | |] eqn:S1; try discriminate A3.
  destruct (step noflt w2 (CBin LESS 1 2)) as [[w2' n]| | |] eqn:S2; try discriminate B3.
  apply const_ofb_sound in A3.
  destruct (process noflt w2' _ _ n) as [v| | |] eqn:P; try discriminate B3. apply Z.eqb_eq in B3 as ->.
  exists (c06_consts (TFixed true 7 0) (-1) 0), w1, LESS, 1%nat, 2%nat, (TFixed true 7 0), (2 ^ 64 - 1), 0, w1', r,
    (c06_vars (TFixed true 7 0)), w2, 1%nat, 2%nat, w2', n, {[1%nat := 2 ^ 64 - 1; 2%nat := 0]}, 1, 0.
  split; [exact R1|]. split; [exact A1|]. split; [exact A2|]. split; [reflexivity|]. split; [exact S1|].
  split; [exact R2|]. split; [exact B1|]. split; [exact B2|]. split; [exact S2|].
  split; [reflexivity|]. split; [reflexivity|]. split; [exact A3|]. split; [exact P|discriminate].
Qed.

(** ** C11 *)
Theorem C11_tick :
  forall F h w inp r v v',
  flt_words F -> elaborates F h w -> inp_words inp -> topological w r ->
  (forall n, 0 <= vget v n < 2 ^ 64) -> run_sim F w inp v r = SOk v' ->
  words r (vget v') /\ (forall n, n ∈ r -> tick_eq F w inp (vget v') n) /\
  (forall f, words r f -> (forall n, n ∈ r -> tick_eq F w inp f n) -> forall n, n ∈ r -> f n = vget v' n) /\
  (forall n, n ∉ r -> vget v' n = vget v n) /\
  (forall r2 v2, topological w r2 -> Permutation r r2 -> (forall n, 0 <= vget v2 n < 2 ^ 64) ->
     exists v2', run_sim F w inp v2 r2 = SOk v2' /\ forall n, n ∈ r -> vget v2' n = vget v' n).
Proof. exact sim_tick_spec. Qed.

(** conversely, whenever the equations have a solution the simulator finds it *)
Theorem C11_complete :
  forall F h w inp r v f,
  flt_words F -> elaborates F h w -> inp_words inp -> topological w r ->
  (forall n, 0 <= vget v n < 2 ^ 64) -> words r f -> (forall n, n ∈ r -> tick_eq F w inp f n) ->
  exists v', run_sim F w inp v r = SOk v' /\ forall n, n ∈ r -> vget v' n = f n.
Proof. exact sim_tick_exists. Qed.

(** the order the kernel's own sort returns is such an order *)
Theorem C11_kernel_order :
  forall F h w k g,
  irun F init_world h = Ok w -> idisciplined F init_world h ->
  only_kernel w k -> w_kern w !! k = Some g -> complete w k ->
  forall hash, (forall l, Permutation (hash l) l) -> exists r, sort_by hash w k = Some (TSOk r) /\ topological w r /\ Permutation r (g_nodes g) /\
            forall n, is_Some (w_nodes w !! n) <-> n ∈ r.
Proof. exact single_kernel_order. Qed.

(** o = mux(x < y; x + 5, y - x << 2) *)
Definition sim_demo : list cmd :=
  [ KNew; CType (dfUInt 8); CInput 0 false "x" 0; CInput 0 false "y" 0;  (* 1 2 *)
    CConst 0 5; CBin ADD 1 3; CBin LESS 1 2;                              (* 3 4 7 *)
    CBin SUB 2 1; CShift true 10 2; CMux 0 7 [4; 13]%nat;                     (* 10 13 15 *)
    COutput 0 false "o" 0; CConnect 19 15 ].
Definition sim_inp (a b : Z) (s : string) : option Z :=
  if String.eqb s "x" then Some a else if String.eqb s "y" then Some b else None.
Example C11_case :
  match run noflt init_world sim_demo with
  | Ok w => disciplinedb noflt init_world sim_demo && completeb w 0 &&
      match sort_kernel w 0 with
      | Some (TSOk r) => topb w r &&
          match run_sim noflt w (sim_inp 7 9) ∅ r, run_sim noflt w (sim_inp 9 7) ∅ r with
          | SOk v1, SOk v2 => (vget v1 19 =? 8) && (vget v2 19 =? 14)
          | _, _ => false end
      | _ => false end
  | _ => false
  end = true.
Proof. vm_compute. reflexivity. Qed.

(** ** C12 *)
(** [f] is what w-bit hardware computes (HwSpec.hw_eq); ring kernels: the simulated
    64-bit values agree with it modulo 2^w at every node *)
Theorem C12_ring_exact_mod :
  forall F h w inp r v v' f,
  flt_words F -> elaborates F h w -> inp_words inp -> topological w r ->
  (forall n, 0 <= vget v n < 2 ^ 64) -> run_sim F w inp v r = SOk v' ->
  (forall n, n ∈ r -> hw_eq w inp f n) -> (forall n, n ∈ r -> ring_node w (vget v') n) ->
  forall n, n ∈ r -> vget v' n mod 2 ^ wd w n = f n.
Proof. exact ring_kernel. Qed.

(** o = x * y + x on 8 bits: all hypotheses hold and the simulated value exceeds 8 bits *)
Definition agree_case (h : list cmd) (a b : Z) (f : nat -> Z) (chk : world -> nat -> bool) : bool :=
  match run noflt init_world h with
  | Ok w =>
      match sort_kernel w 0 with
      | Some (TSOk r) => topb w r &&
          match run_sim noflt w (sim_inp a b) ∅ r with
          | SOk v => forallb (hw_eqb w (sim_inp a b) f) r && forallb (chk w) r
          | _ => false end
      | _ => false end
  | _ => false
  end.
Definition ring_k : list cmd :=
  [ KNew; CType (dfUInt 8); CInput 0 false "x" 0; CInput 0 false "y" 0;
    CBin MUL 1 2; CBin ADD 3 1; COutput 0 false "o" 0; CConnect 9 6 ].
Definition tab (l : list (nat * Z)) (n : nat) : Z :=
  match find (fun p => Nat.eqb (fst p) n) l with Some p => snd p | None => 0 end.
Example C12_case :
  agree_case ring_k 200 100 (tab [(1%nat, 200); (2%nat, 100); (3%nat, 32); (6%nat, 232); (9%nat, 232)]) ring_nodeb = true.
Proof. vm_compute. reflexivity. Qed.
Example C13_case :
  let f := tab [(1%nat, 12); (2%nat, 13); (3%nat, 156); (6%nat, 168); (9%nat, 168)] in
  agree_case ring_k 12 13 f (fun w => exact_nodeb w (sim_inp 12 13) f) = true.
Proof. vm_compute. reflexivity. Qed.

(** ** C13 *)
Theorem C13_partial :
  forall F h w inp r v v' f,
  flt_words F -> elaborates F h w -> inp_words inp -> topological w r ->
  (forall n, 0 <= vget v n < 2 ^ 64) -> run_sim F w inp v r = SOk v' ->
  (forall n, n ∈ r -> hw_eq w inp f n) -> (forall n, n ∈ r -> exact_node w inp f n) ->
  forall n, n ∈ r -> vget v' n = f n /\ f n < 2 ^ wd w n.
Proof. exact exact_kernel. Qed.

(** False in general.  8-bit unsigned: (255 + 255) >> 1 is 127 in hardware, the
    simulator prints 255 (the carry is kept); 8-bit signed: -1 < 1 is 1 in hardware,
    0 in the simulator. *)
Definition overflow_k : list cmd :=
  [ KNew; CType (dfUInt 8); CInput 0 false "x" 0; CInput 0 false "y" 0;
    CBin ADD 1 2; CShift false 3 1; COutput 0 false "o" 0; CConnect 8 6 ].
Definition signed_k : list cmd :=
  [ KNew; CType (TFixed true 7 0); CInput 0 false "x" 0; CInput 0 false "y" 0;
    CBin LESS 1 2; CType mkBool; COutput 0 false "o" 2; CConnect 6 3 ].
Definition differs (h : list cmd) (a b : Z) (f : nat -> Z) (n : nat) : bool :=
  match run noflt init_world h with
  | Ok w =>
      match sort_kernel w 0 with
      | Some (TSOk r) => topb w r && existsb (Nat.eqb n) r &&
          match run_sim noflt w (sim_inp a b) ∅ r with
          | SOk v => forallb (hw_eqb w (sim_inp a b) f) r && negb (vget v n mod 2 ^ wd w n =? f n)
          | _ => false end
      | _ => false end
  | _ => false
  end.
Lemma differs_sound h a b f n : differs h a b f n = true ->
  exists w r v, run noflt init_world h = Ok w /\ sort_kernel w 0 = Some (TSOk r) /\ topological w r /\
    run_sim noflt w (sim_inp a b) ∅ r = SOk v /\ (forall m, m ∈ r -> hw_eq w (sim_inp a b) f m) /\
    n ∈ r /\ vget v n mod 2 ^ wd w n <> f n.
Proof.
  unfold differs. destruct (run noflt init_world h) as [w| | |]; try discriminate.
  destruct (sort_kernel w 0) as [[r| |]|] eqn:Hr; try discriminate.
  intros H. rewrite !andb_true_iff in H. destruct H as [[H1 H2] H3].
  destruct (run_sim noflt w (sim_inp a b) ∅ r) as [v| | |] eqn:Hv; try discriminate.
  apply andb_true_iff in H3 as [H3 H4]. exists w, r, v.
  split; [reflexivity|]. split; [exact Hr|]. split; [now apply topb_sound|]. split; [exact Hv|].
  split; [|split; [now apply existsb_elem|]].
  - intros m Hm. apply hw_eqb_sound. rewrite forallb_forall in H3. apply H3. now apply elem_of_list_In.
  - apply negb_true_iff, Z.eqb_neq in H4. exact H4.
Qed.
Theorem C13_refuted :
  (exists w r v f, run noflt init_world overflow_k = Ok w /\ sort_kernel w 0 = Some (TSOk r) /\ topological w r /\
    run_sim noflt w (sim_inp 255 255) ∅ r = SOk v /\ (forall m, m ∈ r -> hw_eq w (sim_inp 255 255) f m) /\
    8%nat ∈ r /\ vget v 8 mod 2 ^ wd w 8 <> f 8%nat) /\
  (exists w r v f, run noflt init_world signed_k = Ok w /\ sort_kernel w 0 = Some (TSOk r) /\ topological w r /\
    run_sim noflt w (sim_inp 255 1) ∅ r = SOk v /\ (forall m, m ∈ r -> hw_eq w (sim_inp 255 1) f m) /\
    6%nat ∈ r /\ vget v 6 mod 2 ^ wd w 6 <> f 6%nat).
Proof.
  split.
  - destruct (differs_sound overflow_k 255 255 (tab [(1%nat, 255); (2%nat, 255); (3%nat, 254); (6%nat, 127); (8%nat, 127)]) 8)
      as (w & r & v & H); [vm_compute; reflexivity|]. eauto.
  - destruct (differs_sound signed_k 255 1 (tab [(1%nat, 255); (2%nat, 1); (3%nat, 1); (6%nat, 1)]) 6)
      as (w & r & v & H); [vm_compute; reflexivity|]. eauto.
Qed.

(** one report for all theorems of this file *)
Definition PropertiesSim_theorems :=
  (C06_partial,
   C06_unary_partial,
   C06_shift_partial,
   C06_refuted,
   C11_tick,
   C11_complete,
   C11_kernel_order,
   C12_ring_exact_mod,
   C13_partial,
   C13_refuted).
Print Assumptions PropertiesSim_theorems.
