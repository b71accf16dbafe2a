(** * Property theorems: kernel construction, constants, types, sorting.

    Each theorem is closed by a lemma of the proof files; [Example]s show that
    concrete kernels meet the hypotheses. *)
From Coq Require Import ZArith Bool String Relations Permutation.
From stdpp Require Import gmap list.
From Verif Require Import Types TypesProofs Word Value Graph GraphSpec BuilderProofs
     BuilderProofs2 TopSort TopSortProofs KernelSort BuilderTopo GraphFacts.

(** ** C01 *)
Theorem C01_graph_well_formed :
  forall F h w, run F init_world h = Ok w -> consistent w /\ well_shaped w.
Proof. intros F h w H. exact (run_WF F h init_world w H init_WF). Qed.

Theorem C01_call_effect :
  forall F h w c w' r, run F init_world h = Ok w -> step F w c = Ok (w', r) ->
  preserved w w' r /\ call_post F w c w' r.
Proof.
  intros F h w c w' r H S.
  destruct (step_ext F _ _ _ _ S (run_WF F h init_world w H init_WF)) as [[_ P] Q]. exact (conj P Q).
Qed.

(** a kernel with two inputs, a constant, an adder, a mux, a slice and an output *)
Definition noflt : fltops := {| fl_bin := fun _ _ _ => 0%Z; fl_neg := fun _ => 0%Z |}.
Definition demo : list cmd :=
  [ KNew; CType (dfUInt 8);                        (* kernel 0, type 0 *)
    CInput 0 false "x" 0; CInput 0 false "y" 0;    (* nodes 1, 2 *)
    CConst 0 5;                                    (* node 3 *)
    CBin ADD 1 3;                                  (* node 4, channels 5 6 *)
    CBin LESS 1 2;                                 (* node 7, channels 8 9 *)
    CMux 0 7 [4; 2];                               (* node 10, channels 11 12 13 *)
    CSlice 10 6 3;                                 (* node 14 *)
    COutput 0 false "o" 0;                         (* node 16 *)
    CConnect 16 10 ].
Example demo_runs :
  match run noflt init_world demo with
  | Ok w => nat_list_eqb (operands w 4) [1; 3] && nat_list_eqb (operands w 10) [7; 4; 2] &&
            nat_list_eqb (operands w 16) [10] && disciplinedb noflt init_world demo && completeb w 0 &&
            match sort_kernel w 0 with Some (TSOk r) => nat_list_eqb r [3; 2; 1; 7; 4; 10; 16; 14] | _ => false end
  | _ => false
  end = true.
Proof. vm_compute. reflexivity. Qed.

(** ** C02 *)
Theorem C02_feedforward_acyclic :
  forall F h w, run F init_world h = Ok w -> disciplined F init_world h ->
  forall n, ~ clos_trans nat (fun a b => a ∈ operands w b) n n.
Proof. intros F h w H D. exact (feedforward_acyclic F h w H D). Qed.

Theorem C02_single_kernel_reachable_and_sorts :
  forall F h w g, run F init_world (KNew :: h) = Ok w ->
  disciplined F init_world (KNew :: h) ->
  forallb (fun c => negb (is_knew c)) h = true ->
  w_kern w !! 0 = Some g -> complete w 0 ->
  (forall n, n ∈ g_nodes g -> n ∈ g_starts g \/
     exists s, s ∈ g_starts g /\ clos_trans nat (fun a b => a ∈ operands w b) s n) /\
  forall hash, (forall l, Permutation (hash l) l) -> exists r, sort_by hash w 0 = Some (TSOk r) /\ Permutation r (g_nodes g) /\
    forall i j a b, r !! i = Some a -> r !! j = Some b -> a ∈ operands w b -> i < j.
Proof. exact single_kernel_sorts. Qed.

(** ** C03: the sort itself, on any graph *)
Theorem C03_topsort_terminates :
  forall outs nodes starts,
  (forall a b, In a nodes -> In b (outs a) -> In b nodes) ->
  (forall s, In s starts -> In s nodes) -> List.NoDup starts ->
  top_sort outs starts (length nodes) <> TSFuel.
Proof. exact top_sort_total. Qed.

Theorem C03_topsort_correct :
  forall outs nodes starts,
  (forall a b, In a nodes -> In b (outs a) -> In b nodes) ->
  (forall s, In s starts -> In s nodes) -> List.NoDup starts -> List.NoDup nodes ->
  (forall n, ~ clos_trans nat (fun a b => In b (outs a)) n n) ->
  (forall a s, In s starts -> ~ In s (outs a)) ->
  (forall x, In x nodes -> In x starts \/
     exists s, In s starts /\ clos_trans nat (fun a b => In b (outs a)) s x) ->
  exists r, top_sort outs starts (length nodes) = TSOk r /\ Permutation r nodes /\
    forall l1 x l2 y, r = l1 ++ x :: l2 -> In y (outs x) -> In y l2.
Proof. exact top_sort_correct. Qed.

Example C03_case :
  let outs n := match n with 0 => [2] | 1 => [2; 3] | 2 => [4] | 3 => [4] | _ => [] end in
  top_sort outs [0; 1] 5 = TSOk [0; 1; 3; 2; 4].
Proof. reflexivity. Qed.

(** ** C04: cyclic kernels are *not* rejected *)
Theorem C04_refuted :
  exists F h w r, run F init_world h = Ok w /\ check w 0 = Ok true /\
    (exists n, clos_trans nat (fun a b => a ∈ operands w b) n n) /\
    sort_kernel w 0 = Some (TSOk r).
Proof. exact cyclic_kernel_sorts. Qed.

(** what the sort does reject: nodes not reachable from the start nodes *)
Theorem C04_partial :
  forall outs nodes starts,
  (forall a b, In a nodes -> In b (outs a) -> In b nodes) ->
  (forall s, In s starts -> In s nodes) -> List.NoDup starts -> List.NoDup nodes ->
  ((exists r, top_sort outs starts (length nodes) = TSOk r) <->
   forall x, In x nodes -> In x starts \/
     exists s, In s starts /\ clos_trans nat (fun a b => In b (outs a)) s x).
Proof. exact top_sort_ok_iff. Qed.

(** ** C05 *)
Theorem C05_constant_sharing :
  forall F h1 w1 ty1 v1 w2 r1 h2 w3 ty2 v2 w4 r2 t1 t2,
  run F init_world h1 = Ok w1 ->
  step F w1 (CConst ty1 v1) = Ok (w2, r1) ->
  run F w2 h2 = Ok w3 ->
  step F w3 (CConst ty2 v2) = Ok (w4, r2) ->
  w_types w4 !! ty1 = Some t1 -> w_types w4 !! ty2 = Some t2 ->
  const_of w4 r1 t1 (v1 mod 2 ^ 64)%Z /\ const_of w4 r2 t2 (v2 mod 2 ^ 64)%Z /\
  (r1 = r2 <-> t1 = t2 /\ (v1 mod 2 ^ 64 = v2 mod 2 ^ 64)%Z).
Proof. exact const_sharing. Qed.

Example C05_case :
  match run noflt init_world [KNew; CType (dfUInt 8); CType (dfUInt 8); CConst 0 5; CConst 1 6] with
  | Ok w => match step noflt w (CConst 1 5) with Ok (_, r) => Nat.eqb r 1 | _ => false end &&
            match step noflt w (CConst 1 7) with Ok (_, r) => Nat.eqb r 3 | _ => false end
  | _ => false
  end = true.
Proof. vm_compute. reflexivity. Qed.

(** ** C07 *)
Theorem C07_check :
  forall F h w k b, run F init_world h = Ok w -> check w k = Ok b ->
  (b = true <-> forall s i, ~ In (CNewVar k s i) h).
Proof. exact check_correct. Qed.

Example C07_case :
  match run noflt init_world demo with Ok w => check w 0 = Ok true | _ => False end /\
  match run noflt init_world (demo ++ [CNewVar 0 false 0; CConnect 18 1]) with
  | Ok w => check w 0 = Ok false | _ => False end.
Proof. vm_compute. auto. Qed.

(** ** C08 (construction side): slices *)
Theorem C08_slice_call :
  forall F h w a f s, run F init_world h = Ok w -> is_Some (w_nodes w !! a) ->
  (0 <= f < 65536 -> 0 <= s < 65536 ->
   exists t, type_of w a = Some t /\
   ((Z.max f s < total_bits t < 2 ^ 16 -> exists w' r,
       step F w (CSlice a f s) = Ok (w', r) /\ step F w (CSlice a s f) = Ok (w', r) /\
       new_node w w' r (owner w a) (BITS (Z.max f s) (Z.min f s)) (TRaw (Z.abs (f - s) + 1))
                VStream EmptyString [a]) /\
    (total_bits t <= Z.max f s ->
       step F w (CSlice a f s) = Throw /\ step F w (CSlice a s f) = Throw)))%Z.
Proof. exact slice_call. Qed.

(** ** C10 *)
Theorem C10_type_equality :
  (forall a b, ty_eqb a b = true <-> a = b) /\
  (forall s i f, 0 <= i < 2 ^ 16 -> 0 <= f < 2 ^ 16 -> i + f + 1 < 2 ^ 16 ->
     total_bits (mkFixed s i f) = (if s then 1 else 0) + i + f)%Z /\
  (forall e f, 0 <= e < 2 ^ 8 -> 0 <= f < 2 ^ 8 -> total_bits (mkFloat e f) = e + f + 1)%Z /\
  (forall n, 0 <= n < 2 ^ 16 -> total_bits (mkRaw n) = n)%Z /\
  (forall n, 0 < n < 2 ^ 16 -> exists t, dfInt n = Some t /\ total_bits t = n /\ total_bits (dfUInt n) = n)%Z.
Proof. exact type_facts. Qed.

(** ** C44: the identity cast *)
Theorem C44_same_handle_cast :
  forall F h w a nd, run F init_world h = Ok w -> w_nodes w !! a = Some nd ->
  step F w (CCast a (n_ty nd)) = Ok (w, a).
Proof. exact cast_same. Qed.

(** structurally equal types obtained by different calls do not elide the cast *)
Theorem C44_refuted :
  exists F h w a ty w' r, run F init_world h = Ok w /\
    type_of w a = w_types w !! ty /\ is_Some (type_of w a) /\
    step F w (CCast a ty) = Ok (w', r) /\ r <> a.
Proof. exact cast_equal_type_node. Qed.

(** one report for all theorems of this file *)
Definition PropertiesGraph_theorems :=
  (C01_graph_well_formed,
   C01_call_effect,
   C02_feedforward_acyclic,
   C02_single_kernel_reachable_and_sorts,
   C03_topsort_terminates,
   C03_topsort_correct,
   C04_refuted,
   C04_partial,
   C05_constant_sharing,
   C07_check,
   C08_slice_call,
   C10_type_equality,
   C44_same_handle_cast,
   C44_refuted).
Print Assumptions PropertiesGraph_theorems.
