(** * Property theorems: simulation files and VCD output. *)
From Coq Require Import ZArith Bool String Ascii Relations Permutation Lia.
From stdpp Require Import gmap list strings.
From Verif Require Import Instance InstanceSpec InstanceFlow Types Word Value OpSpec Graph GraphSpec TopSort KernelSort GraphFacts
     BuilderTopo Sim SimSpec SimProofs HwSpec SimFacts SimInput SimInputSpec SimInputProofs SimRunSpec SimRunProofs PropertiesSim.
Local Open Scope Z_scope.

(** ** C14: every printed value, in any simulation of any kernel with any file *)
Theorem C14_partial :
  forall F h w order hash,
  flt_words F -> elaborates F h w -> topological w order -> (forall l, Permutation (hash l) l) ->
  (forall n, n ∈ order -> 0 <= wd w n) ->
  forall file out names, simulate F w order hash file = Some (SOk (out, names)) ->
  forall sec, sec ∈ v_ticks out ->
  exists f inp, inp_words inp /\ words order f /\ (forall n, n ∈ order -> tick_eq F w inp f n) /\
    tick_shown w order names f (s_values sec).
Proof. intros F h w order hash HF R T Hh Hw. exact (simulate_values F w order hash h HF R T Hh Hw). Qed.

(** what is missing: variables of more than 64 bits.  The printing shifts a 64-bit
    value by width-1 >= 64, which is undefined, so no such kernel has a defined run. *)
Theorem C14_refuted :
  forall F h w order hash,
  flt_words F -> elaborates F h w -> topological w order -> (forall l, Permutation (hash l) l) ->
  forall n, n ∈ order -> 64 < wd w n ->
  forall file out names, simulate F w order hash file = Some (SOk (out, names)) -> v_ticks out = [].
Proof.
  intros F h w order hash HF R T Hh n Hn Hwide file out names H.
  destruct (decide (v_ticks out = [])) as [E|E]; [exact E|exfalso].
  pose proof (simulate_wide F w order hash T Hh file out names H E n Hn). lia.
Qed.

(** ** C15: any file *)
Theorem C15_partial :
  forall F h w order hash,
  flt_words F -> elaborates F h w -> topological w order -> (forall l, Permutation (hash l) l) ->
  (forall n, n ∈ order -> 0 <= wd w n) ->
  forall file out names, simulate F w order hash file = Some (SOk (out, names)) ->
  exists total, map s_tick (v_ticks out) = seq 1 total /\ v_final out = S total /\
    v_vars out = map (fun p => (wd w (fst p), snd p)) names /\
    (names <> [] -> names_ok w order names /\ (user_names_ok w order -> NoDup (map snd names))).
Proof. intros F h w order hash HF R T Hh Hw. exact (simulate_ticks F w order hash h HF R T Hh Hw). Qed.

(** names collide when the user calls a variable "node0" *)
Definition clash_k : list cmd :=
  [ KNew; CType (dfUInt 8); CInput 0 false "node0" 0; CBin ADD 1 1; COutput 0 false "o" 0; CConnect 5 2 ].
Definition id_list (l : list nat) : list nat := l.
Definition clash_file : string := ("node0 a" ++ String "010" "")%string.
Definition dup_names (names : list (nat * string)) : bool :=
  match filter (fun p => String.eqb (snd p) "node0" = true) names with _ :: _ :: _ => true | _ => false end.
Theorem C15_refuted :
  exists w order out names, run noflt init_world clash_k = Ok w /\ sort_kernel w 0 = Some (TSOk order) /\
    topological w order /\ simulate noflt w order id_list clash_file = Some (SOk (out, names)) /\
    length (v_ticks out) = 1%nat /\ ~ NoDup (map snd names).
Proof.
  destruct (run_check noflt clash_k (fun w =>
     match sort_kernel w 0 with
     | Some (TSOk order) => topb w order &&
         match simulate noflt w order id_list clash_file with
         | Some (SOk (out, names)) => Nat.eqb (length (v_ticks out)) 1 && dup_names names
         | _ => false end
     | _ => false end)) as (w & R & H); [vm_compute; reflexivity|].
  destruct (sort_kernel w 0) as [[order| |]|] eqn:Es; try discriminate H. apply andb_true_iff in H as [Ht H].
  destruct (simulate noflt w order id_list clash_file) as [[[out names]| | |]|] eqn:E; try discriminate H.
  apply andb_true_iff in H as [H1 H2]. apply Nat.eqb_eq in H1.
  exists w, order, out, names. split; [exact R|]. split; [exact Es|]. split; [now apply topb_sound|]. split; [exact E|]. split; [exact H1|].
  intros N. unfold dup_names in H2.
  destruct (filter (fun p => String.eqb (snd p) "node0" = true) names) as [|p [|q l]] eqn:Ef; try discriminate H2.
  assert (Np : NoDup (map snd (p :: q :: l))).
  { rewrite <- Ef. clear -N. induction names as [|x names IH]; [constructor|]. cbn in N. apply NoDup_cons in N as [N1 N2].
    rewrite filter_cons. destruct (decide _); [|auto]. cbn. constructor; [|auto]. intros Hin. apply N1.
    apply elem_of_list_fmap in Hin as (y & -> & Hy). apply elem_of_list_filter in Hy as [_ Hy]. apply elem_of_list_fmap. eauto. }
  assert (Ep : snd p = "node0"%string /\ snd q = "node0"%string).
  { split; [assert (Hp : p ∈ filter (fun p => String.eqb (snd p) "node0" = true) names) by (rewrite Ef; left)
           |assert (Hp : q ∈ filter (fun p => String.eqb (snd p) "node0" = true) names) by (rewrite Ef; right; left)];
    apply elem_of_list_filter in Hp as [Hp _]; now apply String.eqb_eq. }
  destruct Ep as [Ep Eq]. cbn in Np. apply NoDup_cons in Np as [Np _]. apply Np. rewrite Ep, Eq. left.
Qed.

(** ** C16 *)
(** a file of at most 200 blocks, in each of which every input of the kernel has a value *)
Theorem C16_partial :
  forall F h w order hash,
  flt_words F -> elaborates F h w -> topological w order -> (forall l, Permutation (hash l) l) ->
  (forall n, n ∈ order -> 0 <= wd w n) ->
  forall bs, Forall block_ok bs -> bs <> [] -> (length bs <= 200)%nat -> Forall (covers w order) bs ->
  forall out names, simulate F w order hash (text_of (file_lines bs)) = Some (SOk (out, names)) ->
  length (v_ticks out) = length bs /\ v_final out = S (length bs) /\ names_ok w order names /\
  v_vars out = map (fun p => (wd w (fst p), snd p)) names /\
  forall i b sec, bs !! i = Some b -> v_ticks out !! i = Some sec ->
    s_tick sec = S i /\ exists f, words order f /\ (forall n, n ∈ order -> tick_eq F w (last_value b) f n) /\
      tick_shown w order names f (s_values sec).
Proof. intros F h w order hash HF R T Hh Hw. exact (simulate_blocks F w order hash h HF R T Hh Hw). Qed.

Theorem C16_runs_partial :
  forall F h w order hash,
  flt_words F -> elaborates F h w -> topological w order -> (forall l, Permutation (hash l) l) ->
  forall bs, Forall block_ok bs -> bs <> [] -> (length bs <= 200)%nat -> Forall (covers w order) bs ->
  (forall n, n ∈ order -> 0 <= wd w n <= 64) ->
  (forall b, b ∈ bs -> exists f, words order f /\ forall n, n ∈ order -> tick_eq F w (last_value b) f n) ->
  exists out names, simulate F w order hash (text_of (file_lines bs)) = Some (SOk (out, names)).
Proof. intros F h w order hash HF R T Hh. exact (simulate_runs F w order hash h HF R T Hh). Qed.

(** what is missing: any longer file makes the simulator read past its buffers, for
    every kernel that has an input, although each block is simulable *)
Theorem C16_refuted :
  forall F h w order hash,
  flt_words F -> elaborates F h w -> topological w order -> (forall l, Permutation (hash l) l) ->
  forall bs, Forall block_ok bs -> (200 < length bs)%nat ->
  existsb (is_input w) order = true -> Forall (covers w order) bs ->
  (forall n, n ∈ order -> 0 <= wd w n <= 64) ->
  (forall b, b ∈ bs -> exists f, words order f /\ forall n, n ∈ order -> tick_eq F w (last_value b) f n) ->
  simulate F w order hash (text_of (file_lines bs)) = Some SUndef.
Proof. intros F h w order hash HF R T Hh. exact (simulate_overrun_undefined F w order hash h HF R T Hh). Qed.

Theorem C16_total :
  forall F w order hash file, simulate F w order hash file <> None.
Proof. intros F w order hash file. exact (simulate_total F w order hash file). Qed.

(** two blocks for the kernel of PropertiesSim *)
Definition two_blocks : list block :=
  [ [mkEntry "x" "7" 7; mkEntry "y" "0x9" 9]; [mkEntry "x" "0A" 10; mkEntry "y" "7" 7; mkEntry "x" "9" 9] ].
Definition shown (n : string) (s : section_) : string :=
  match filter (fun p => String.eqb (snd p) n = true) (s_values s) with p :: _ => fst p | [] => "" end.
Example C16_case :
  match run noflt init_world sim_demo with
  | Ok w => match sort_kernel w 0 with
      | Some (TSOk r) =>
          match simulate noflt w r id_list (text_of (file_lines two_blocks)) with
          | Some (SOk (out, names)) =>
              match v_ticks out with
              | [s1; s2] => Nat.eqb (v_final out) 3 && String.eqb (shown "o" s1) "00001000" && String.eqb (shown "o" s2) "00001110"
                            && String.eqb (shown "x" s2) "00001001"
              | _ => false end
          | _ => false end
      | _ => false end
  | _ => false
  end = true.
Proof. vm_compute. reflexivity. Qed.
Example two_blocks_ok : Forall block_ok two_blocks.
Proof.
  assert (N : forall c s, ~ char_in c s <-> match s with EmptyString => True | String x s' => c <> x /\ ~ char_in c s' end).
  { intros c [|x s']; [split; [auto|intros _; apply char_in_nil]|]. rewrite char_in_cons. tauto. }
  assert (D : forall c d, digit_char c d -> hex_digits (String c "") d) by (intros; now constructor).
  assert (E : forall n t v, n = "x"%string \/ n = "y"%string -> hex_literal t v -> v < 2 ^ 64 -> entry_ok (mkEntry n t v)).
  { intros n t v Hn Hl Hv. unfold entry_ok. cbn [e_name e_text e_val].
    destruct Hn as [->| ->]; (split; [discriminate|]; rewrite !N; repeat split; try discriminate; try exact Hl; exact Hv). }
  assert (G : forall c d, digit_char c d -> hex_literal (String c "") d) by (intros; left; auto).
  assert (D7 : hex_literal "7" 7) by (apply G; split; [lia|left; reflexivity]).
  assert (D9 : hex_literal "9" 9) by (apply G; split; [lia|left; reflexivity]).
  assert (D0 : hex_literal "0x9" 9).
  { right. exists "9"%string. split; [left; reflexivity|]. apply D. split; [lia|left; reflexivity]. }
  assert (DA : hex_literal "0A" 10).
  { left. apply (hd_more "0" 0 "A" 10); [apply D; split; [lia|left; reflexivity]|]. split; [lia|right; reflexivity]. }
  unfold two_blocks. apply Forall_cons. split; [split; [discriminate|]|apply Forall_cons; split; [split; [discriminate|]|apply Forall_nil; exact I]];
    repeat (apply Forall_cons; split; [apply E; [auto|assumption|lia]|]); apply Forall_nil; exact I.
Qed.

(** ** C17 *)
(** Writes: for any text, starting from buffers of the right size, the reader never
    writes outside and keeps all sizes. *)
Theorem C17_partial :
  forall lines ind one d,
  (forall name buf, d !! name = Some buf -> length buf = 200%nat) ->
  (forall n buf x, d !! n = Some buf -> x ∈ buf -> 0 <= x < 2 ^ 64) ->
  read_input lines ind one d <> SUndef /\
  forall rest d' count, read_input lines ind one d = SOk (rest, d', count) ->
    (forall name buf, d' !! name = Some buf -> length buf = 200%nat) /\
    (count <= 201 \/ count <= S ind)%nat.
Proof.
  intros lines ind one d Hd Hx. destruct (read_input_safe lines ind one d Hd Hx) as [A B]. split; [exact A|].
  intros rest d' count E. destruct (B _ _ _ E) as (B1 & _ & B3 & _). split; [exact B1|exact B3].
Qed.
(** Reads: the count 201 is reached and entry 200 of a 200-entry buffer is read; no
    kernel with an input survives a file of more than 200 blocks. *)
Theorem C17_refuted :
  forall F w order hash,
  forall bs, Forall block_ok bs -> (200 < length bs)%nat -> existsb (is_input w) order = true ->
  forall out, simulate F w order hash (text_of (file_lines bs)) <> Some (SOk out).
Proof. intros F w order hash. exact (simulate_overrun F w order hash). Qed.

(** such files exist *)
Example long_file : exists bs, Forall block_ok bs /\ (200 < length bs)%nat.
Proof.
  exists (replicate 201 [mkEntry "x" "7" 7]). split; [|rewrite replicate_length; lia].
  apply Forall_replicate. pose proof two_blocks_ok as H. inversion H as [|? ? [_ Hb] _]; subst.
  inversion Hb; subst. split; [discriminate|]. constructor; auto.
Qed.

(** one report for all theorems of this file *)
Definition PropertiesVcd_theorems :=
  (C14_partial,
   C14_refuted,
   C15_partial,
   C15_refuted,
   C16_partial,
   C16_runs_partial,
   C16_refuted,
   C16_total,
   C17_partial,
   C17_refuted).
Print Assumptions PropertiesVcd_theorems.
