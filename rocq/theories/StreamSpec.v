(** * Stream and clock-cycle meaning of kernels and DFCIR programs (specification).

    Everything is stated for an arbitrary set [V] of values, arbitrary operator
    functions and arbitrary input streams.  A stream has elements at positions
    0, 1, 2, ...; [x.offset(k)] at position [i] is [x] at position [i+k]. *)
From Coq Require Import ZArith Bool String.
From stdpp Require Import gmap list.
From Verif Require Import Types Word Value Graph GraphSpec Dfcir.
Local Open Scope Z_scope.

(** what the environment and the operators supply *)
Record interp (V : Type) := {
  i_op : opk -> dftype -> list V -> option V;   (** operator, result type, operands; [None]: no defined result *)
  i_idx : V -> nat;                             (** number denoted by a multiplexer control *)
  i_const : dftype -> Z -> V;
  i_scalar : string -> V;
  i_stream : string -> Z -> V                   (** element at position [i >= 0] *)
}.
Arguments i_op {V}. Arguments i_idx {V}. Arguments i_const {V}. Arguments i_scalar {V}. Arguments i_stream {V}.

(** [kval I w n i x]: in the kernel graph [w], variable [n] has value [x] at stream
    position [i]. *)
Inductive kval {V} (I : interp V) (w : world) : nat -> Z -> V -> Prop :=
| kv_stream n nd i : w_nodes w !! n = Some nd -> n_op nd = IN -> n_vk nd = VStream -> 0 <= i ->
    kval I w n i (i_stream I (n_name nd) i)
| kv_scalar n nd i : w_nodes w !! n = Some nd -> n_op nd = IN -> n_vk nd <> VStream ->
    kval I w n i (i_scalar I (n_name nd))
| kv_const n nd t c i : w_nodes w !! n = Some nd -> n_op nd = CONST c -> type_of w n = Some t ->
    kval I w n i (i_const I t c)
| kv_offset n nd k a i x : w_nodes w !! n = Some nd -> n_op nd = OFFSET k -> operands w n = [a] ->
    kval I w a (i + k) x -> kval I w n i x
| kv_out n nd a i x : w_nodes w !! n = Some nd -> n_op nd = OUT -> operands w n = [a] ->
    kval I w a i x -> kval I w n i x
| kv_mux n nd c arms a i xc x : w_nodes w !! n = Some nd -> n_op nd = MUX -> operands w n = c :: arms ->
    0 <= i -> kval I w c i xc -> arms !! i_idx I xc = Some a -> kval I w a i x ->
    (forall b, b ∈ arms -> exists y, kval I w b i y) -> kval I w n i x
| kv_op n nd t i xs x : w_nodes w !! n = Some nd ->
    (match n_op nd with BIN _ | UN _ | CAST | SHL _ | SHR _ | BITS _ _ | CAT => True | _ => False end) ->
    type_of w n = Some t -> 0 <= i ->
    Forall2 (fun a y => kval I w a i y) (operands w n) xs ->
    i_op I (n_op nd) t xs = Some x -> kval I w n i x.

(** The multi-way multiplexer of the hardware (FIRRTL [multibit_mux]) counts its
    inputs from the last one. *)
Definition mux_hw {A} (k : nat) (arms : list A) : option A :=
  if (k <? length arms)%nat then arms !! (length arms - 1 - k)%nat else None.

(** the operator a DFCIR operation stands for, and its function *)
Definition opk_of (o : dop) : opk :=
  match o with
  | DBin o => BIN o | DUn u => UN u | DCast => CAST | DShl n => SHL n | DShr n => SHR n
  | DBits l r => BITS l r | DCat => CAT | _ => NONE
  end.
Definition d_op {V} (I : interp V) (o : dop) (t : dftype) (xs : list V) : option V :=
  match o with
  | DMux => match xs with c :: arms => mux_hw (i_idx I c) arms | [] => None end
  | DLatency => match xs with [x] => Some x | _ => None end
  | _ => i_op I (opk_of o) t xs
  end.

(** [dval I P v i x]: in the (unscheduled) DFCIR program [P], value [v] is [x] at stream
    position [i]. *)
Inductive dval {V} (I : interp V) (P : program) : nat -> Z -> V -> Prop :=
| dv_stream v name k t l a i : Def v (DIn false name) k t l a ∈ P -> 0 <= i ->
    dval I P v i (i_stream I name i)
| dv_scalar v name k t l a i : Def v (DIn true name) k t l a ∈ P ->
    dval I P v i (i_scalar I name)
| dv_const v c k t l a i : Def v (DConst c) k t l a ∈ P -> dval I P v i (i_const I t c)
| dv_offset v d k t l s i x : Def v (DOffset d) k t l [s] ∈ P -> dval I P s (i + d) x -> dval I P v i x
| dv_out v sc name k t l a s i x : Def v (DOut sc name) k t l a ∈ P -> Con v s ∈ P ->
    dval I P s i x -> dval I P v i x
| dv_op v o k t l args i xs x : Def v o k t l args ∈ P -> is_oper o = true -> 0 <= i ->
    Forall2 (fun a y => dval I P a i y) args xs ->
    d_op I o t xs = Some x -> dval I P v i x.

(** [circuit I P h]: [h v c] is the signal of [v] in clock cycle [c] of the synchronous
    circuit described by a scheduled program.  Element [i] of an input stream is
    applied in cycle [i]; an operation of latency [l] delivers in cycle [c+l] the
    result for its operands of cycle [c]; what registers hold before they are first
    written is arbitrary. *)
Definition delay (o : dop) (l : Z) : Z := if is_scheduled o then Z.max 0 l else 0.
Definition stmt_holds {V} (I : interp V) (h : nat -> Z -> V) (s : stmt) : Prop :=
  match s with
  | Def v (DIn false name) _ _ _ _ => forall c, 0 <= c -> h v c = i_stream I name c
  | Def v (DIn true name) _ _ _ _ => forall c, 0 <= c -> h v c = i_scalar I name
  | Def v (DConst z) _ t _ _ => forall c, 0 <= c -> h v c = i_const I t z
  | Def v (DOut _ _) _ _ _ _ => True
  | Def v (DOffset _) _ _ _ [s] => forall c, 0 <= c -> h v c = h s c     (* erased; a wire *)
  | Def v (DOffset _) _ _ _ _ => True
  | Def v o _ t l args => forall c x, 0 <= c ->
      d_op I o t (map (fun a => h a c) args) = Some x -> h v (c + delay o l) = x
  | Con d s => forall c, 0 <= c -> h d c = h s c
  end.
Definition circuit {V} (I : interp V) (P : program) (h : nat -> Z -> V) : Prop :=
  forall s, s ∈ P -> stmt_holds I h s.
