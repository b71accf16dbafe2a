(** * Kernels the verifier of the DFCIR dialect accepts (specification). *)
From Coq Require Import ZArith Bool String.
From stdpp Require Import gmap list.
From Verif Require Import Types Word Value Graph GraphSpec.
Local Open Scope Z_scope.

(** what a variable is (stream, scalar or constant) and its type *)
Definition var_type (w : world) (n : nid) : option (vkind * dftype) :=
  match w_nodes w !! n with
  | Some nd => match w_types w !! n_ty nd with Some t => Some (n_vk nd, t) | None => None end
  | None => None
  end.
(** [-x] and [~x] are of what [x] is of, and a mux is controlled by a stream *)
Definition acceptable (w : world) : Prop :=
  forall n nd, w_nodes w !! n = Some nd ->
    match n_op nd with
    | UN _ => forall a, a ∈ operands w n -> var_type w a = var_type w n
    | MUX => forall c arms, operands w n = c :: arms -> exists t, var_type w c = Some (VStream, t)
    | _ => True
    end.
(** an offset of [x] is of what [x] is of.  True when the offset is made; binding an input
    of an instance to something else can change it *)
Definition offsets_plain (w : world) : Prop :=
  forall n nd d a, w_nodes w !! n = Some nd -> n_op nd = OFFSET d -> a ∈ operands w n -> var_type w a = var_type w n.
(** every operand of [-] and [~] and every control of a mux is a stream *)
Definition stream_operands (w : world) : Prop :=
  forall n nd, w_nodes w !! n = Some nd ->
    match n_op nd with
    | UN _ | MUX => exists a rest na, operands w n = a :: rest /\ w_nodes w !! a = Some na /\ n_vk na = VStream
    | _ => True
    end.
