(** * Latencies of operations, as documented (specification).

    /repo/docs/latency_config.md *)
From Coq Require Import ZArith Bool String.
From stdpp Require Import gmap list.
From Verif Require Import Types Word Value Graph GraphSpec Dfcir Latency.
Local Open Scope Z_scope.
Local Open Scope string_scope.

(** the documented name of a computational operation *)
Definition doc_name (o : opk) : option string :=
  match o with
  | BIN ADD => Some "ADD" | BIN SUB => Some "SUB" | BIN MUL => Some "MUL" | BIN DIV => Some "DIV"
  | UN NEG => Some "NEG"
  | BIN LESS => Some "LESS" | BIN LESSEQ => Some "LESSEQ" | BIN GREATER => Some "GREATER"
  | BIN GREATEREQ => Some "GREATEREQ" | BIN EQ => Some "EQ" | BIN NEQ => Some "NEQ"
  | _ => None
  end.
(** "based on the types of its arguments" *)
Definition doc_suffix (float : bool) : string := if float then "_FLOAT" else "_INT".
Definition args_float (w : world) (n : nat) (float : bool) : Prop :=
  exists a rest t, operands w n = a :: rest /\ type_of w a = Some t /\ is_float t = float.
Definition is_comparison (o : opk) : bool :=
  match o with BIN b => is_comp b | _ => false end.

(** what an object with the documented members says about a key: the last member with
    that key counts, and 1 if there is none *)
Definition doc_value (l : list (string * Z)) (key : string) : Z :=
  fold_left (fun d p => if String.eqb (fst p) key then snd p else d) l 1.
Definition members (l : list (string * Z)) : list (string * json) := map (fun p => (fst p, JInt (snd p))) l.

(** the latency of the operation [n] in a scheduled program *)
Definition has_latency (Q : program) (n : nat) (lat : Z) : Prop :=
  (exists o k t args, Def n o k t lat args ∈ Q) /\
  forall o k t l args, Def n o k t l args ∈ Q -> l = lat.

(** the entry of the configuration that is documented for an operation *)
Definition doc_class (o : opk) (float : bool) : option Sched.ocls :=
  match o with
  | BIN b => if is_bitwise b then None else Some (Sched.OBin b float)
  | UN NEG => Some (Sched.ONeg float)
  | _ => None
  end.
