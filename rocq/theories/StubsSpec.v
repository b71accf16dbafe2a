(** * What an operator library should compute (specification side). *)
From Coq Require Import ZArith Bool List.
From Verif Require Import Types Word Value OpSpec Graph Dfcir Verilog Stubs Naming.
Import ListNotations.
Local Open Scope Z_scope.

(** the integer type of [w] bits, two's complement if [s] *)
Definition int_type (s : bool) (w : Z) : dftype := TFixed s (if s then w - 1 else w) 0.
Definition bool_type : dftype := int_type false 1.
(** patterns of [w] bits *)
Definition word (w x : Z) : Prop := 0 <= x < 2 ^ w.

(** [lib_module o ins out lat m]: [m] is the module the library defines for an instance
    of operation [o] with these operand types, result type and latency attribute *)
Definition lib_module (o : dop) (ins : list dftype) (out : dftype) (lat : Z) (m : vmodule) : Prop :=
  exists name ports l, ext_module o ins out lat = Some (name, ports, l) /\ gen_module name ports l = Some m.

(** [delivers m ok lat f]: fed with inputs that satisfy [ok] in every cycle, [m] can run
    whatever its registers contain at power-up, and whenever it runs the output in cycle
    [t + lat] is [f] of the inputs of cycle [t] *)
Definition delivers (m : vmodule) (ok : (vname -> Z) -> Prop) (lat : Z) (f : (vname -> Z) -> Z) : Prop :=
  forall ins, (forall t, ok (ins t)) ->
  (forall init : Z -> Z, (forall i w k, v_decl m REG = Some (DMem w k) -> word w (init i)) ->
     exists R, vrun m ins R /\ forall i, 0 <= i -> s_mem (R 0%nat) REG i = init i) /\
  (forall R, vrun m ins R -> forall t, vout R (t + Z.to_nat lat) = f (ins t)).

Definition is_compare (o : bop) : bool :=
  match o with LESS | LESSEQ | GREATER | GREATEREQ | EQ | NEQ => true | _ => false end.
Definition is_arith (o : bop) : bool := match o with ADD | SUB | MUL => true | _ => false end.

(** the result type DFCxx gives to an operator: the left operand's, or one bit *)
Definition result_type (o : bop) (t1 : dftype) : dftype := if is_compare o then bool_type else t1.
Definition result_width (o : bop) (w1 : Z) : Z := if is_compare o then 1 else w1.

(** both inputs hold words *)
Definition two_words (w1 w2 : Z) (x : vname -> Z) : Prop := word w1 (x ARG1) /\ word w2 (x ARG2).
(** the operation on the numbers the operands denote, modulo 2^(result width) *)
Definition exact_result (o : bop) (s1 : bool) (w1 : Z) (s2 : bool) (w2 : Z) (x : vname -> Z) : Z :=
  bin_math o (num s1 w1 (x ARG1)) (num s2 w2 (x ARG2)) mod 2 ^ result_width o w1.
