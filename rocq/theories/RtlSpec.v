(** * The circuit that is generated, and what it should compute (specification). *)
From Coq Require Import ZArith Bool String.
From stdpp Require Import gmap list.
From Verif Require Import Types Word Value OpSpec Graph GraphSpec TypingSpec Dfcir StreamSpec Verilog Stubs Naming StubsSpec Firrtl Lower ProgTyping Sched.
Local Open Scope Z_scope.

(** ** Values: a type and a bit pattern.  Raw bits and unsigned integers are not told apart
    ([kind], TypingSpec.v): a value of type raw bits carries the unsigned type *)
Notation hval := (dftype * Z)%type.
Definition h_num (x : hval) : Z := num (is_signed (fst x)) (total_bits (fst x)) (snd x).
Definition is_float (t : dftype) : bool := match t with TFloat _ _ => true | _ => false end.

(** what the operators mean on integers.  Floating-point arithmetic, and division by
    zero, are left undefined; fraction bits are ignored (C51). *)
Definition hw_op (o : opk) (t : dftype) (xs : list hval) : option hval :=
  let w := total_bits t in
  match o, xs with
  | BIN b, [x; y] =>
      if negb (is_bitwise b) && (is_float (fst x) || is_float (fst y)) then None
      else if match b with DIV => h_num y =? 0 | _ => false end then None
      else Some (kind t, bin_math b (h_num x) (h_num y) mod 2 ^ w)
  | UN NOT, [x] => Some (kind t, 2 ^ w - 1 - snd x)
  | UN NEG, [x] => if is_float (fst x) then None else Some (kind t, (- h_num x) mod 2 ^ w)
  | CAST, [x] => if is_float (fst x) || is_float t then None else Some (kind t, h_num x mod 2 ^ w)
  | SHL n, [x] => Some (kind t, (snd x * 2 ^ n) mod 2 ^ w)
  | SHR n, [x] => Some (kind t, (h_num x / 2 ^ n) mod 2 ^ w)
  | BITS l r, [x] => Some (kind t, (snd x / 2 ^ r) mod 2 ^ (l - r + 1))
  | CAT, [x; y] => Some (kind t, snd x * 2 ^ total_bits (fst y) + snd y)
  | _, _ => None
  end.

(** the environment: what is applied to the input ports *)
Record env := { e_stream : string -> Z -> hval; e_scalar : string -> hval }.
Definition hw (e : env) : interp hval :=
  {| i_op := hw_op;
     i_idx := fun x => Z.to_nat (snd x);
     i_const := fun t c => (kind t, num (is_signed t) 64 c mod 2 ^ total_bits t);
     i_scalar := e_scalar e;
     i_stream := e_stream e |}.

(** ** The generated circuit *)
(** operand [k] drives port [arg(k+1)] of an instance (remapUses,
    DFCIRToFIRRTLPass.cpp:438-467) *)
Definition inst_ports (sig : nat -> Z -> Z) (args : list nat) (t : nat) (n : vname) : Z :=
  match n, args with
  | ARG1, a :: _ => sig a (Z.of_nat t)
  | ARG2, _ :: b :: _ => sig b (Z.of_nat t)
  | _, _ => 0
  end.
Definition fir_args (ts : list dftype) (sig : nat -> Z -> Z) (args : list nat) (c : Z) : list fval :=
  zip_with (fun t a => (port_type t, sig a c)) ts args.

(** one statement of the scheduled program, lowered.  [sig v c] is the pattern on the wire
    of [v] in clock cycle [c].  An operation with the Scheduled interface is an instance of
    the library module of its name and runs as such; the others are FIRRTL expressions;
    where an expression has no defined value the wire carries any pattern.  An offset
    that is still there is not lowered at all (the conversion fails). *)
Definition rtl_stmt (Q : program) (lib : list (string * vmodule)) (e : env) (sig : nat -> Z -> Z) (s : stmt) : Prop :=
  match s with
  | Def v (DIn false name) _ t _ _ => forall c, 0 <= c -> (kind t, sig v c) = e_stream e name c
  | Def v (DIn true name) _ t _ _ => forall c, 0 <= c -> (kind t, sig v c) = e_scalar e name
  | Def v (DConst z) _ t _ _ => forall c, 0 <= c -> lower_const t z = Some (port_type t, sig v c)
  | Def v (DOut _ _) _ t _ _ => True
  | Def v (DOffset _) _ _ _ _ => False
  | Def v o _ t lat args =>
      exists ts, val_types Q args = Some ts /\
      match module_name o ts t lat with
      | Some name => exists m R, In (name, m) lib /\ vrun m (inst_ports sig args) R /\
                       forall c, sig v (Z.of_nat c) = vout R c
      | None => exists ex, lower o (map port_type ts) (port_type t) = Some ex /\ forall c, 0 <= c ->
                  match feval (fir_args ts sig args c) ex with
                  | Some (p, x) => p = port_type t /\ sig v c = x
                  | None => True
                  end
      end
  | Con d s => exists td ts, val_type Q d = Some td /\ val_type Q s = Some ts /\
                 forall c, 0 <= c -> f_connect (port_type td) (port_type ts, sig s c) = Some (sig d c)
  end.
Definition rtl (Q : program) (e : env) (sig : nat -> Z -> Z) : Prop :=
  (forall v t c, has_ty Q v t -> 0 <= c -> word (p_width (port_type t)) (sig v c)) /\
  (forall s, s ∈ Q -> rtl_stmt Q (gen_library (ext_modules Q)) e sig s).

(** ** Operations the flow gets right *)
Definition proper (t : dftype) : Prop := 1 <= p_width (port_type t) < 65536.

(** [op_fits o t ts lat]: an operation with result type [t], operand types [ts] and
    latency [lat] is lowered to something that computes it *)
Definition op_fits (o : opk) (t : dftype) (ts : list dftype) (lat : Z) : Prop :=
  match o, ts with
  | CONST _, [] => is_float t = false /\ match t with TRaw _ => False | _ => True end
  | OUT, [s] => is_signed s = is_signed t /\ total_bits s <= total_bits t
  | MUX, c :: arms => arms <> [] /\ Forall (fun a => kind a = kind t) arms
  | BIN b, [t1; t2] =>
      let s1 := is_signed t1 in let s2 := is_signed t2 in
      let w1 := total_bits t1 in let w2 := total_bits t2 in
      if is_bitwise b then s1 = false /\ s2 = false /\ w2 <= w1
      else if is_compare b then
        (s1 = false /\ s2 = false) \/ (s1 = s2 /\ w1 = w2) \/
        ((b = EQ \/ b = NEQ) /\ ((s1 = true /\ s2 = false /\ w2 < w1) \/ (s1 = false /\ s2 = true /\ w1 < w2)))
      else is_arith b = true /\ (0 < lat \/ s1 = false) /\ (w1 <= w2 \/ s1 = s2)
  | UN NOT, [_] => is_signed t = false
  | UN NEG, _ => False
  | CAST, [a] => total_bits t <= total_bits a \/
                 (is_signed a = is_signed t /\ (lat <= 0 \/ is_signed a = false))
  | SHL n, [_] => 0 <= n /\ is_signed t = false
  | SHR n, [_] => 0 <= n
  | CAT, [a; b] => is_signed a = is_signed b /\ total_bits a + total_bits b < 65536
  | _, _ => True
  end.

(** ** What the generated hardware does with the operations it gets wrong
    The operators as they are built, for everything that is accepted at all: operands of an
    arithmetic operation are extended by the sign of the result type, those of a
    comparison by zeros (and compared as signed only if both are); a cast extends by the
    sign of the type cast to; a signed left shift keeps the sign bit. *)
Definition act_op (o : opk) (t : dftype) (xs : list hval) : option hval :=
  let w := total_bits t in
  match o, xs with
  | BIN b, [(t1, x); (t2, y)] =>
      if is_bitwise b then hw_op o t xs
      else if is_float t1 || is_float t2 then None
      else if is_compare b then
        let s := is_signed t1 && is_signed t2 in let m := Z.max (total_bits t1) (total_bits t2) in
        Some (kind t, bin_math b (num s m x) (num s m y) mod 2 ^ w)
      else if is_arith b then
        Some (kind t, bin_math b (num (is_signed t) (total_bits t1) x) (num (is_signed t) (total_bits t2) y) mod 2 ^ w)
      else None
  | CAST, [(t1, x)] => if is_float t1 || is_float t then None else Some (kind t, num (is_signed t) (total_bits t1) x mod 2 ^ w)
  | SHL n, [(t1, x)] =>
      if is_signed t then Some (kind t, x / 2 ^ (w - 1) * 2 ^ (w - 1) + (x * 2 ^ n) mod 2 ^ (w - 1)) else hw_op o t xs
  | _, _ => hw_op o t xs
  end.
(** what is accepted at all *)
Definition act_fits (o : opk) (t : dftype) (ts : list dftype) (lat : Z) : Prop :=
  match o, ts with
  | BIN b, [t1; t2] =>
      if is_bitwise b then op_fits o t ts lat
      else if is_compare b then True
      else is_arith b = true /\ (0 < lat \/ is_signed t1 = false)
  | CAST, [a] => total_bits t <= total_bits a \/ lat <= 0 \/ is_signed t = false
  | SHL n, [_] => 0 <= n /\ (is_signed t = false \/ 2 <= total_bits t)
  | _, _ => op_fits o t ts lat
  end.
(** the kernel read as intended, or as built *)
Inductive reading := Intended | Actual.
Definition hw_as (r : reading) (e : env) : interp hval :=
  match r with
  | Intended => hw e
  | Actual => {| i_op := act_op; i_idx := i_idx (hw e); i_const := i_const (hw e); i_scalar := e_scalar e; i_stream := e_stream e |}
  end.
Definition fits_as (r : reading) : opk -> dftype -> list dftype -> Z -> Prop :=
  match r with Intended => op_fits | Actual => act_fits end.

(** the latency the configuration gives to an operation of a kernel *)
Definition node_latency (cfg : latcfg) (o : opk) (t : dftype) : Z :=
  match o with BIN b => config_latency cfg (DBin b) t | CAST => config_latency cfg DCast t | _ => 0 end.
Definition no_latency (o : opk) (t : dftype) : Z := 0.

(** kernels all of whose operations the flow gets right: every type has a width the
    hardware can represent, every operation fits, and outputs are not read *)
Record realizable_as (r : reading) (w : world) (lat : opk -> dftype -> Z) : Prop := {
  rz_proper : forall n t, type_of w n = Some t -> proper t;
  rz_ops : forall n nd t ts, w_nodes w !! n = Some nd -> type_of w n = Some t ->
    Forall2 (fun a ta => type_of w a = Some ta) (operands w n) ts -> fits_as r (n_op nd) t ts (lat (n_op nd) t);
  rz_outs : forall n nd, w_nodes w !! n = Some nd -> n_op nd = OUT -> readers w n = []
}.
Arguments rz_proper {r} w lat.
Arguments rz_ops {r} w lat.
Arguments rz_outs {r} w lat.
Notation realizable := (realizable_as Intended).

(** the environment applies patterns of the declared types *)
Definition of_type (t : dftype) (x : hval) : Prop := fst x = kind t /\ word (total_bits t) (snd x).
Definition env_for (w : world) (e : env) : Prop :=
  forall n nd t, w_nodes w !! n = Some nd -> n_op nd = IN -> type_of w n = Some t ->
    match n_vk nd with
    | VStream => forall i, 0 <= i -> of_type t (e_stream e (n_name nd) i)
    | _ => of_type t (e_scalar e (n_name nd))
    end.
