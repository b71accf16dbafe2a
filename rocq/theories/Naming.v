(** * Lowering of the scheduled operations to instances of extern modules.

    Models the type converter and SchedulableOpConversionPattern of
    DFCIRToFIRRTLPass.cpp:61-92, 330-504, 583-713, 1001-1030 and printSVSignature,
    DFCIRTypes.cpp:18-47 (both under /repo/src/model/dfcir/lib/dfcir). *)
From Coq Require Import ZArith Bool String DecimalString List.
From Verif Require Import Types Value Graph Dfcir Verilog Stubs.
Import ListNotations.
Local Open Scope Z_scope.

(** raw_ostream << unsigned: a decimal number without leading zeros *)
Definition decZ (z : Z) : string := NilEmpty.string_of_uint (N.to_uint (Z.to_N z)).

(** printSVSignature, DFCIRTypes.cpp:18-21, 27-29, 35-37 *)
Definition sv_signature (t : dftype) : string :=
  match t with
  | TFixed s i f => "fix_" ++ decZ (if s then 1 else 0) ++ "_" ++ decZ i ++ "_" ++ decZ f
  | TFloat e f => "flt_" ++ decZ e ++ "_" ++ decZ f
  | TRaw n => "bits_" ++ decZ n
  end%string.

(** FIRRTLTypeConverter, DFCIRToFIRRTLPass.cpp:61-92: SInt/UInt and width; the sum is a
    uint32_t of fields below 2^16 and does not wrap *)
Definition port_type (t : dftype) : ptype :=
  match t with
  | TFixed s i f => mkP s ((if s then 1 else 0) + i + f)
  | TFloat e f => mkP false (1 + e + f)
  | TRaw n => mkP false n
  end.

(** getPosLatency, DFCIROpInterfaces.td:79-89 *)
Definition pos_latency (lat : Z) : Z := if 0 <=? lat then lat else 0.

(** getBaseModuleName: DECL_SCHED_*_OP_CONV_PATTERN :527-548, 583-689 and :1007-1010.
    [None]: the operation is not lowered to an instance. *)
Definition base_name (o : dop) : option string :=
  match o with
  | DBin ADD => Some ADD_MODULE | DBin SUB => Some SUB_MODULE
  | DBin MUL => Some MUL_MODULE | DBin DIV => Some DIV_MODULE
  | DBin LESS => Some LESS_MODULE | DBin LESSEQ => Some LESSEQ_MODULE
  | DBin GREATER => Some GREATER_MODULE | DBin GREATEREQ => Some GREATEREQ_MODULE
  | DBin EQ => Some EQ_MODULE | DBin NEQ => Some NEQ_MODULE
  | DUn NEG => Some NEG_MODULE | DCast => Some CAST_MODULE
  | DLatency => Some BUF_MODULE
  | _ => None
  end.

(** constructModuleName, :378-402; for buffers :1012-1029 *)
Definition op_name (base : string) (ins : list dftype) (out : dftype) (lat : Z) : string :=
  (base ++ fold_right (fun t r => "_IN_" ++ sv_signature t ++ r)
             ("_OUT_" ++ sv_signature out ++ "_" ++ decZ (pos_latency lat)) ins)%string.
Definition fifo_name (t : dftype) (lat : Z) : string :=
  let w := decZ (p_width (port_type t)) in
  (BUF_MODULE ++ "_IN_" ++ w ++ "_OUT_" ++ w ++ "_" ++ decZ (pos_latency lat))%string.
Definition module_name (o : dop) (ins : list dftype) (out : dftype) (lat : Z) : option string :=
  match o with
  | DLatency => Some (fifo_name out lat)
  | _ => match base_name o with Some b => Some (op_name b ins out lat) | None => None end
  end.

(** createModule, :404-436: result port first (the clock is left out) *)
Definition ext_module (o : dop) (ins : list dftype) (out : dftype) (lat : Z) : option extmod :=
  match module_name o ins out lat with
  | Some name => Some (name, port_type out :: map port_type ins, pos_latency lat)
  | None => None
  end.

(** the type of a value of the program *)
Definition val_type (P : program) (v : nat) : option dftype :=
  match def_of P v with Some (_, _, t, _, _) => Some t | None => None end.
Fixpoint val_types (P : program) (l : list nat) : option (list dftype) :=
  match l with
  | [] => Some []
  | v :: r => match val_type P v, val_types P r with
              | Some t, Some ts => Some (t :: ts)
              | _, _ => None
              end
  end.
Definition stmt_ext (P : program) (s : stmt) : option extmod :=
  match s with
  | Def _ o _ t lat args =>
      match val_types P args with Some ts => ext_module o ts t lat | None => None end
  | Con _ _ => None
  end.

(** findOrCreateModule, :470-487, over all statements: a module is created (at the start
    of the circuit) only if there is none of that name.  The order in which MLIR applies
    the conversion patterns is taken to be program order. *)
Definition find_ext (l : list extmod) (name : string) : option extmod :=
  List.find (fun m => String.eqb (fst (fst m)) name) l.
Definition add_ext (l : list extmod) (m : extmod) : list extmod :=
  match find_ext l (fst (fst m)) with Some _ => l | None => m :: l end.
Definition ext_modules (P : program) : list extmod :=
  fold_left (fun l s => match stmt_ext P s with Some m => add_ext l m | None => l end) P [].
