(** * Latency configuration: from the configuration file to the scheduler.

    Models /repo/src/options.h:285-338 (HlsOptions), the constructor in
    /repo/src/model/dfcxx/lib/dfcxx/dfcir_processor.cpp:48-54 and opTypeToString,
    /repo/src/model/dfcir/lib/dfcir/passes/DFCIRPassesUtils.cpp:64-90.  The use of the
    configuration (applyConfig) is in Sched.v. *)
From Coq Require Import ZArith Bool String.
From stdpp Require Import list.
From Verif Require Import Types Value Graph Dfcir Sched.
Local Open Scope Z_scope.
Local Open Scope string_scope.

(** a parsed JSON document as far as it matters here: objects (members in the order of
    the file; if a key is repeated nlohmann::json keeps the last value), integers, and
    everything else *)
Inductive json : Type := JObj (l : list (string * json)) | JInt (z : Z) | JOther.
(** json.contains(key), json[key] *)
Definition member (j : json) (key : string) : option json :=
  match j with
  | JObj l => match List.find (fun p => String.eqb (fst p) key) (rev l) with
              | Some p => Some (snd p) | None => None end
  | _ => None
  end.

(** convertFieldToEnum, options.h:287-312 *)
Definition field_class (s : string) : ocls :=
  if String.eqb s "ADD_INT" then OBin ADD false else
  if String.eqb s "ADD_FLOAT" then OBin ADD true else
  if String.eqb s "SUB_INT" then OBin SUB false else
  if String.eqb s "SUB_FLOAT" then OBin SUB true else
  if String.eqb s "MUL_INT" then OBin MUL false else
  if String.eqb s "MUL_FLOAT" then OBin MUL true else
  if String.eqb s "DIV_INT" then OBin DIV false else
  if String.eqb s "DIV_FLOAT" then OBin DIV true else
  if String.eqb s "NEG_INT" then ONeg false else
  if String.eqb s "NEG_FLOAT" then ONeg true else
  if String.eqb s "LESS_INT" then OBin LESS false else
  if String.eqb s "LESS_FLOAT" then OBin LESS true else
  if String.eqb s "LESSEQ_INT" then OBin LESSEQ false else
  if String.eqb s "LESSEQ_FLOAT" then OBin LESSEQ true else
  if String.eqb s "GREATER_INT" then OBin GREATER false else
  if String.eqb s "GREATER_FLOAT" then OBin GREATER true else
  if String.eqb s "GREATEREQ_INT" then OBin GREATEREQ false else
  if String.eqb s "GREATEREQ_FLOAT" then OBin GREATEREQ true else
  if String.eqb s "EQ_INT" then OBin EQ false else
  if String.eqb s "EQ_FLOAT" then OBin EQ true else
  if String.eqb s "NEQ_INT" then OBin NEQ false else
  if String.eqb s "NEQ_FLOAT" then OBin NEQ true else
  OUndef.

(** opTypeToString, DFCIRPassesUtils.cpp:64-90 *)
Definition class_name (c : ocls) : string :=
  match c with
  | OBin ADD false => "ADD_INT" | OBin ADD true => "ADD_FLOAT"
  | OBin SUB false => "SUB_INT" | OBin SUB true => "SUB_FLOAT"
  | OBin MUL false => "MUL_INT" | OBin MUL true => "MUL_FLOAT"
  | OBin DIV false => "DIV_INT" | OBin DIV true => "DIV_FLOAT"
  | ONeg false => "NEG_INT" | ONeg true => "NEG_FLOAT"
  | OBin LESS false => "LESS_INT" | OBin LESS true => "LESS_FLOAT"
  | OBin LESSEQ false => "LESSEQ_INT" | OBin LESSEQ true => "LESSEQ_FLOAT"
  | OBin GREATER false => "GREATER_INT" | OBin GREATER true => "GREATER_FLOAT"
  | OBin GREATEREQ false => "GREATEREQ_INT" | OBin GREATEREQ true => "GREATEREQ_FLOAT"
  | OBin EQ false => "EQ_INT" | OBin EQ true => "EQ_FLOAT"
  | OBin NEQ false => "NEQ_INT" | OBin NEQ true => "NEQ_FLOAT"
  | _ => "<unknown>"
  end.

Definition ocls_eq_dec (a b : ocls) : {a = b} + {a <> b}.
Proof. repeat decide equality. Defined.
(** [internalOps[op] = val]: a JSON integer is converted to uint16_t *)
Definition cfg_set (cfg : latcfg) (c : ocls) (v : Z) : latcfg :=
  fun x => if ocls_eq_dec x c then Some v else cfg x.
(** parseInternalOpsConfig, options.h:314-319.  [None]: a value of another type (an
    exception, or a conversion that is not modelled). *)
Fixpoint add_fields (l : list (string * json)) (cfg : latcfg) : option latcfg :=
  match l with
  | [] => Some cfg
  | (k, JInt z) :: l' => add_fields l' (cfg_set cfg (field_class k) (u16 z))
  | _ => None
  end.
Definition no_cfg : latcfg := fun _ => None.
Definition parse_internal (j : json) : option latcfg :=
  match member j "dfcir" with
  | None => Some no_cfg
  | Some (JObj l) => add_fields l no_cfg
  | Some _ => None
  end.

(** DFCIRProcessor::DFCIRProcessor, dfcir_processor.cpp:48-54 *)
Definition processor_cfg (cfg : latcfg) : latcfg := cfg_set cfg OUndef 0.
