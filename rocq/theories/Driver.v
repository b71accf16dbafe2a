(** * The command-line driver: which files are written, with what, and the exit code.

    Models main.cpp:43-84, options.h:162-343, Kernel::compile and Kernel::simulate
    (kernel.cpp:186-245), outputPathsToVector (utils.cpp:17-23), DFCIRProcessor
    (dfcir_processor.cpp:48-125).
    Simplified: the text of arguments is not parsed (an option is there or not, with a value
    or not); every path that is opened can be opened (the error code is ignored by the code,
    kernel.cpp:195-198); a file is the list of what was printed into it, the printers
    themselves are not modelled; the time stamps are left out. *)
From Coq Require Import ZArith QArith Bool String.
From stdpp Require Import gmap list.
From Verif Require Import Types Value Graph GraphSpec KernelSort TopSort Dfcir Sched Linear Pipeline Latency Verilog Stubs Naming Verify Sim SimInput Dot.
Local Open Scope Z_scope.

(** OutputFormatID and Scheduler, typedefs.h:53-70; DFOptionsConfig and its default, :90-99 *)
Inductive fmt := SystemVerilog | SVLibrary | UnscheduledDFCIR | ScheduledDFCIR | FIRRTL | DOT.
Global Instance fmt_eq : EqDecision fmt.
Proof. solve_decision. Defined.
Definition formats : list fmt := [SystemVerilog; SVLibrary; UnscheduledDFCIR; ScheduledDFCIR; FIRRTL; DOT].
Inductive sched := SLinear | SASAP | SCombPipelining.
Record opts := mkOpts { o_sched : sched; o_stages : Z }.
Definition default_opts : opts := mkOpts SCombPipelining 0.

(** what is printed into a file *)
Inductive text :=
| XDfcir (P : program)                         (** module.print of a DFCIR module *)
| XFirrtl (Q : program)                        (** module.print of the circuit made from [Q] *)
| XLibrary (l : list (string * vmodule))
| XVerilog (s : string)
| XDot (d : list dot_elem)
| XVcd (v : vcd).
Inductive effect := Open (path : string) | Write (path : string) (x : text).
Inductive ending := Returns (b : bool) | Crashes.

(** what is not part of this code base, or not determined by it: the solver, the rounding
    of floating-point numbers, the iteration order of hash tables, whether the FIRRTL
    that was made is valid, CIRCT's passes from FIRRTL to SystemVerilog *)
Record tools := {
  t_solve : solver; t_rnd : Q -> Q; t_eps : Q;
  t_perm : list (schan * Z) -> list (schan * Z); t_hash : list nat -> list nat;
  t_firrtl : program -> bool; t_verilog : program -> option string; t_flt : fltops }.

(** ** The passes of convertAndPrint *)
Inductive mod_ := MDfcir (P : program) | MFirrtl (Q : program) | MHw.
Inductive pres := Next (m : mod_) | Failure | Crash.
Definition pass := mod_ -> list effect * pres.

Section Compile.
Variable T : tools.

(** the verifier that MLIR runs after every pass *)
Definition valid (m : mod_) : bool :=
  match m with
  | MDfcir P => check_program verify_op ∅ P
  | MFirrtl Q => t_firrtl T Q
  | MHw => true
  end.
(** PassManager::run: stops at the first failure *)
Fixpoint run_passes (ps : list pass) (m : mod_) : list effect * ending :=
  match ps with
  | [] => ([], Returns true)
  | p :: ps' =>
      match p m with
      | (es, Next m') => if valid m' then let (es', e) := run_passes ps' m' in (es ++ es', e)%list else (es, Returns false)
      | (es, Failure) => (es, Returns false)
      | (es, Crash) => (es, Crashes)
      end
  end.

(** dfcir_processor.cpp:71-81; a scheduler that asserts or does not terminate is a crash *)
Definition schedule (cfg : latcfg) (o : opts) (P : program) : option program :=
  match o_sched o with
  | SLinear => fst <$> linear_pass (t_solve T) (processor_cfg cfg) (t_perm T) P
  | SASAP => fst <$> asap_pass (processor_cfg cfg) (t_perm T) P
  | SCombPipelining => comb_pass (t_rnd T) (t_eps T) (o_stages o) (t_perm T) P
  end.
Definition sched_pass (cfg : latcfg) (o : opts) : pass := fun m =>
  match m with
  | MDfcir P => ([], match schedule cfg o P with Some Q => Next (MDfcir Q) | None => Crash end)
  | _ => ([], Failure)
  end.
(** DFCIRDumperPass, dfcir_processor.cpp:23-45 *)
Definition dump_pass (path : string) : pass := fun m =>
  ([Write path (match m with MFirrtl Q => XFirrtl Q | MDfcir P => XDfcir P | MHw => XVerilog "" end)], Next m).
(** DFCIRToFIRRTLPass: an offset has no conversion pattern, so the conversion fails *)
Definition is_offset (s : stmt) : bool := match s with Def _ (DOffset _) _ _ _ _ => true | _ => false end.
Definition firrtl_pass : pass := fun m =>
  match m with
  | MDfcir P => ([], if existsb is_offset P then Failure else Next (MFirrtl P))
  | _ => ([], Failure)
  end.
(** FIRRTLStubGeneratorPass, FIRRTLStubsGeneratorPass.cpp:232-258: prints, changes nothing *)
Definition stubs_pass (path : string) : pass := fun m =>
  match m with
  | MFirrtl Q => ([Write path (XLibrary (gen_library (ext_modules Q)))], Next m)
  | _ => ([], Failure)
  end.
(** dfcir_processor.cpp:102-119 *)
Definition verilog_pass (path : string) : pass := fun m =>
  match m with
  | MFirrtl Q => match t_verilog T Q with Some s => ([Write path (XVerilog s)], Next MHw) | None => ([], Failure) end
  | _ => ([], Failure)
  end.

(** [if (auto *stream = outputStreams[...])]: there is a stream iff the path is not empty *)
Definition requested (paths : fmt -> string) (f : fmt) : bool := negb (String.eqb (paths f) "").
Definition on (paths : fmt -> string) (f : fmt) {A} (l : list A) : list A := if requested paths f then l else [].

(** convertAndPrint, dfcir_processor.cpp:56-125 *)
Definition convert_and_print (cfg : latcfg) (o : opts) (paths : fmt -> string) (P : program) : list effect * ending :=
  let ps := [sched_pass cfg o] ++ on paths ScheduledDFCIR [dump_pass (paths ScheduledDFCIR)] ++ [firrtl_pass]
         ++ on paths FIRRTL [dump_pass (paths FIRRTL)] ++ on paths SVLibrary [stubs_pass (paths SVLibrary)]
         ++ on paths SystemVerilog [verilog_pass (paths SystemVerilog)] in
  let (es, e) := run_passes ps (MDfcir P) in
  (on paths UnscheduledDFCIR [Write (paths UnscheduledDFCIR) (XDfcir P)] ++ es, e)%list.

(** Kernel::compile, kernel.cpp:186-217.  buildModule sorts the nodes (dfcir_builder.cpp:22-46);
    a failed assertion or undefined behaviour is a crash *)
Definition build_module (w : world) (k : kid) : option program :=
  match sort_by (t_hash T) w k with
  | Some (TSOk order) => match build w order with Ok P => Some P | _ => None end
  | _ => None
  end.
Definition compile (w : world) (k : kid) (cfg : latcfg) (paths : fmt -> string) (o : opts) : list effect * ending :=
  match build_module w k with
  | None => ([], Crashes)
  | Some P =>
      let opens := flat_map (fun f => on paths f [Open (paths f)]) formats in
      let rest dot := let (es, e) := convert_and_print cfg o paths P in (opens ++ dot ++ es, e)%list in
      if requested paths DOT then
        match compile_dot w (t_hash T) k with
        | Ok d => rest [Write (paths DOT) (XDot d)]
        | _ => (opens, Crashes)
        end
      else rest []
  end.

(** the overloads of compile, kernel.cpp:219-232: a map of paths, and only a scheduler *)
Definition to_vector (m : list (fmt * string)) (f : fmt) : string :=
  fold_left (fun acc p => if bool_decide (fst p = f) then snd p else acc) m ""%string.
Definition compile_sched (w : world) (k : kid) (cfg : latcfg) (m : list (fmt * string)) (s : sched) : list effect * ending :=
  compile w k cfg (to_vector m) (mkOpts s (o_stages default_opts)).

(** ** main *)
Inductive exit := Exits (code : Z) | Dies.
Definition exit_code (b : bool) : Z := if b then 0 else 1.
(** hlsMain, main.cpp:43-50; [w, k]: the kernel made by [start()] *)
Definition hls_main (w : world) (k : kid) (cfg : latcfg) (paths : fmt -> string) (o : opts) : list effect * exit :=
  match check w k with
  | Ok false => ([], Exits 1)
  | Ok true => let (es, e) := compile w k cfg paths o in (es, match e with Returns b => Exits (exit_code b) | Crashes => Dies end)
  | _ => ([], Dies)
  end.

(** Kernel::simulate, kernel.cpp:235-245 and simMain, main.cpp:52-56; [input]: the contents
    of the input file, [None] if it cannot be opened *)
Definition sim_main (w : world) (k : kid) (input : option string) (out : string) : list effect * exit :=
  match sort_by (t_hash T) w k with
  | Some (TSOk order) =>
      match input with
      | None => ([], Exits 1)
      | Some file =>
          match simulate (t_flt T) w order (t_hash T) file with
          | Some (SOk (v, _)) => ([Open out; Write out (XVcd v)], Exits 0)
          | Some SFail => ([Open out], Exits 1)
          | _ => ([Open out], Dies)
          end
      end
  | _ => ([], Dies)
  end.
End Compile.

(** the options of [hls], options.h:167-254: an option that may come without a value
    ([expected(0, 1)]) then has its default *)
Record hls_args := {
  a_config : option (option string);
  a_asap : bool; a_linear : bool; a_pipeline : option (option Z);
  a_out : fmt -> option (option string) }.
Definition value_of {A} (dflt : A) (unset : A) (a : option (option A)) : A :=
  match a with None => unset | Some None => dflt | Some (Some v) => v end.
Definition default_path (f : fmt) : string :=
  match f with
  | SystemVerilog => "output.sv" | SVLibrary => "output-lib.sv" | UnscheduledDFCIR => "dfcir.mlir"
  | ScheduledDFCIR => "scheduled-dfcir.mlir" | FIRRTL => "firrtl.mlir" | DOT => "output.dot"
  end.
Definition out_paths (a : hls_args) (f : fmt) : string := value_of (default_path f) ""%string (a_out a f).
(** the callback of the scheduler group, :189-205 *)
Definition sched_opts (a : hls_args) : opts :=
  let o1 := if a_asap a then SASAP else o_sched default_opts in
  let o2 := if a_linear a then SLinear else o1 in
  let o3 := match a_pipeline a with Some _ => SCombPipelining | None => o2 end in
  mkOpts o3 (value_of (o_stages default_opts) (o_stages default_opts) (a_pipeline a)).
(** [require_option(0, 1)] of the scheduler group and [require_option()] (at least one) of
    the output group, :186, 254: otherwise a parse error *)
Definition given {A} (o : option A) : nat := match o with Some _ => 1 | None => 0 end.
Definition args_ok (a : hls_args) : bool :=
  Nat.leb ((if a_asap a then 1 else 0) + (if a_linear a then 1 else 0) + given (a_pipeline a)) 1 &&
  existsb (fun f => negb (Nat.eqb (given (a_out a f)) 0)) formats.
(** parseLatencyConfig, :328-335: no name, or a file that cannot be read: no configuration.
    [read]: the JSON value in a file that can be read. *)
Definition latency_config (read : string -> option json) (a : hls_args) : option latcfg :=
  let file := value_of "latency.json"%string ""%string (a_config a) in
  if String.eqb file "" then Some no_cfg
  else match read file with None => Some no_cfg | Some j => parse_internal j end.
(** main with the subcommand [hls], main.cpp:58-80; [106]: CLI11's code of a failed requirement *)
Definition hls (T : tools) (read : string -> option json) (w : world) (k : kid) (a : hls_args) : list effect * exit :=
  if args_ok a then
    match latency_config read a with
    | Some cfg => hls_main T w k cfg (out_paths a) (sched_opts a)
    | None => ([], Dies)
    end
  else ([], Exits 106).

(** ** Files *)
Notation files := (gmap string (list text)).
Definition apply_effect (fs : files) (e : effect) : files :=
  match e with
  | Open p => <[p := []]> fs
  | Write p x => <[p := default [] (fs !! p) ++ [x]]> fs
  end.
Definition after (es : list effect) (fs : files) : files := fold_left apply_effect es fs.
