(** * What the driver must write (specification). *)
From Coq Require Import ZArith Bool String.
From stdpp Require Import gmap list.
From Verif Require Import Types Value Graph GraphSpec Dfcir Sched Stubs Naming Verify Dot Driver.
Local Open Scope Z_scope.

(** the scheduled program goes all the way to a circuit *)
Definition accepted (T : tools) (Q : program) : Prop :=
  verified Q /\ (forall r d k t l a, Def r (DOffset d) k t l a ∉ Q) /\ t_firrtl T Q = true.

(** the contents of the file of each format for a kernel with program [P] that is
    scheduled as [Q]: the file of a stage that is not reached is empty *)
Inductive artefact (T : tools) (w : world) (k : kid) (P Q : program) : fmt -> list text -> Prop :=
| art_dot d : compile_dot w (t_hash T) k = Ok d -> artefact T w k P Q DOT [XDot d]
| art_dfcir : artefact T w k P Q UnscheduledDFCIR [XDfcir P]
| art_scheduled : verified Q -> artefact T w k P Q ScheduledDFCIR [XDfcir Q]
| art_firrtl : accepted T Q -> artefact T w k P Q FIRRTL [XFirrtl Q]
| art_library : accepted T Q -> artefact T w k P Q SVLibrary [XLibrary (gen_library (ext_modules Q))]
| art_verilog s : accepted T Q -> t_verilog T Q = Some s -> artefact T w k P Q SystemVerilog [XVerilog s]
| art_no_dfcir : ~ verified Q -> artefact T w k P Q ScheduledDFCIR []
| art_no_circuit f : ~ accepted T Q -> f ∈ [FIRRTL; SVLibrary; SystemVerilog] -> artefact T w k P Q f []
| art_no_verilog : t_verilog T Q = None -> artefact T w k P Q SystemVerilog [].

(** different formats go to different files *)
Definition distinct (paths : fmt -> string) : Prop :=
  forall f g, paths f <> ""%string -> paths f = paths g -> f = g.
