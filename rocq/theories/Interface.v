(** * The ports of the generated hardware module.

    Models KernelOpConversionPattern, DFCIRToFIRRTLPass.cpp:123-205
    (/repo/src/model/dfcir/lib/dfcir/passes), which replaces the one [dfcir.kernel] by a
    circuit with one module of the same name.  Not modelled here: the name of the circuit and
    of the module (a copy of the kernel's name), and the replacement of the uses of a port
    operation by the module's argument (Lower.v and Rtl.v). *)
From Coq Require Import ZArith Bool String.
From stdpp Require Import gmap list.
From Verif Require Import Types Value Graph Dfcir Stubs Verilog Naming.
Local Open Scope string_scope.

(** the type of a port: ClockType, or what FIRRTLTypeConverter makes of a type (Naming.v) *)
Inductive hwtype : Type := HClock | HBits (p : ptype).
(** circt::firrtl::PortInfo: name, type, direction ([true]: In) *)
Record hwport : Type := mkPort { pt_name : string; pt_type : hwtype; pt_in : bool }.

(** CLOCK_ARG, ModuleDefines.inc:39 *)
Definition CLOCK_ARG : string := "clk".

(** one turn of the loop over the kernel's block, :150-170.  NamedOpVal is implemented by the
    four port operations (DFCIROperations.td:38, 54, 70, 86), InputOpInterface by the two
    input operations among them (:38, :70). *)
Definition stmt_port (s : stmt) : option hwport :=
  match s with
  | Def _ (DIn _ nm) _ t _ _ => Some (mkPort nm (HBits (port_type t)) true)
  | Def _ (DOut _ nm) _ t _ _ => Some (mkPort nm (HBits (port_type t)) false)
  | _ => None
  end.
(** the whole list, :146-176: the ports in the order of the operations, then the clock *)
Definition module_ports (P : program) : list hwport :=
  omap stmt_port P ++ [mkPort CLOCK_ARG HClock true].
