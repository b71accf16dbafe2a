(** * The generator of the operator library.

    Models FIRRTLStubsGeneratorPass.cpp (/repo/src/model/dfcir/lib/dfcir/passes) together
    with the template it fills in, /repo/src/model/dfcir/templates/stubs.tpl.  The output
    is the abstract syntax of the Verilog text ([Verilog.v]); CTemplate's textual
    substitution, the header comment and the names of the ports (always res1, arg1, arg2,
    clk: DFCIRToFIRRTLPass.cpp:330-376) are not modelled. *)
From Coq Require Import ZArith Bool List String Ascii.
From Verif Require Import Verilog.
Import ListNotations.
Local Open Scope Z_scope.

(** what the pass reads of an integer port type: sign and [getBitWidthOrSentinel] *)
Record ptype : Set := mkP { p_signed : bool; p_width : Z }.

(** StringRef::contains *)
Fixpoint contains (s pat : string) : bool :=
  prefix pat s || match s with EmptyString => false | String _ r => contains r pat end.

(** ModuleDefines.inc:10-38 *)
Definition ADD_MODULE := "__ADD"%string.
Definition SUB_MODULE := "__SUB"%string.
Definition MUL_MODULE := "__MUL"%string.
Definition DIV_MODULE := "__DIV"%string.
Definition NEG_MODULE := "__NEG"%string.
Definition AND_MODULE := "__AND"%string.
Definition OR_MODULE := "__OR"%string.
Definition XOR_MODULE := "__XOR"%string.
Definition LESS_MODULE := "__LESS"%string.
Definition LESSEQ_MODULE := "__LESSEQ"%string.
Definition GREATER_MODULE := "__GREATER"%string.
Definition GREATEREQ_MODULE := "__GREATEREQ"%string.
Definition EQ_MODULE := "__EQ"%string.
Definition NEQ_MODULE := "__NEQ"%string.
Definition CAST_MODULE := "__CAST"%string.
Definition BUF_MODULE := "__FIFO"%string.

(** declarations of a module as an association list *)
Definition decls (l : list (vname * vdecl)) (n : vname) : option vdecl :=
  match List.find (fun p => vname_eqb (fst p) n) l with
  | Some (_, d) => Some d
  | None => None
  end.

(** processFIFOModule (:40-54) and the FIFO_MODULES section (stubs.tpl:12-24).
    [LATENCY] is printed as [latency - 1] (:219), an unsigned 32-bit number: the depth of
    the memory is [latency] for a positive latency ([latency = 0] never reaches this
    code, Sched.v inserts buffers of positive size only). *)
Definition fifo_module (res : ptype) (lat : Z) : vmodule :=
  let w := p_width res in
  let L := lat - 1 in
  mkV (decls [(ARG1, DNet false w); (RES1, DNet false w); (REG, DMem w (L + 1))])
      [(RES1, VMem REG L)]
      (Some (L, VNet ARG1)).

(** processSimpleCastModule (:56-91); COMB_CAST_MODULES (stubs.tpl:25-31) for latency 0,
    CAST_MODULES (stubs.tpl:32-46) otherwise *)
Definition cast_module (res a1 : ptype) (lat : Z) : vmodule :=
  let w2 := p_width res in
  let w1 := p_width a1 in
  let rep := Z.max (w2 - w1) 0 in
  let cat := Z.max w2 w1 in
  let rv := if p_signed res then VBit ARG1 (w1 - 1) else VZero in
  let L := lat - 1 in
  if lat =? 0 then
    mkV (decls [(ARG1, DNet false w1); (RES1, DNet false w2); (CATW, DNet false cat)])
        [(CATW, VCat (VRepl rep rv) (VNet ARG1)); (RES1, VPart CATW (w2 - 1))]
        None
  else
    mkV (decls [(ARG1, DNet false w1); (RES1, DNet false w2); (REG, DMem w1 (L + 1));
                (CATW, DNet false cat)])
        [(CATW, VCat (VRepl rep rv) (VMem REG L)); (RES1, VPart CATW (w2 - 1))]
        (Some (L, VNet ARG1)).

(** the dispatch on the module name, processBinModule :94-128 *)
Definition bin_op_of_name (name : string) : option vop :=
  if contains name ADD_MODULE then Some Vadd
  else if contains name SUB_MODULE then Some Vsub
  else if contains name MUL_MODULE then Some Vmul
  else if contains name LESSEQ_MODULE then Some Vle
  else if contains name GREATEREQ_MODULE then Some Vge
  else if contains name LESS_MODULE then Some Vlt
  else if contains name GREATER_MODULE then Some Vgt
  else if contains name EQ_MODULE then Some Veq
  else if contains name NEQ_MODULE then Some Vne
  else if contains name AND_MODULE then Some Vand
  else if contains name OR_MODULE then Some Vor
  else if contains name XOR_MODULE then Some Vxor
  else None.

(** processBinModule :130-185; COMB_BINARY_MODULES (stubs.tpl:47-62) for latency 0,
    BINARY_MODULES (stubs.tpl:63-86) otherwise.  With latency 0 [REPEAT_VAL3] is printed as
    [r[-1][...]] (:178-179) although [r] is a vector. *)
Definition bin_module (o : vop) (res a1 a2 : ptype) (lat : Z) : vmodule :=
  let w3 := p_width res in
  let w1 := p_width a1 in
  let w2 := p_width a2 in
  let s3 := p_signed res in
  let rw := if is_rel o then 1 else Z.max w1 w2 in
  let pw := Z.max w1 w2 in
  let rep1 := Z.max (rw - w1) 0 in
  let rep2 := Z.max (rw - w2) 0 in
  let rep3 := Z.max (w3 - rw) 0 in
  let cat := Z.max w3 rw in
  let rv1 := if s3 then VBit ARG1 (w1 - 1) else VZero in
  let rv2 := if s3 then VBit ARG2 (w2 - 1) else VZero in
  let rv3 := if s3 then VMemBit REG (lat - 1) (rw - 1) else VZero in
  let L := lat - 1 in
  let ports := [(ARG1, DNet (p_signed a1) w1); (ARG2, DNet (p_signed a2) w2);
                (RES1, DNet s3 w3); (CATW, DNet false cat);
                (ARG1P, DNet (p_signed a1) pw); (ARG2P, DNet (p_signed a2) pw)] in
  let prep := [(ARG1P, VCat (VRepl rep1 rv1) (VNet ARG1));
               (ARG2P, VCat (VRepl rep2 rv2) (VNet ARG2))] in
  let body := VBin o (VNet ARG1P) (VNet ARG2P) in
  if lat =? 0 then
    mkV (decls (ports ++ [(REG, DNet false rw)]))
        (prep ++ [(REG, body); (CATW, VCat (VRepl rep3 rv3) (VNet REG)); (RES1, VPart CATW (w3 - 1))])
        None
  else
    mkV (decls (ports ++ [(REG, DMem rw (L + 1))]))
        (prep ++ [(CATW, VCat (VRepl rep3 rv3) (VMem REG L)); (RES1, VPart CATW (w3 - 1))])
        (Some (L, body)).

(** fillDictionary :194-221 for one extern module: name, port types (result first, the
    clock left out) and the [__latency] attribute.  A module whose ports do not have the
    shape the method expects reads a port out of range: [None] is also used for that (it
    does not happen: DFCIRToFIRRTLPass.cpp:407-420 creates the ports from the operation).
    [None] otherwise means that nothing is generated and the pass goes on (:212-214). *)
Definition gen_module (name : string) (ports : list ptype) (lat : Z) : option vmodule :=
  if contains name BUF_MODULE then
    match ports with res :: _ => Some (fifo_module res lat) | _ => None end
  else if contains name CAST_MODULE then
    match ports with res :: a1 :: _ => Some (cast_module res a1 lat) | _ => None end
  else
    match bin_op_of_name name with
    | Some o => match ports with
                | res :: a1 :: a2 :: _ => Some (bin_module o res a1 a2 lat)
                | _ => None
                end
    | None => None
    end.

(** the produced library: fillDictionary over the extern modules of the circuit *)
Definition extmod : Type := string * list ptype * Z.
Definition gen_library (ms : list extmod) : list (string * vmodule) :=
  flat_map (fun m => match gen_module (fst (fst m)) (snd (fst m)) (snd m) with
                     | Some v => [(fst (fst m), v)]
                     | None => []
                     end) ms.
