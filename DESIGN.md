# Formal model of ispras/utopia-hls in Rocq/Coq 8.16.1

## 1. Trusted base

* **Coq's kernel** (8.16.1), including `vm_compute`; `coqchk` re-checks everything without the VM.
* **Axioms: none.**  Every `Properties*.v` file ends with one `Print Assumptions` over the tuple of all its
  theorems (`Properties<X>_theorems`); each prints *Closed under the global context*.  No axiom of the standard
  library (functional extensionality, classical logic, reals, ...) is used.  `coqchk` on the whole
  library context lists `Coq.ssr.ssrunder.Under_rel*`, which stdpp loads and no theorem here uses.
* **The reading of the C++ source.**  Each model definition carries the file and lines it models and the
  simplifications made.  Nothing was compiled or run; `/repo` was read as text.
* **Meaning given here to languages outside the repository** (specification side, to be read as such):
  SystemVerilog constructs used in `stubs.tpl` (`Verilog.v`), FIRRTL primitive operations and CIRCT's
  multi-bit multiplexer (`Firrtl.v`), extern-module instances and registers (`RtlSpec.v`), GF(2^8), Magma,
  Kuznechik (`CryptoSpec.v`, written from GOST R 34.12-2015; Magma test vectors of RFC 8891 are checked as
  examples, the RFC 7801 vector for Kuznechik was evaluated once outside the build because `coqchk` has no VM).
* **Parameters of theorems** (quantified, not assumed): lp_solve is a function; `trusted_solver` states that it
  returns an optimal corner of the problem at hand when it reports success and reports success when the problem
  has a solution.  Floating-point rounding in the pipeliner is any monotone function fixing 0, `floatEps` any
  positive number.  Iteration order of hash sets and hash maps is an arbitrary permutation.  In particular the topological sort
  meets the start nodes of a kernel in any order (`sorts`, KernelSort.v), so every theorem about a compiled kernel is
  about every program the front end may emit for it.  The operator
  interpretation in the stream theorems is an arbitrary function.

## 2. What is modelled

| code | file of the model | remarks |
|------|-------------------|---------|
| `dfcxx/lib/dfcxx/utils.cpp` topSort; `DFCIRSorting`-style copy in `DFCIRGraph.h` | `TopSort.v`, `KernelSort.v` | statement by statement |
| `types/*.cpp`, `type_builder.cpp`, `Kernel::df*` | `Types.v` | field widths wrap at 8/16 bits as in C++ |
| `vars/*.cpp`, `node.h`, `graph.cpp`, `io.cpp`, `control.cpp`, `offset.cpp`, `constant.cpp`, `kernel_meta.cpp`, `kernel_storage`, `kernel.cpp` (ctor, check) | `Graph.v`, `Value.v`, `Word.v` | one `cmd` per API call; throwing and undefined behaviour are distinct error outcomes |
| `Kernel::instance`, rebindInput/Output, deleteNode, transfer, resetNodeName, destructors | `Instance.v` | |
| `simulator.cpp` (readInput, processOp, runSim, genHeader, writeOutput) | `Sim.v`, `SimInput.v` | files as strings |
| `dfcir_builder.cpp` | `Dfcir.v` | C++ leaves the order of operand evaluation open; it only changes value numbers |
| `DFCIRScheduleUtils.cpp`, `DFCIRASAPSchedulerPass.cpp`, `DFCIRPassesUtils.cpp`, `DFCIRGraph.h` | `Sched.v` | int8/int32/int64 wrap-around kept |
| `DFCIRLinearSchedulerPass.cpp`, `DFCIRLPUtils.cpp` | `Linear.v` | |
| `DFCIRCombPipelinePass.cpp`, `DFCIRPipelineUtils.cpp` | `Pipeline.v` | |
| `options.h` (latency file), `dfcir_processor.cpp` ctor, `DFCIRPasses` latency map | `Latency.v` | JSON as a tree, not as text |
| `stubs.tpl`, `FIRRTLStubsGeneratorPass.cpp` | `Stubs.v`, `Verilog.v` | expanded text as abstract syntax |
| `DFCIRToFIRRTLPass.cpp` | `Naming.v`, `Lower.v`, `RtlSpec.v` | one circuit module; result of the conversion, not the order in which MLIR applies patterns |
| `main.cpp`, `options.h`, `Kernel::compile/simulate`, `convertAndPrint` | `Driver.v` | effects (files written, exit code), not argument text |
| `Kernel::compileDot` | `Dot.v` | graph passed to graphviz |
| `DFCIROperations.td`, `DFCIRTypes.td` (operand and result constraints) | `Verify.v` | attributes and regions not checked |
| `DFCIROperations.cpp`, assembly formats of `DFCIROperations.td`, `DFCIRTypes.td` | `Asm.v`, `AsmBuild.v` | tokens, not characters |
| `examples/idct/idct.h` | `Idct.v` | constructor as a program over the modelled API |
| `examples/opt_kuznechik/opt_kuznechik_encoder.h`, `examples/kuznechik_inst/kuznechik_enc_inst.h` | `ExampleKuz.v` | constructors as programs over the modelled API; the decoders of both, `galois8mul_opt.h`, `examples/galois8mul`, `examples/magma` make the calls of the standard library's kernels (compared by reading) |
| `examples/kuznechik/kuznechik_{encoder,decoder}.h` | `InlineKuz.v` | constructors as programs over the modelled API |
| `examples/row_idct/row_idct.h` | `RowIdct.v` | constructor as a program over the modelled API |
| `examples/{addconst,polynomial2,polynomial2_inst,scalar3,matrixmul2,muxmul,movingsum}` | `Golden.v`, `PropertiesExamples.v` | as lists of calls |
| `std/dfcxx/std` (Galois8Mul, Magma*, Kuznechik*) | `StdKernels.v` | constructors as programs over the modelled API |

Not modelled: the text of JSON, CLI11's parsing, CTemplate's expansion, MLIR's lexer and generic printing, CIRCT's lowering from FIRRTL to Verilog and its verifier (so "ill typed FIRRTL" is a statement about
the types, not about a run of firtool), Verilog x-values, clock and reset details beyond one clock, memory
allocation failure.

Each `...Spec.v` file holds specification vocabulary only; property theorems are in `Properties*.v`; every other
`...Proofs/Facts/Flow/Main/...v` file is proof.  Histories: `icmd` = an API call, an `instance` call, or the end of
a kernel's life; `elaborates F h w` = all calls of `h` return and respect the calling discipline; `built F h w order`
= moreover one complete kernel remains and it sorts.

## 3. Properties

`partial` with a `Cxx_refuted` theorem means: the claim a user would rely on is **false of the code**; the refutation
is proved on a concrete kernel and `Cxx_partial` proves the claim on the largest class found for which it is true.

| id | claim | status | model and proof |
|----|-------|--------|-----------------|
| C01 | Kernel construction keeps the dataflow graph well formed | proved | `Graph.v` (state machine over API calls); invariant `WF` by induction over the call list (`BuilderProofs*.v`) |
| C02 | A kernel without feedback connects is acyclic and completely reachable | proved | ranking by creation time, `BuilderTopo.v`; reachability by induction |
| C03 | Topological sorting returns each node exactly once, operands first | proved | `TopSort.v` statement by statement (explicit stack, per-node index); DFS loop invariant, fuel bound proved sufficient |
| C04 | Topological sorting rejects graphs that have no topological order | partial | same model; cyclic witness refutes; exact characterisation of success |
| C05 | Equal constants share a node, different constants never do | proved | `createOrUseConst` in `Graph.v`; invariant: one constant node per (type, value) |
| C06 | Constant folding agrees with simulation | partial | `Value.v` (C++ operators on 64-bit words); case analysis; counterexample for signed comparisons |
| C07 | check() accepts exactly the kernels in which every declared variable is driven | proved | `check()` as a scan of the node map; equivalence |
| C08 | Bit slices are order-insensitive, exact in width and range checked | proved | `bits` call, `HwSpec`/`RtlSpec` meaning, `Lower.v` FIRRTL; `SliceFacts.v` |
| C09 | Splitting a value and concatenating the parts restores it | proved | same files; arithmetic on Z for all widths |
| C10 | Type equality is structural equality and is an equivalence | proved | `Types.v` |
| C11 | Simulation satisfies every node's equation and is order-independent | proved | `Sim.v` (one tick over the sorted nodes); unique solution along the topological order |
| C12 | Simulator arithmetic is exact modulo 2^w for ring operations | proved | `Sim.v`; congruence modulo 2^w by induction over the order |
| C13 | Simulator results agree with w-bit hardware for every integer operator | partial | `HwSpec.v` bit-accurate meaning; induction over the order; counterexamples |
| C14 | VCD values decode to the simulated values | partial | `SimInput.v` (valueToBinary, writeOutput); decoding function in `SimInputSpec.v` |
| C15 | The VCD has one header entry per node, distinct names, and consecutive ticks | partial | `SimInput.v` (genHeader); induction over nodes; counterexample |
| C16 | The simulation-input parser assigns each tick exactly the values written for it | partial | `SimInput.v` (file text to ticks); specification = printed form of a list of blocks |
| C17 | The parser never writes outside its 200-entry tick buffers | partial | same; buffers as partial memory, out-of-bounds access is an error outcome |
| C18 | Kernel-to-DFCIR translation preserves operands and multiplexer arms | proved | `Dfcir.v` (DFCIRBuilder); equality of stream functions for any interpretation |
| C19 | ASAP never asks for a negative delay | proved | `Sched.v` (graph, ASAP, buffer insertion); loop invariant |
| C20 | ASAP balances all reconvergent paths | proved | `SchedGraph.v` |
| C21 | ASAP is optimal: earliest start times and exact reported output latency | proved | `SchedGraph.v`: ASAP = longest path |
| C22 | Scheduled hardware computes the kernel's stream function, delayed | partial | cycle-accurate circuits `StreamSpec.circuit`; simulation argument (`SchedStream/Main/Final.v`) |
| C23 | All outputs of a scheduled kernel belong to the same position in the same cycle | partial | same; counterexample |
| C24 | Any feasible LP schedule yields a synchronised circuit | proved | `Linear.v` (LP as a list of constraints over Q); any optimal corner is an integral schedule |
| C25 | A scheduler failure is reported, never silently ignored | partial | `Linear.v`; feasibility of the LP |
| C26 | Latency configuration is applied to exactly the configured operations | partial | `Latency.v` |
| C27 | Pipeline layering places every operation after its operands | proved | `Pipeline.v`; induction over layers |
| C28 | Cascades are monotone and within the requested number of stages | proved | `Pipeline.v`; rounding and epsilon are parameters |
| C29 | Combinational pipelining puts exactly the requested number of registers on every input-to-output path | proved | `PipelineMain.v`; path induction |
| C30 | All outputs of a combinationally pipelined kernel have latency `stages` | partial | same; counterexample |
| C31 | FIFO library module delays its input by exactly n cycles | proved | `Stubs.v` + `Verilog.v` (clocked semantics of the template text) |
| C32 | Library operator modules compute their operation modulo 2^w after their latency | partial | same; exact set of correct modules |
| C33 | Library modules are correct for operands of different widths and signedness | partial | same |
| C34 | Casts preserve the numeric value whenever it fits the target type | partial | same |
| C35 | Every instantiated library module is generated | partial | `Naming.v` (what is instantiated) against `Stubs.v` (what is generated) |
| C36 | Library module names identify operation, types and latency | partial | `Naming.v`; decimal printing injectivity |
| C37 | Shifts in hardware keep the operand width and mean multiplication/division by 2^n | partial | `Lower.v`, `Firrtl.v` |
| C38 | Connecting instance ports preserves graph well-formedness and function | partial | `Instance.v`; graph surgery (`InstanceBind/Loop/Main/Flow.v`) |
| C39 | Constants always belong to the kernel under construction | partial | `Instance.v` (kernel stack, destruction); stack invariant |
| C40 | Galois8Mul multiplies in GF(2^8) modulo x^8+x^7+x^6+x+1 | proved | `StdKernels.v` (constructors as programs over the API), program logic `ProgRules..ProgTop.v`; carry-less polynomials in `CryptoSpec.v` |
| C41 | Table-driven Galois multiplication equals the generic one | proved | same; 8x256 table entries checked by computation, lifted to all streams |
| C42 | Magma decryption inverts encryption | proved | same; Feistel argument; Magma written from the standard |
| C43 | Kuznechik decryption inverts encryption | proved | same; S, L bijective; Kuznechik written from the standard |
| C44 | Casting to the same type is the identity and adds no operation | partial | `Graph.v` cast; counterexample |
| C45 | FIRRTL port types have the width of the DFCxx type | partial | `Naming.v`, `Lower.v` types against `Types.v` |
| C46 | The latency the compiler reports is the delay of the slowest output | partial | `Sched.v`, `Linear.v` reported value |
| C47 | Combinational pipelining completes on every kernel that can be scheduled | partial | `Pipeline.v` fuel-free progress; divergence witness |
| C48 | The type of every variable follows from its operation and its operands' types | proved | `TypingProofs.v` invariant |
| C49 | A latency configuration file in the documented format configures the documented operations | partial | `Latency.v` on JSON values |
| C50 | The generated hardware computes the kernel's function | proved | composition: history -> DFCIR -> scheduler -> FIRRTL + library (`RtlSpec.rtl`) -> streams (`RtlProofs/Flow/Run.v`); `C50_actual`: the operators read as built (`act_op`) |
| C51 | Growing a kernel never changes what existing variables denote | proved | `KernelValues.v` frame argument |
| C52 | The command-line tool writes exactly the requested files and its exit code reports success | partial | `Driver.v`: the passes and the driver as a list of effects on files; case analysis on the stage reached (`DriverProofs.v`), joined with C19, C47, C50, C54 |
| C53 | The DOT drawing shows the kernel | partial | `Dot.v`: naming state threaded through the node walk; invariant: the naming is injective on visited nodes (`DotProofs.v`) |
| C54 | A checked kernel passes the verifier of the intermediate language | partial | `Verify.v` (the checks of `DFCIROperations.td`), kept by buffer insertion and offset erasure (`VerifyProofs.v`), decided on the kernel (`VerifyFlow.v`) |
| C55 | DFCIR files can be read back | partial | `Asm.v` (print and parse of every operation on token lists), `AsmSpec.v` (well-formed, same up to renaming), `AsmProofs.v` (round trip by induction on the program), `AsmBuild.v`/`AsmFlow.v` (what the compiler and the schedulers write is well-formed), `Golden.v` (reference files of the repository) |
| C56 | The hardware module has the declared interface | partial | `Interface.v` (KernelOpConversionPattern: the list of ports), `InterfaceSpec.v` (the ports a history of API calls declares, computed from the calls alone), `InterfaceProofs.v` (every pass keeps what is read off port operations; induction over the calls, instances and destructions for the port variables of each kernel; the program has one port statement for each) |
| C57 | The example kernels compute their formulas | proved | concrete histories, checked by computation, then `C50_*` and rules for 32-bit values (`Examples.v`) |
| C58 | The IDCT example computes its transform | proved | the constructor as a program (`Idct.v`) followed call by call with rules for signed values read as the operators are built (`FlatRules.v`, `FlatCalls.v`, `IdctKernel.v`, `IdctBody.v`), loop invariants over the 64 cells, then `C50_actual` (`FlatTop.v`); the transform is in `IdctSpec.v` |
| C59 | The RowIDCT example computes the pass over the rows | proved | as C58, with loops over 64 named inputs and outputs (`RowIdct.v`, `RowKernel.v`, `RowBody.v`); the pass is `row_out` in `RowSpec.v` |
| C60 | The example Kuznechik kernels compute the standard's cipher | proved | as C43 (`ExampleKuz.v`, `KuzExample.v`, `InlineKuz.v`, `InlineMul.v`, `InlineCipher.v`): the substitution carries 136 bits, of which the first linear step reads the low 128; the inlined product's first iteration works on constants |

## 4. What the proofs found in the code

Scheduling: outputs of different depth are not aligned (C23, C30); an output that is also read is delayed twice
(C22) and makes the combinational pipeliner loop (C47); offsets make it dereference null (C47); operand numbers
live in an `int8_t`, offsets wrap from 64 to 32 bits, latencies are taken modulo 2^16 (hypotheses of C22, C49);
a failed LP only prints its status and an unbalanced circuit is emitted (C25); the linear scheduler reports latency 0
(C46); comparisons of floats use the integer latencies (C26); the documented flat latency file is ignored (C49).

Lowering: signed and/or/xor/not are ill-typed FIRRTL (C45); signed left shifts keep the sign bit (C37); DIV and NEG
modules are instantiated and never generated, float operations get integer modules (C35); signed combinational
add/sub/mul modules read `r[-1]` (C32); operands are extended by the result's signedness (C33); casts that change
signedness while widening are wrong (C34); signed and unsigned FIFOs share a module (C36).

Interface: a port may be called `clk` like the implicit clock and ports may share a name; the order of the module's ports
follows the iteration order of an `unordered_set` of pointers; an unbound output of a sub-kernel silently becomes a port of the
top module (C56).

Verifier: `-s`, `~s` of a scalar and a mux controlled by a scalar pass `check()` and simulate, but fail MLIR's verifier after the
scheduler, when the unscheduled DFCIR is already printed (C54).

Driver: a failed compile leaves the requested files truncated (C52_failure); a run that only asks for the unscheduled program
still schedules and lowers, and fails with it (C52_refuted); `--config` has no effect with the default scheduler (C52_pipelining);
generated DOT names collide with ports called `node<k>`, and names are not quoted (C53).

Construction: cyclic kernels pass `check()` and are sorted (C04); folding and simulating signed comparisons disagree
(C06); types are never shared so casts between equal types add operations (C44); sub-kernel corner cases (C38);
constants of a younger sibling kernel go to the older kernel, destruction order matters (C39).

Examples: the 13 bits between the passes of `IDCT` lose the sign of row results from 4096 on: the block with the single coefficient
512 (of -2048..2047) gives -64 everywhere instead of 64 (C58_width_refuted).

Simulation: carries above the declared width (C13); user names can collide with generated ones (C15); the 201st
block of an input file overruns (C16, C17).

## 5. Limits of the statements

* C50 needs every binding of a sub-kernel to have the hardware type of its port (`bindings_typed`): raw bits and unsigned integers of the same width count as the same type.
* Refuted statements are existential: they exhibit one kernel; the accompanying `_partial`/`_exact` theorems are the
  universal part.
* Float arithmetic is left uninterpreted throughout.

## 6. Tests of the theorems

`seeded/LOG.jsonl` lists every wrong program tried: the definition edited, the edit, the claim broken, the lemmas that
stopped proving, and the theorems tightened as a result.
