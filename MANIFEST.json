{
 "claims": [
  {
   "property": "C01",
   "status": "proved",
   "theorems": [
    "C01_graph_well_formed",
    "C01_call_effect"
   ],
   "note": "All histories of construction calls; effect of every single call."
  },
  {
   "property": "C02",
   "status": "proved",
   "theorems": [
    "C02_feedforward_acyclic",
    "C02_single_kernel_reachable_and_sorts"
   ],
   "note": "Acyclicity for any number of kernels; reachability for histories constructing one kernel."
  },
  {
   "property": "C03",
   "status": "proved",
   "theorems": [
    "C03_topsort_terminates",
    "C03_topsort_correct"
   ],
   "note": "Any graph, any iteration order of the start-node set."
  },
  {
   "property": "C04",
   "status": "partial",
   "theorems": [
    "C04_refuted",
    "C04_partial"
   ],
   "note": "False of the code: a cyclic kernel that passes check() is sorted without any error. Proved: sorting succeeds iff all nodes are reachable from start nodes."
  },
  {
   "property": "C05",
   "status": "proved",
   "theorems": [
    "C05_constant_sharing"
   ],
   "note": ""
  },
  {
   "property": "C06",
   "status": "partial",
   "theorems": [
    "C06_partial",
    "C06_unary_partial",
    "C06_shift_partial",
    "C06_refuted"
   ],
   "note": "False for signed <, <=, >, >= (and float comparisons): folding is signed, simulation unsigned. Proved for every other operator/type combination, for any pair of kernels."
  },
  {
   "property": "C07",
   "status": "proved",
   "theorems": [
    "C07_check"
   ],
   "note": "Also shows that a driven placeholder is still rejected."
  },
  {
   "property": "C08",
   "status": "proved",
   "theorems": [
    "C08_slice_call",
    "C08_value",
    "C08_circuit",
    "C08_reversed_dfcir"
   ],
   "note": "Call (both argument orders, throwing), value of the slice bit by bit, and the FIRRTL that is generated. The reversed-bounds bug of the FIRRTL lowering cannot be reached from the API."
  },
  {
   "property": "C09",
   "status": "proved",
   "theorems": [
    "C09_split_join",
    "C09_join_split",
    "C09_circuit",
    "C09_wide"
   ],
   "note": "For all widths below 2^16, as the property says; beyond that the width wraps (C09_wide). The simulator does not support slices and concatenations."
  },
  {
   "property": "C10",
   "status": "proved",
   "theorems": [
    "C10_type_equality"
   ],
   "note": ""
  },
  {
   "property": "C11",
   "status": "proved",
   "theorems": [
    "C11_tick",
    "C11_complete",
    "C11_kernel_order"
   ],
   "note": "Any kernel and any topological order; uniqueness among 64-bit words; the simulator finds the solution whenever one exists."
  },
  {
   "property": "C12",
   "status": "proved",
   "theorems": [
    "C12_ring_exact_mod"
   ],
   "note": ""
  },
  {
   "property": "C13",
   "status": "partial",
   "theorems": [
    "C13_partial",
    "C13_refuted"
   ],
   "note": "False: carries are kept above the declared width and comparisons are unsigned. Proved for unsigned kernels whose results fit their types."
  },
  {
   "property": "C14",
   "status": "partial",
   "theorems": [
    "C14_partial",
    "C14_refuted"
   ],
   "note": "All values of all runs for types up to 64 bits; wider types make the printing undefined (shift by >= 64), so no wider kernel has a defined run."
  },
  {
   "property": "C15",
   "status": "partial",
   "theorems": [
    "C15_partial",
    "C15_refuted"
   ],
   "note": "Consecutive ticks, header entries and widths for any file; names distinct iff the user does not call a variable nodeN or reuse a name (counterexample proved)."
  },
  {
   "property": "C16",
   "status": "partial",
   "theorems": [
    "C16_partial",
    "C16_runs_partial",
    "C16_total",
    "C16_refuted"
   ],
   "note": "From file text to VCD for 1..200 blocks; any longer file is proved to overrun the buffer (and the first line of block 201 is lost)."
  },
  {
   "property": "C17",
   "status": "partial",
   "theorems": [
    "C17_partial",
    "C17_refuted"
   ],
   "note": "Writes are always in bounds; reads are not (entry 200 of a 200-entry array)."
  },
  {
   "property": "C18",
   "status": "proved",
   "theorems": [
    "C18_translation"
   ],
   "note": "Every complete feed-forward kernel: the translation succeeds and each node of the DFCIR program has the same stream of values (multiplexer arms included), for any interpretation of the operations."
  },
  {
   "property": "C19",
   "status": "proved",
   "theorems": [
    "C19_buffers_positive",
    "C19_pass_completes",
    "C19_kernels_qualify"
   ],
   "note": "Every buffer is positive and no assertion of the pass fails; hypotheses are proved for programs obtained from kernels."
  },
  {
   "property": "C20",
   "status": "proved",
   "theorems": [
    "C20_balanced"
   ],
   "note": ""
  },
  {
   "property": "C21",
   "status": "proved",
   "theorems": [
    "C21_optimal"
   ],
   "note": ""
  },
  {
   "property": "C22",
   "status": "partial",
   "theorems": [
    "C22_partial",
    "C22_refuted"
   ],
   "note": "Proved from kernel history to the behaviour of the buffered circuit for schedulable kernels (at most 127 non-constant operands per node, offsets within int32, no read output with a buffered connect); false for outputs that are also read: they are delayed twice."
  },
  {
   "property": "C23",
   "status": "partial",
   "theorems": [
    "C23_partial",
    "C23_refuted"
   ],
   "note": "False of the code: outputs with different depths are not aligned. Proved when the longest paths to the outputs are equally long."
  },
  {
   "property": "C24",
   "status": "proved",
   "theorems": [
    "C24_corners_integral",
    "C24_synchronised",
    "C24_objective",
    "C24_feasible",
    "C24_circuit",
    "C24_completes",
    "C24_corners_bounded"
   ],
   "note": "lp_solve is a parameter: trusted_solver says that on the problem at hand it returns an optimal corner if it reports success, and reports success if there is a solution. Offsets within 32 bits, and operands with numbers >= 128 constant, as in C22."
  },
  {
   "property": "C25",
   "status": "partial",
   "theorems": [
    "C25_refuted",
    "C25_partial"
   ],
   "note": "Refuted: on failure the pass prints the status and emits an unbalanced circuit. Proved: the problem always has a solution, so a complete solver never fails on a kernel."
  },
  {
   "property": "C26",
   "status": "partial",
   "theorems": [
    "C26_refuted",
    "C26_partial",
    "C26_combinational"
   ],
   "note": "False of the code for comparisons of floats: the class is taken from the (boolean) result, so *_FLOAT entries of comparisons are never used. Proved for everything else."
  },
  {
   "property": "C27",
   "status": "proved",
   "theorems": [
    "C27_layers",
    "C27_graphs"
   ],
   "note": "Kernels without offsets whose outputs are not read, see C47."
  },
  {
   "property": "C28",
   "status": "proved",
   "theorems": [
    "C28_cascades",
    "C28_completes"
   ],
   "note": "Any monotone rounding that is exact on 0; floatEps any positive number."
  },
  {
   "property": "C29",
   "status": "proved",
   "theorems": [
    "C29_circuit",
    "C29_registers",
    "C29_zero_stages"
   ],
   "note": "Kernels without offsets whose outputs are not read; the pass does not complete on the others, see C47."
  },
  {
   "property": "C30",
   "status": "partial",
   "theorems": [
    "C30_refuted",
    "C30_partial"
   ],
   "note": "False of the code: an output computed on a shallow layer gets fewer registers. Proved for outputs of maximal depth."
  },
  {
   "property": "C31",
   "status": "proved",
   "theorems": [
    "C31_fifo"
   ],
   "note": ""
  },
  {
   "property": "C32",
   "status": "partial",
   "theorems": [
    "C32_refuted",
    "C32_partial",
    "C32_exact"
   ],
   "note": "False of the code: a signed add/sub/mul module without pipeline stages is not legal Verilog (it reads r[-1]). Proved for everything else, and C32_exact shows that these are exactly the wrong cases. The and/or/xor branches of the generator are never used (C08 group: these lower to FIRRTL primitives)."
  },
  {
   "property": "C33",
   "status": "partial",
   "theorems": [
    "C33_refuted",
    "C33_partial",
    "C33_exact"
   ],
   "note": "False of the code: operands are extended by the signedness of the result. C33_exact gives the exact set of type pairs for which the modules are right."
  },
  {
   "property": "C34",
   "status": "partial",
   "theorems": [
    "C34_refuted",
    "C34_partial",
    "C34_exact",
    "C34_fits"
   ],
   "note": "False of the code for widening casts that change signedness, and for pipelined signed widening casts. C34_exact characterises the right ones."
  },
  {
   "property": "C35",
   "status": "partial",
   "theorems": [
    "C35_refuted",
    "C35_partial",
    "C35_missing",
    "C35_float"
   ],
   "note": "False of the code for divisions and negations (never generated); float operations get integer modules. Proved for all other operations, after any of the three schedulers."
  },
  {
   "property": "C36",
   "status": "partial",
   "theorems": [
    "C36_refuted",
    "C36_partial"
   ],
   "note": "False of the code for buffers: names do not distinguish signed and unsigned buffers of one width, and the shared extern module has the ports of the first. Proved for all other operations."
  },
  {
   "property": "C37",
   "status": "partial",
   "theorems": [
    "C37_refuted",
    "C37_partial",
    "C37_signed_left",
    "C37_simulator"
   ],
   "note": "False for signed left shifts (the sign bit is kept; one-bit operands are rejected) and for simulated right shifts of negative patterns. Proved for unsigned left shifts and all right shifts in hardware; signed left shifts characterised exactly."
  },
  {
   "property": "C38",
   "status": "partial",
   "theorems": [
    "C38_instance_succeeds",
    "C38_merged_well_formed",
    "C38_function_partial",
    "C38_linked_values",
    "C38_order_partial",
    "C38_acyclic",
    "C38_refuted",
    "C38_unbound_input",
    "C38_read_output",
    "C38_constant_binding"
   ],
   "note": "False of the code in corner cases, each refuted by a theorem: an output wired straight to an input depends on the binding order; a sub-kernel that reads its own output leaves a dangling channel; unbound inputs are lost as start nodes. Proved for all other bindings: the call succeeds, the merged graph is well formed, bound ports are gone, every bound output has the value of the sub-kernel function, and the order of the bindings does not matter."
  },
  {
   "property": "C39",
   "status": "partial",
   "theorems": [
    "C39_partial",
    "C39_conditions",
    "C39_refuted",
    "C39_order_refuted",
    "C39_abandoned"
   ],
   "note": "Proved for all histories in which kernel lifetimes are nested. False otherwise: with two sibling kernels alive the constants of the younger go to the older; destroying the older first leaves no top kernel; an abandoned nested kernel leaves a dangling channel."
  },
  {
   "property": "C40",
   "status": "proved",
   "theorems": [
    "C40_kernel",
    "C40_product",
    "C40_field"
   ],
   "note": "kernel and circuit, all streams of bytes; what a scheduler emits passes the verifier; the product is specified by division with remainder of polynomials over GF(2)"
  },
  {
   "property": "C41",
   "status": "proved",
   "theorems": [
    "C41_table",
    "C41_agree"
   ],
   "note": "all eight coefficients, kernel and circuit; what a scheduler emits passes the verifier"
  },
  {
   "property": "C42",
   "status": "proved",
   "theorems": [
    "C42_encoder",
    "C42_decoder",
    "C42_roundtrip",
    "C42_circuits"
   ],
   "note": "kernels and circuits of all schedulers, accepted by the verifier; no scheduler fails within 32-bit sizes; specification written from the standard"
  },
  {
   "property": "C43",
   "status": "proved",
   "theorems": [
    "C43_encoder",
    "C43_decoder",
    "C43_roundtrip",
    "C43_circuits",
    "C43_modes"
   ],
   "note": "Kernels and circuits (every scheduler), both modes, accepted by the verifier; no scheduler fails within 32-bit sizes; the specification is written from the standard."
  },
  {
   "property": "C44",
   "status": "partial",
   "theorems": [
    "C44_same_handle_cast",
    "C44_refuted"
   ],
   "note": "Holds for the same type handle; false for structurally equal types obtained by two calls (types are never shared)."
  },
  {
   "property": "C45",
   "status": "partial",
   "theorems": [
    "C45_ports",
    "C45_library",
    "C45_partial",
    "C45_refuted",
    "C45_wide"
   ],
   "note": "Types made through the API keep width and sign; library modules have the ports of their operations; FIRRTL expressions have the result type, except bitwise operations on signed operands, which are ill typed."
  },
  {
   "property": "C46",
   "status": "partial",
   "theorems": [
    "C46_refuted",
    "C46_partial"
   ],
   "note": "Refuted for the linear scheduler, which always reports 0. Proved for ASAP."
  },
  {
   "property": "C47",
   "status": "partial",
   "theorems": [
    "C47_refuted",
    "C47_partial"
   ],
   "note": "False of the code: reading a connected output makes findNearestNodeValue loop forever. Proved for kernels without offsets whose outputs are not read."
  },
  {
   "property": "C48",
   "status": "proved",
   "theorems": [
    "C48_types"
   ],
   "note": ""
  },
  {
   "property": "C49",
   "status": "partial",
   "theorems": [
    "C49_refuted",
    "C49_refuted_large",
    "C49_partial",
    "C49_names"
   ],
   "note": "The documented flat file has no effect: the code reads a member \"dfcir\" that the documentation does not mention; values are taken modulo 2^16. Proved for files with that member and 16-bit values."
  },
  {
   "property": "C50",
   "status": "proved",
   "theorems": [
    "C50_asap",
    "C50_linear",
    "C50_pipelined",
    "C50_default",
    "C50_runs",
    "C50_actual",
    "C50_readings"
   ],
   "note": "C50_actual extends the result to every kernel whose operations are accepted at all (mixed signs and widths, sign-changing casts, signed left shifts), with the operators read as they are built (act_op); C50_readings: both readings agree on the operations the flow gets right. Supported kernels are described by the predicates realizable, schedulable and combinational; which operations they exclude, and why, is shown by the refuted theorems C22, C33-C37, C45."
  },
  {
   "property": "C51",
   "status": "proved",
   "theorems": [
    "C51_calls",
    "C51_connect"
   ],
   "note": ""
  },
  {
   "property": "C52",
   "status": "partial",
   "theorems": [
    "C52_untouched",
    "C52_files",
    "C52_independent",
    "C52_scheduler",
    "C52_arguments",
    "C52_overload",
    "C52_pipelining",
    "C52_circuit",
    "C52_completes",
    "C52_failure",
    "C52_refuted",
    "C52_sim"
   ],
   "note": "False as stated: with the default scheduler a kernel with an offset, of which only the unscheduled program is requested, gives a complete file and exit code 1 (C52_refuted); a failed run truncates files that existed (C52_failure). Proved: the rest, with the exit code characterised exactly (C52_files). Not modelled: the text of arguments, paths that cannot be opened."
  },
  {
   "property": "C53",
   "status": "partial",
   "theorems": [
    "C53_partial",
    "C53_faithful",
    "C53_marks",
    "C53_refuted"
   ],
   "note": "False as stated: a port called node0 gets the name of a generated node (C53_refuted). Proved for kernels whose port names are distinct and not of the form node<number>. Casts, slices, concatenations and constants are drawn as unlabelled boxes, and binary and unary minus alike (C53_marks). Quoting of names in the DOT text is not modelled."
  },
  {
   "property": "C54",
   "status": "partial",
   "theorems": [
    "C54_partial",
    "C54_flat",
    "C54_refuted",
    "C54_scheduler_refuted"
   ],
   "note": "False as stated: ~scalar, -scalar and a mux controlled by a scalar pass check(), simulate, and are rejected after every scheduler; and an instance that puts a scalar under an offset is rejected with pipelining and accepted with ASAP (C54_scheduler_refuted). Proved for every kernel whose offsets are of what their operands are of (all kernels without instances): the verdict is the same before scheduling and after every scheduler, for every latency configuration and order of buffers, and is exactly `acceptable` (for kernels without instances: unary operands and mux controls are streams)."
  },
  {
   "property": "C55",
   "status": "partial",
   "theorems": [
    "C55_roundtrip",
    "C55_injective",
    "C55_text",
    "C55_determines",
    "C55_kernels",
    "C55_scheduled",
    "C55_unscheduled",
    "C55_flat",
    "C55_refuted"
   ],
   "note": "False as stated: an offset whose operand an instance has given another type verifies, but its text has one type for both and is rejected by the parser (C55_refuted). Proved for all well-formed programs of the dialect (C55_roundtrip, C55_injective; C55_text, C55_determines and C55_kernels say what is in the text and that it determines the program), for the output of ASAP and linear scheduling of every kernel (C55_scheduled), for everything else written about kernels whose offsets have the types of their operands (C55_unscheduled, C55_flat). The model reproduces five reference files of the repository token by token (C55_golden). Text is a list of tokens; lexing, string escapes and MLIR's generic form are not modelled; IntegerAttr::getSInt asserts a signed type while latencies are signless, which only builds of LLVM with assertions notice. Concrete cases (declared as Example, not counted as theorems): C55_golden."
  },
  {
   "property": "C56",
   "status": "partial",
   "theorems": [
    "C56_ports",
    "C56_own",
    "C56_same",
    "C56_scheduler",
    "C56_names",
    "C56_driven",
    "C56_clock_refuted",
    "C56_twice_refuted",
    "C56_order_refuted"
   ],
   "note": "Proved: the ports are those declared plus the clock (C56_ports; with unbound outputs of a sub-kernel becoming ports of the top module, and exactly the kernel's own declarations when everything is bound, C56_own), the same for every scheduler and hash order up to their order (C56_same, C56_scheduler), outputs driven exactly once (C56_driven), distinct names if the user's names are distinct and none is \"clk\" (C56_names). False as stated: a port may be called \"clk\" or two ports may share a name and everything still passes (C56_clock_refuted, C56_twice_refuted); the order of the ports depends on the iteration order of an unordered_set of pointers (C56_order_refuted). Concrete cases (declared as Example, not counted as theorems): C56_case."
  },
  {
   "property": "C57",
   "status": "proved",
   "theorems": [
    "C57_addconst",
    "C57_polynomial2",
    "C57_polynomial2_inst",
    "C57_scalar3",
    "C57_matrixmul2",
    "C57_muxmul",
    "C57_movingsum"
   ],
   "note": "The calls of the constructors are in Golden.v (also shown to give the golden DFCIR files) and PropertiesExamples.v. MovingSum has offsets and is only scheduled by the ASAP and linear schedulers (C47).."
  },
  {
   "property": "C58",
   "status": "proved",
   "theorems": [
    "C58_idct",
    "C58_streams",
    "C58_fields",
    "C58_blocks",
    "C58_exact",
    "C58_flat",
    "C58_width_refuted"
   ],
   "note": "The whole constructor is modelled; ASAP and linear scheduling with latencies of at least one for sums, differences and products (without a latency signed arithmetic has no implementation, C32). C58_exact: no width matters when each row has absolute values adding up to at most 360. Finding: 13 bits between the passes do not hold what rows of 12-bit coefficients give; already the block with the single coefficient 512 gives -64 everywhere instead of 64 (C58_width_refuted). C58_bench0-5: the specification gives the results of the six test benches of the repository. Concrete cases (declared as Example, not counted as theorems): C58_bench0, C58_bench1, C58_bench2, C58_bench3, C58_bench4, C58_bench5."
  },
  {
   "property": "C59",
   "status": "proved",
   "theorems": [
    "C59_row_idct",
    "C59_streams",
    "C59_elements",
    "C59_exact",
    "C59_flat",
    "C59_limit",
    "C59_idct"
   ],
   "note": "The whole constructor is modelled, as for C58. C59_idct: the first pass of the example IDCT is this pass cut to 13 bits. C59_limit: a row with the single coefficient 4096 gives -32768. Concrete cases (declared as Example, not counted as theorems): C59_names, C59_row."
  },
  {
   "property": "C60",
   "status": "proved",
   "theorems": [
    "C60_encoder",
    "C60_roundtrip",
    "C60_circuits",
    "C60_same",
    "C60_inline_encoder",
    "C60_inline_decoder",
    "C60_inline_circuits",
    "C60_inline_same"
   ],
   "note": "Kernels and circuits (every scheduler) of the three example encoders and of the inlined decoder; C60_wide shows the doubled byte. The decoders of opt_kuznechik and kuznechik_inst make the calls of KuznechikDecoder (C43), compared by reading. In the inlined product the first shift is a constant of up to 502 in an 8-bit type; its circuit value is the low byte (lower_const)."
  }
 ]
}
