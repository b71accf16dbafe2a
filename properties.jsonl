{"id": "C01", "title": "Kernel construction keeps the dataflow graph well formed", "statement": "After any sequence of DFCxx API calls that does not throw (inputs, outputs, constants, operators, mux, cast, slices, cat, shifts, offsets, connect), every operator node has exactly the operands of the expression that created it, in argument order; every channel is recorded both at its source and at its target; every endpoint is a node of the kernel; the start nodes are exactly the inputs and constants and none of them has an operand.", "quantifier": "every finite history of builder calls, with any mixture of variables and types", "why_tests_cant": "the graph is built incrementally by mutation of shared maps; a unit test only samples a few kernels, while the invariant must hold after every possible call history", "anchors": ["src/model/dfcxx/lib/dfcxx/graph.cpp:addNode/addChannel", "src/model/dfcxx/lib/dfcxx/vars/stream.cpp", "src/model/dfcxx/lib/dfcxx/vars/scalar.cpp", "src/model/dfcxx/lib/dfcxx/io.cpp", "src/model/dfcxx/lib/dfcxx/control.cpp", "src/model/dfcxx/lib/dfcxx/offset.cpp"]}
{"id": "C02", "title": "A kernel without feedback connects is acyclic and completely reachable", "statement": "If every connect drives a variable that nobody has read yet, the constructed graph has no combinational cycle, and every operator node is reachable from an input or constant, so the kernel can be ordered.", "quantifier": "every finite history of builder calls", "why_tests_cant": "cycle freedom is a property of all histories; tests build a handful of kernels", "anchors": ["src/model/dfcxx/lib/dfcxx/graph.cpp:addChannel", "src/model/dfcxx/lib/dfcxx/vars/var.cpp:connect", "src/model/dfcxx/lib/dfcxx/utils.cpp:topSort"]}
{"id": "C03", "title": "Topological sorting returns each node exactly once, operands first", "statement": "For a graph that is acyclic, whose start nodes have no operands and from whose start nodes all nodes are reachable, the topological sort terminates without assertion failure and returns a permutation of all nodes in which every operand precedes its user.", "quantifier": "every finite multigraph meeting the conditions, any number of nodes and parallel channels, any iteration order of the start set", "why_tests_cant": "the iterative DFS with an index map is only exercised on small DAGs by tests; the claim is over all DAG shapes", "anchors": ["src/model/dfcxx/lib/dfcxx/utils.cpp:topSort", "src/model/dfcir/include/dfcir/passes/DFCIRGraph.h:topSortNodes"]}
{"id": "C04", "title": "Topological sorting rejects graphs that have no topological order", "statement": "If the kernel graph contains a cycle the sort must not return normally with an ordering.", "quantifier": "every finite graph with a cycle reachable from a start node", "why_tests_cant": "needs all cyclic graphs; tests have none", "anchors": ["src/model/dfcxx/lib/dfcxx/utils.cpp:topSort"]}
{"id": "C05", "title": "Equal constants share a node, different constants never do", "statement": "Two constant requests in one kernel return the same node iff the types are structurally equal and the 64-bit patterns are equal; values of earlier constants never change.", "quantifier": "every history of constant requests, interleaved with any other builder call", "why_tests_cant": "dedup depends on the whole history of previously created constants", "anchors": ["src/model/dfcxx/lib/dfcxx/vars/constant.cpp:createOrUseConst", "src/model/dfcxx/lib/dfcxx/constant.cpp"]}
{"id": "C06", "title": "Constant folding agrees with simulation", "statement": "Folding `c1 op c2` at construction time yields the constant whose value equals what the simulator computes for the unfolded node `op` applied to the two constants, for every operator and integer type.", "quantifier": "all operators, all pairs of 64-bit constants, signed and unsigned types", "why_tests_cant": "2^128 operand pairs per operator and type", "anchors": ["src/model/dfcxx/lib/dfcxx/vars/constant.cpp:DFConstant::operator*", "src/model/dfcxx/lib/dfcxx/simulator.cpp:genAdd.."]}
{"id": "C07", "title": "check() accepts exactly the kernels in which every declared variable is driven", "statement": "Kernel::check returns true iff no variable created through newStream/newScalar (a placeholder) is left in the graph.", "quantifier": "every construction history", "why_tests_cant": "quantifies over all histories", "anchors": ["src/model/dfcxx/lib/dfcxx/kernel.cpp:check", "src/model/dfcxx/lib/dfcxx/graph.cpp:transferFrom"]}
{"id": "C08", "title": "Bit slices are order-insensitive, exact in width and range checked", "statement": "x(a,b) throws iff max(a,b) is not a bit index of x; otherwise x(a,b) and x(b,a) denote the same bits max..min of x, of width |a-b|+1.", "quantifier": "all types, all index pairs", "why_tests_cant": "all widths times all index pairs", "anchors": ["src/model/dfcxx/lib/dfcxx/vars/stream.cpp:operator()", "src/model/dfcxx/lib/dfcxx/vars/scalar.cpp:operator()", "src/model/dfcir/lib/dfcir/passes/DFCIRToFIRRTLPass.cpp:BitsOpConversionPattern"]}
{"id": "C09", "title": "Splitting a value and concatenating the parts restores it", "statement": "x(w-1,k).cat(x(k-1,0)) is bit-for-bit x, its type has exactly w bits; and slicing a concatenation returns the operands.", "quantifier": "all widths w up to the 16-bit width limit, all split points, all values", "why_tests_cant": "all values and widths", "anchors": ["src/model/dfcxx/lib/dfcxx/vars/stream.cpp:cat", "src/model/dfcxx/lib/dfcxx/type_builder.cpp", "src/model/dfcir/lib/dfcir/passes/DFCIRToFIRRTLPass.cpp:CatOpConversionPattern"]}
{"id": "C10", "title": "Type equality is structural equality and is an equivalence", "statement": "Two types compare equal iff they have the same kind and parameters; the relation is reflexive, symmetric and transitive; fixed types report sign+int+frac bits, floats exp+frac+1, raw bits n, modulo the 16/8-bit fields they are stored in.", "quantifier": "all type parameters", "why_tests_cant": "parameter space 2^33", "anchors": ["src/model/dfcxx/lib/dfcxx/types/fixed.cpp", "src/model/dfcxx/lib/dfcxx/types/float.cpp", "src/model/dfcxx/lib/dfcxx/types/raw_bits.cpp", "src/model/dfcxx/lib/dfcxx/type_builder.cpp"]}
{"id": "C11", "title": "Simulation satisfies every node's equation and is order-independent", "statement": "When a simulation step succeeds, the computed values satisfy the defining equation of every node at that tick, those equations have exactly one solution, and therefore the result does not depend on which topological order the (hash-ordered) sort picked.", "quantifier": "every well-formed acyclic kernel, every input, every topological order", "why_tests_cant": "start nodes are iterated in unordered_set order, so runs can differ; a test sees one order", "anchors": ["src/model/dfcxx/lib/dfcxx/simulator.cpp:runSim", "src/model/dfcxx/lib/dfcxx/utils.cpp:topSort"]}
{"id": "C12", "title": "Simulator arithmetic is exact modulo 2^w for ring operations", "statement": "For kernels using only + - * negation & | ^ ~ << and mux/outputs over w-bit integers, the low w bits printed by the simulator equal the mathematical result modulo 2^w, even though intermediate values are kept in 64 bits without masking.", "quantifier": "all kernels of that fragment of any size, all widths 1..64, all inputs", "why_tests_cant": "unbounded expression depth and 2^64 inputs", "anchors": ["src/model/dfcxx/lib/dfcxx/simulator.cpp", "src/model/dfcxx/lib/dfcxx/simulator.h"]}
{"id": "C13", "title": "Simulator results agree with w-bit hardware for every integer operator", "statement": "For each integer operator the printed low w bits equal the w-bit result the generated hardware computes, also for right shifts, divisions and comparisons after overflow and of signed values.", "quantifier": "all operators, widths and operand values", "why_tests_cant": "needs all operand values including overflowed intermediates", "anchors": ["src/model/dfcxx/lib/dfcxx/simulator.cpp:runSim", "src/model/dfcir/lib/dfcir/passes/DFCIRToFIRRTLPass.cpp", "src/model/dfcir/templates/stubs.tpl"]}
{"id": "C14", "title": "VCD values decode to the simulated values", "statement": "Each value printed to the VCD is a string of exactly `width` binary digits, most significant first, and decodes to the simulated value modulo 2^width.", "quantifier": "all widths 1..64 and all 64-bit values", "why_tests_cant": "all values", "anchors": ["src/model/dfcxx/lib/dfcxx/simulator.cpp:valueToBinary"]}
{"id": "C15", "title": "The VCD has one header entry per node, distinct names, and consecutive ticks", "statement": "Every node is declared once with its own width, node names are pairwise distinct, ticks are numbered consecutively from the start tick without gap across input chunks, and the final tick follows the last one.", "quantifier": "every kernel and every number of input chunks", "why_tests_cant": "names come from users and from a counter; chunking depends on input length", "anchors": ["src/model/dfcxx/lib/dfcxx/simulator.cpp:genHeader/simulate", "src/model/dfcxx/templates/vcd.tpl"]}
{"id": "C16", "title": "The simulation-input parser assigns each tick exactly the values written for it", "statement": "For any well-formed data file (blocks of `name hexvalue` lines separated by blank lines) tick k is simulated with exactly the values of block k, and no line is lost or attributed to another tick, for any file length.", "quantifier": "every well-formed input file of any length", "why_tests_cant": "the parser works in fixed chunks of 200 blocks; only long files exercise the boundary", "anchors": ["src/model/dfcxx/lib/dfcxx/simulator.cpp:readInput", "src/model/dfcxx/lib/dfcxx/simulator.cpp:simulate"]}
{"id": "C17", "title": "The parser never writes outside its 200-entry tick buffers", "statement": "While reading any input file no index beyond the per-name buffer of 200 entries is written or read.", "quantifier": "every input file", "why_tests_cant": "memory-safety for all inputs", "anchors": ["src/model/dfcxx/lib/dfcxx/simulator.cpp:readInput", "src/model/dfcxx/lib/dfcxx/simulator.h"]}
{"id": "C18", "title": "Kernel-to-DFCIR translation preserves operands and multiplexer arms", "statement": "The DFCIR program produced from a kernel computes, for each node, the same operation on the same operands; in particular a mux with control value i selects its i-th arm after both reversals (builder and MultibitMux indexing).", "quantifier": "every well-formed kernel, any number of mux arms, every control value", "why_tests_cant": "reversals cancel only for every arm count and index", "anchors": ["src/model/dfcxx/lib/dfcxx/dfcir_builder.cpp:translate", "src/model/dfcir/lib/dfcir/passes/DFCIRToFIRRTLPass.cpp:MuxOpConversionPattern"]}
{"id": "C19", "title": "ASAP never asks for a negative delay", "statement": "Every buffer the ASAP scheduler requests has strictly positive length, for any latencies and any offsets.", "quantifier": "every dataflow graph, latency assignment and (positive or negative) stream offsets", "why_tests_cant": "all DAGs and weights", "anchors": ["src/model/dfcir/lib/dfcir/passes/DFCIRASAPSchedulerPass.cpp", "src/model/dfcir/include/dfcir/passes/DFCIRGraph.h:insertBuffer"]}
{"id": "C20", "title": "ASAP balances all reconvergent paths", "statement": "After inserting the requested buffers, at each operator all (non-constant) operands belonging to the same logical stream position arrive in the same clock cycle: the sum of latencies, offsets and buffers along any two paths from inputs to the same operand set is equal.", "quantifier": "every DAG, latency assignment, offsets", "why_tests_cant": "path count is exponential; all DAGs", "anchors": ["src/model/dfcir/lib/dfcir/passes/DFCIRASAPSchedulerPass.cpp", "src/model/dfcir/lib/dfcir/passes/DFCIRScheduleUtils.cpp"]}
{"id": "C21", "title": "ASAP is optimal: earliest start times and exact reported output latency", "statement": "Each node's start time is the length of a longest weighted path reaching it, no feasible schedule (with start times >= 0) starts any node earlier, and the reported maximal output latency is the maximum over the outputs.", "quantifier": "every DAG, latency assignment and offsets", "why_tests_cant": "all competing schedules", "anchors": ["src/model/dfcir/lib/dfcir/passes/DFCIRASAPSchedulerPass.cpp:getMaxOutputLatency"]}
{"id": "C22", "title": "Scheduled hardware computes the kernel's stream function, delayed", "statement": "The circuit obtained from ASAP scheduling and buffer insertion outputs, at cycle i plus the output's scheduled time, the value the kernel's stream semantics (with offsets meaning earlier/later elements) defines at position i, for every input stream and every position for which the history exists.", "quantifier": "every kernel graph, latencies, offsets, operator functions, input streams and time points", "why_tests_cant": "infinite streams, all graphs", "anchors": ["src/model/dfcir/lib/dfcir/passes/DFCIRASAPSchedulerPass.cpp", "src/model/dfcir/lib/dfcir/passes/DFCIRScheduleUtils.cpp", "src/model/dfcir/include/dfcir/passes/DFCIRGraph.h:insertBuffer", "src/model/dfcir/lib/dfcir/passes/DFCIRPassesUtils.cpp:eraseOffsets"]}
{"id": "C23", "title": "All outputs of a scheduled kernel belong to the same position in the same cycle", "statement": "After ASAP scheduling, all outputs present the values of the same stream position simultaneously.", "quantifier": "every kernel with several outputs", "why_tests_cant": "all graphs", "anchors": ["src/model/dfcir/lib/dfcir/passes/DFCIRASAPSchedulerPass.cpp"]}
{"id": "C24", "title": "Any feasible LP schedule yields a synchronised circuit", "statement": "Every corner of the constraint system built by the linear scheduler (which is what the simplex method returns) is integral; any integral solution gives positive buffers which synchronise all operands, and its objective value is the sum of the channel distances; the constraint system is feasible for every kernel; with an optimal corner the generated circuit computes the kernel's stream function, each output delayed by its start time.", "quantifier": "every DAG, latencies, offsets, every LP solution", "why_tests_cant": "all LP solutions", "anchors": ["src/model/dfcir/lib/dfcir/passes/DFCIRLinearSchedulerPass.cpp", "src/model/dfcir/lib/dfcir/passes/DFCIRLPUtils.cpp"]}
{"id": "C25", "title": "A scheduler failure is reported, never silently ignored", "statement": "If the linear scheduler cannot find a schedule the compilation fails (or leaves a marker) instead of emitting an unbalanced circuit.", "quantifier": "every graph and offset assignment for which the LP is infeasible", "why_tests_cant": "infeasible inputs are not in the test-suite", "anchors": ["src/model/dfcir/lib/dfcir/passes/DFCIRLinearSchedulerPass.cpp"]}
{"id": "C26", "title": "Latency configuration is applied to exactly the configured operations", "statement": "Whatever the latency configuration, the ASAP and LP schedulers give each arithmetic or comparison operation exactly the latency configured for its operation and the class (integer/float) of its arguments, 1 if nothing is configured, and casts 0, overriding any latency set before; combinational pipelining gives every operation latency 0.", "quantifier": "every latency configuration and every operation", "why_tests_cant": "maps over all op/type pairs and numbers", "anchors": ["src/model/dfcir/lib/dfcir/passes/DFCIRScheduleUtils.cpp:applyConfig", "src/options.h", "docs/latency_config.md"]}
{"id": "C27", "title": "Pipeline layering places every operation after its operands", "statement": "In combinational pipelining each node's layer is its longest path length from an input, so it is strictly greater than that of each of its operands (or equal+latency).", "quantifier": "every DAG", "why_tests_cant": "all DAGs", "anchors": ["src/model/dfcir/lib/dfcir/passes/DFCIRPipelineUtils.cpp:divideIntoLayers"]}
{"id": "C28", "title": "Cascades are monotone and within the requested number of stages", "statement": "Assigning layers to cascades is monotone in the layer, uses cascade indices 0..stages-1 only, and puts the inputs in cascade 0, whatever the floating-point threshold decisions are.", "quantifier": "every number of layers and stages, every rounding behaviour", "why_tests_cant": "floating point accumulations for all sizes", "anchors": ["src/model/dfcir/lib/dfcir/passes/DFCIRPipelineUtils.cpp:divideIntoCascades"]}
{"id": "C29", "title": "Combinational pipelining puts exactly the requested number of registers on every input-to-output path", "statement": "With `stages` = n > 0 every path from a stream input to an output on the last layer crosses exactly n registers, all paths between the same two nodes cross the same number, and with n = 0 the circuit is unchanged; the pipelined circuit computes the original function delayed by n cycles.", "quantifier": "every DAG, every n, every input stream", "why_tests_cant": "all paths in all DAGs", "anchors": ["src/model/dfcir/lib/dfcir/passes/DFCIRPipelineUtils.cpp:calculateFIFOs", "src/model/dfcir/lib/dfcir/passes/DFCIRCombPipelinePass.cpp"]}
{"id": "C30", "title": "All outputs of a combinationally pipelined kernel have latency `stages`", "statement": "Every output, also one that is computed on a shallow layer, is delayed by exactly the requested number of stages.", "quantifier": "every kernel", "why_tests_cant": "all graphs", "anchors": ["src/model/dfcir/lib/dfcir/passes/DFCIRPipelineUtils.cpp:calculateFIFOs"]}
{"id": "C31", "title": "FIFO library module delays its input by exactly n cycles", "statement": "The generated FIFO module with n stages outputs at cycle t+n the input of cycle t, for every n>=1, width and stream.", "quantifier": "every depth, width and input stream", "why_tests_cant": "all depths", "anchors": ["src/model/dfcir/templates/stubs.tpl", "src/model/dfcir/lib/dfcir/passes/FIRRTLStubsGeneratorPass.cpp"]}
{"id": "C32", "title": "Library operator modules compute their operation modulo 2^w after their latency", "statement": "For operands and result of one integer type (same width and signedness), each generated module (add, sub, mul, comparisons, and, or, xor) outputs at cycle t+latency the operation's result on the inputs at cycle t, with signed interpretation iff the type is signed.", "quantifier": "every width, latency and operand stream", "why_tests_cant": "all widths, latencies, values", "anchors": ["src/model/dfcir/templates/stubs.tpl", "src/model/dfcir/lib/dfcir/passes/FIRRTLStubsGeneratorPass.cpp"]}
{"id": "C33", "title": "Library modules are correct for operands of different widths and signedness", "statement": "When operand types differ (allowed by DFCxx), operands are extended according to their own signedness before the operation.", "quantifier": "all pairs of operand types and values", "why_tests_cant": "all type pairs", "anchors": ["src/model/dfcir/templates/stubs.tpl", "src/model/dfcir/lib/dfcir/passes/FIRRTLStubsGeneratorPass.cpp"]}
{"id": "C34", "title": "Casts preserve the numeric value whenever it fits the target type", "statement": "The cast module outputs the same integer whenever that integer is representable in the target type, and truncates modulo 2^w otherwise.", "quantifier": "all source and target integer types, all values", "why_tests_cant": "all type pairs and values", "anchors": ["src/model/dfcir/templates/stubs.tpl", "src/model/dfcir/lib/dfcir/passes/FIRRTLStubsGeneratorPass.cpp"]}
{"id": "C35", "title": "Every instantiated library module is generated", "statement": "Whenever compilation succeeds, each extern module instantiated in the kernel module has a definition in the produced library, with the operation that its name denotes.", "quantifier": "every kernel, every operator and type", "why_tests_cant": "all operator/type combinations", "anchors": ["src/model/dfcir/lib/dfcir/passes/FIRRTLStubsGeneratorPass.cpp", "src/model/dfcir/lib/dfcir/passes/DFCIRToFIRRTLPass.cpp"]}
{"id": "C36", "title": "Library module names identify operation, types and latency", "statement": "Two operator instances share a library module iff they perform the same operation on the same operand/result types with the same latency.", "quantifier": "all operations, types and latencies", "why_tests_cant": "injectivity over an infinite name space", "anchors": ["src/model/dfcir/lib/dfcir/passes/DFCIRToFIRRTLPass.cpp:constructModuleName/findOrCreateModule", "src/model/dfcir/lib/dfcir/DFCIRTypes.cpp:printSVSignature"]}
{"id": "C37", "title": "Shifts in hardware keep the operand width and mean multiplication/division by 2^n", "statement": "x<<n yields x*2^n modulo 2^w, x>>n yields floor(x/2^n), for signed and unsigned x, in hardware as in simulation.", "quantifier": "all widths, shift counts and values", "why_tests_cant": "all values", "anchors": ["src/model/dfcir/lib/dfcir/passes/DFCIRToFIRRTLPass.cpp:ShiftLeftOp/ShiftRightOp", "src/model/dfcxx/lib/dfcxx/simulator.cpp"]}
{"id": "C38", "title": "Connecting instance ports preserves graph well-formedness and function", "statement": "After instantiating a sub-kernel with bindings for all its ports the merged graph is well formed, contains no placeholder created by a bound port, and each bound output variable equals the sub-kernel's function of the bound inputs, independently of the order of the bindings.", "quantifier": "all sub-kernels, all bindings and binding orders", "why_tests_cant": "all graphs and permutations", "anchors": ["src/model/dfcxx/include/dfcxx/kernel.h:instance", "src/model/dfcxx/lib/dfcxx/graph.cpp:rebindInput/rebindOutput/transferFrom"]}
{"id": "C39", "title": "Constants always belong to the kernel under construction", "statement": "A constant used while constructing kernel K (possibly nested in others) ends up in the graph of K's top-level kernel, for any nesting and lifetime of kernel objects.", "quantifier": "every history of kernel construction/destruction", "why_tests_cant": "all lifetimes", "anchors": ["src/model/dfcxx/lib/dfcxx/kernel.cpp", "src/model/dfcxx/lib/dfcxx/kernel_meta.cpp", "src/model/dfcxx/lib/dfcxx/vars/constant.cpp"]}
{"id": "C40", "title": "Galois8Mul multiplies in GF(2^8) modulo x^8+x^7+x^6+x+1", "statement": "The Galois8Mul kernel computes the product of its two 8-bit inputs in GF(2^8) with the GOST polynomial 0x1C3.", "quantifier": "all pairs of bytes, spec over polynomials", "why_tests_cant": "the spec is algebraic: field laws over all triples", "anchors": ["src/model/dfcxx/std/dfcxx/std/algebra/galois8mul.h"]}
{"id": "C41", "title": "Table-driven Galois multiplication equals the generic one", "statement": "For every coefficient used by the Kuznechik linear transformation, the lookup-table implementation (opt mode) equals Galois multiplication by the coefficient.", "quantifier": "all bytes, all coefficients used", "why_tests_cant": "needs the algebraic spec", "anchors": ["src/model/dfcxx/std/dfcxx/std/crypto/gost_34_12/kuznechik_galois8mul.h"]}
{"id": "C42", "title": "Magma decryption inverts encryption", "statement": "For every 256-bit key and every 64-bit block, MagmaDecoder applied to MagmaEncoder's output gives the block back, and vice versa.", "quantifier": "all 2^256 keys and 2^64 blocks", "why_tests_cant": "key/block space", "anchors": ["src/model/dfcxx/std/dfcxx/std/crypto/gost_34_12/magma.h"]}
{"id": "C43", "title": "Kuznechik decryption inverts encryption", "statement": "For every 256-bit key and every 128-bit block KuznechikDecoder inverts KuznechikEncoder (in both multiplication modes), and both modes agree.", "quantifier": "all keys and blocks", "why_tests_cant": "key/block space", "anchors": ["src/model/dfcxx/std/dfcxx/std/crypto/gost_34_12/kuznechik.h"]}
{"id": "C44", "title": "Casting to the same type is the identity and adds no operation", "statement": "x.cast(T) where T equals x's type returns x itself, without a cast node.", "quantifier": "all types", "why_tests_cant": "type objects are allocated per use, so it depends on history", "anchors": ["src/model/dfcxx/lib/dfcxx/vars/var.cpp:cast", "src/model/dfcxx/lib/dfcxx/kernel_storage.cpp:addType"]}
{"id": "C45", "title": "FIRRTL port types have the width of the DFCxx type", "statement": "Every kernel port and operator in the generated FIRRTL has the width, and the FIFO/latency library the same width, that the DFCxx type reports, and signedness only for signed fixed types.", "quantifier": "all types", "why_tests_cant": "all parameters", "anchors": ["src/model/dfcir/lib/dfcir/passes/DFCIRToFIRRTLPass.cpp:FIRRTLTypeConverter", "src/model/dfcir/lib/dfcir/DFCIRTypes.cpp"]}
{"id": "C46", "title": "The latency the compiler reports is the delay of the slowest output", "statement": "The overall kernel latency printed after scheduling is the number of cycles after which the slowest output shows the value of the position whose inputs were applied, for either scheduler.", "quantifier": "all feed-forward kernels, latency configurations and schedulers", "why_tests_cant": "must hold for every kernel and latency configuration", "anchors": ["src/model/dfcir/lib/dfcir/passes/DFCIRASAPSchedulerPass.cpp", "src/model/dfcir/lib/dfcir/passes/DFCIRLinearSchedulerPass.cpp: schedule, runOnOperation"]}
{"id": "C47", "title": "Combinational pipelining completes on every kernel that can be scheduled", "statement": "For every valid, completely connected kernel and every number of stages, the combinational pipelining pass terminates without an assertion failure or an invalid memory access and produces a circuit.", "quantifier": "every kernel history, every number of stages, every rounding behaviour", "why_tests_cant": "all graphs and stage counts; non-termination", "anchors": ["src/model/dfcir/lib/dfcir/passes/DFCIRPipelineUtils.cpp:findNearestNodeValue", "src/model/dfcir/lib/dfcir/passes/DFCIRPipelineUtils.cpp:divideIntoCascades", "src/model/dfcir/lib/dfcir/passes/DFCIRCombPipelinePass.cpp:runOnOperation"]}
{"id": "C48", "title": "The type of every variable follows from its operation and its operands' types", "statement": "After any sequence of API calls: arithmetic, bitwise, unary, shift and offset results have the type of their first operand, comparisons are 1-bit unsigned, slices [l:r] satisfy 0 <= r <= l < width and have type bits l-r+1, concatenations have the summed width, multiplexers the type of their first arm.", "quantifier": "every sequence of construction calls", "why_tests_cant": "all histories, including later connects to the same variables", "anchors": ["src/model/dfcxx/lib/dfcxx/vars/stream.cpp", "src/model/dfcxx/lib/dfcxx/vars/var.cpp", "src/model/dfcxx/lib/dfcxx/control.cpp"]}
{"id": "C49", "title": "A latency configuration file in the documented format configures the documented operations", "statement": "Reading the JSON latency configuration sets, for every documented field <OP>_INT / <OP>_FLOAT, exactly the given latency; unknown fields have no effect; names of operations are read and printed consistently.", "quantifier": "every configuration file with integer members", "why_tests_cant": "all files, all values", "anchors": ["src/options.h:convertFieldToEnum", "src/options.h:parseInternalOpsConfig", "docs/latency_config.md", "src/model/dfcxx/lib/dfcxx/dfcir_processor.cpp:DFCIRProcessor"]}
{"id": "C50", "title": "The generated hardware computes the kernel's function", "statement": "For every completely connected kernel built through the API whose operations the flow supports, the circuit produced by each scheduler (ASAP, linear, combinational pipelining with n stages, and the default with no stages) - operator instances from the generated SystemVerilog library plus FIRRTL expressions and connects - runs for all inputs of the declared types, and every output shows, a fixed number of clock cycles after the inputs of position i were applied, exactly the value that the kernel defines for position i.", "quantifier": "every kernel history, every latency configuration, solver, number of stages, every input stream, every position, every initial register content", "why_tests_cant": "all kernels, all streams, unbounded time", "anchors": ["src/model/dfcir/lib/dfcir/passes/DFCIRToFIRRTLPass.cpp", "src/model/dfcir/lib/dfcir/passes/DFCIRASAPSchedulerPass.cpp", "src/model/dfcir/lib/dfcir/passes/FIRRTLStubGeneratorPass.cpp", "templates/stubs.tpl"]}
{"id": "C51", "title": "Growing a kernel never changes what existing variables denote", "statement": "Any API call other than connect leaves the function denoted by every existing variable unchanged; connecting a fresh output changes only that output, which then denotes what its driver denotes.", "quantifier": "every history, every call, every interpretation of operators and inputs", "why_tests_cant": "all histories and all input streams", "anchors": ["src/model/dfcxx/lib/dfcxx/graph.cpp:addNode/addChannel", "src/model/dfcxx/lib/dfcxx/vars/stream.cpp", "src/model/dfcxx/lib/dfcxx/control.cpp"]}
{"id": "C52", "title": "The command-line tool writes exactly the requested files and its exit code reports success", "statement": "A run of the hls subcommand writes each requested output file with the artefact of its format (drawing, unscheduled and scheduled program, FIRRTL, module library, SystemVerilog), touches no other file, and writes the same contents whatever else is requested and whatever the files held before; it touches nothing if the arguments or the kernel are invalid; the exit code is 0 exactly when every requested file is complete; and if it is 0, the hardware in the files computes the kernel's function. The simulation subcommand exits with 0 exactly if it has written the trace.", "quantifier": "every kernel, command line, latency file, scheduler, previous file contents, and behaviour of the external solver and of CIRCT", "why_tests_cant": "all kernels and command lines, and all failures at any stage of the pipeline", "anchors": ["src/main.cpp:hlsMain,simMain", "src/options.h:HlsOptions,SimOptions", "src/model/dfcxx/lib/dfcxx/kernel.cpp:compile,simulate", "src/model/dfcxx/lib/dfcxx/dfcir_processor.cpp:convertAndPrint"]}
{"id": "C53", "title": "The DOT drawing shows the kernel", "statement": "The DOT output has exactly one element per node of the kernel, distinct nodes have distinct names, each element carries the mark of its operation, and there is an edge labelled i from a to n exactly when a is the i-th operand of n; so the drawing determines the graph up to renaming, in whatever order the hash set of nodes is walked.", "quantifier": "every kernel history and every iteration order of the node set", "why_tests_cant": "all graphs and all hash orders", "anchors": ["src/model/dfcxx/lib/dfcxx/kernel.cpp:compileDot", "src/model/dfcxx/templates/dot.tpl"]}
{"id": "C54", "title": "A checked kernel passes the verifier of the intermediate language", "statement": "For every completely connected kernel accepted by check(), the program each scheduler hands on satisfies the operand/result constraints and scoping rules of the DFCIR dialect, so compile() does not fail at MLIR's verification after the scheduling pass; whether it does is decided by the kernel alone, not by the scheduler, the latencies or the buffers.", "quantifier": "every kernel history, every scheduler, latency configuration, solver, stage count and order of buffer insertion", "why_tests_cant": "all kernels and all schedules", "anchors": ["src/model/dfcir/include/dfcir/DFCIROperations.td", "src/model/dfcir/include/dfcir/DFCIRTypes.td", "src/model/dfcxx/lib/dfcxx/dfcir_processor.cpp:convertAndPrint", "src/model/dfcxx/lib/dfcxx/dfcir_builder.cpp:translate", "src/model/dfcxx/lib/dfcxx/vars/scalar.cpp", "src/model/dfcxx/lib/dfcxx/control.cpp:mux"]}
{"id": "C55", "title": "DFCIR files can be read back", "statement": "The text the compiler writes for a DFCIR program (the unscheduled program of a kernel and the program after any scheduler, whenever it passes the dialect's verifier) is accepted by the dialect's parser, parsing gives the same program up to the names of values, and printing that again gives the same text; in particular two different programs never have the same text.", "quantifier": "every program of the dialect, every kernel history, every scheduler, latency configuration and stage count, every iteration order of the start nodes", "why_tests_cant": "all programs; the reference files of the test suite are five of them", "anchors": ["src/model/dfcir/lib/dfcir/DFCIROperations.cpp", "src/model/dfcir/include/dfcir/DFCIROperations.td", "src/model/dfcir/include/dfcir/DFCIRTypes.td", "src/model/dfcxx/lib/dfcxx/dfcir_builder.cpp", "test/examples"]}
{"id": "C56", "title": "The hardware module has the declared interface", "statement": "The generated module has exactly the ports that io.input, io.output and their scalar variants declare on the kernel, with the declared name, direction, width and signedness, followed by one clock input, whatever the scheduler, its parameters and the iteration order of hash tables; every output is driven by exactly one connection; ports declared with distinct names have distinct names.", "quantifier": "every kernel history (sub-kernel instances included), every scheduler and its parameters, every iteration order of the start nodes", "why_tests_cant": "all kernels, all schedules and all hash orders", "anchors": ["src/model/dfcir/lib/dfcir/passes/DFCIRToFIRRTLPass.cpp:KernelOpConversionPattern", "src/model/dfcxx/lib/dfcxx/io.cpp", "src/model/dfcxx/lib/dfcxx/kernel.cpp:instance", "src/model/dfcir/include/dfcir/passes/ModuleDefines.inc"]}
{"id": "C57", "title": "The example kernels compute their formulas", "statement": "The circuits generated for the example kernels AddConst, Polynomial2, Polynomial2Inst, Scalar3, MatrixMul2, MuxMul and MovingSum show at every output, a fixed number of cycles after the inputs of a position, the value of the formula the kernel is written for (3x+5, x^2+2x, the scalar product, the matrix product, 2x or 0, x[i-1]+x[i]+x[i+1]) modulo 2^32.", "quantifier": "all input streams, all stream positions (from the second one on for MovingSum), all schedulers, latency configurations, numbers of pipeline stages, orders of buffer insertion and of start nodes, all behaviours of the generated circuit", "why_tests_cant": "The repository's tests only compare DFCIR text or compile the examples; a test bench samples a few words of 2^32 and one configuration.", "anchors": ["examples/addconst/addconst.h:AddConst", "examples/polynomial2/polynomial2.h:Polynomial2", "examples/polynomial2_inst/polynomial2_inst.h:Polynomial2Inst", "examples/scalar3/scalar3.h:Scalar3", "examples/matrixmul2/matrixmul2.h:MatrixMul2", "examples/muxmul/muxmul.h:MuxMul", "examples/movingsum/movingsum.h:MovingSum", "src/model/dfcxx/lib/dfcxx/kernel.cpp:Kernel::compile"]}
{"id": "C58", "title": "The IDCT example computes its transform", "statement": "The circuit generated for the example kernel IDCT (examples/idct) shows at its output, a fixed number of cycles after a block of 64 coefficients of 12 bits, the 64 elements of 9 bits of the fixed-point inverse cosine transform of the block, computed with products of 32 bits and 13 bits between the passes over rows and columns; it equals the transform of unbounded integers for every block whose rows have absolute values adding up to at most 360.", "quantifier": "all streams of blocks, all stream positions, ASAP and linear scheduling, all latency configurations in which sums, differences and products of integers take at least a cycle, all orders of buffer insertion and of start nodes, all behaviours of the generated circuit; the second part: all such blocks", "why_tests_cant": "There are 2^768 blocks and the six test benches hold one each; each test bench checks one latency configuration.", "anchors": ["examples/idct/idct.h:IDCT", "examples/idct/idct.h:iclp", "src/model/dfcxx/lib/dfcxx/var.cpp:DFVariable::operator>>", "src/model/dfcxx/lib/dfcxx/var.cpp:DFVariable::cast", "src/model/dfcxx/lib/dfcxx/kernel.cpp:Kernel::compile"]}
{"id": "C59", "title": "The RowIDCT example computes the pass over the rows", "statement": "The circuit generated for the example kernel RowIDCT (examples/row_idct) shows at its outputs out0 to out63, each a fixed number of cycles after the inputs x0 to x63, the results of the first pass of the fixed-point inverse cosine transform over the eight rows of the inputs, as numbers of 16 bits; they equal the pass over unbounded integers for every row of absolute values adding up to at most 2950.", "quantifier": "all 64 input streams of 16-bit numbers, all stream positions, ASAP and linear scheduling, all latency configurations in which sums, differences and products of integers take at least a cycle, all orders of buffer insertion and of start nodes, all behaviours of the generated circuit; the second part: all such rows", "why_tests_cant": "There are 2^1024 inputs; the repository has no test bench for this example.", "anchors": ["examples/row_idct/row_idct.h:RowIDCT", "src/model/dfcxx/lib/dfcxx/io.cpp:IO::input", "src/model/dfcxx/lib/dfcxx/io.cpp:IO::output", "src/model/dfcxx/lib/dfcxx/kernel.cpp:Kernel::compile"]}
{"id": "C60", "title": "The example Kuznechik kernels compute the standard's cipher", "statement": "The example kernels OptKuznechikEncoder, KuznechikEncoderInst and KuznechikEncoder (examples/kuznechik) encrypt every block with every key as GOST R 34.12-2015 says, as dataflow and as the circuit of every scheduler, although their substitution returns 17 bytes instead of 16 and the last one builds its products inline from constants folded beyond 8 bits; they give the streams of the standard library's encoder, and the example decoders restore the blocks.", "quantifier": "all 256-bit keys, all 128-bit blocks, all stream positions, every scheduler, latency configuration and behaviour of the generated circuit", "why_tests_cant": "The key and block spaces have 2^256 and 2^128 elements; the test benches of the examples check a few vectors.", "anchors": ["examples/kuznechik/kuznechik_encoder.h:KuznechikEncoder", "examples/kuznechik/kuznechik_decoder.h:KuznechikDecoder", "examples/opt_kuznechik/opt_kuznechik_encoder.h:OptKuznechikEncoder", "examples/opt_kuznechik/opt_kuznechik_decoder.h:OptKuznechikDecoder", "examples/kuznechik_inst/kuznechik_enc_inst.h:KuznechikEncoderInst", "examples/kuznechik_inst/kuznechik_dec_inst.h:KuznechikDecoderInst"]}
