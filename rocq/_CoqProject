-Q theories Verif
theories/TopSort.v
theories/TopSortProofs.v
theories/Types.v
theories/Word.v
theories/Value.v
theories/OpSpec.v
theories/Graph.v
theories/GraphSpec.v
theories/BuilderProofs.v
theories/TypesProofs.v
theories/BuilderProofs2.v
theories/KernelSort.v
theories/BuilderTopo.v
theories/GraphFacts.v
theories/Dfcir.v
theories/StreamSpec.v
theories/Sched.v
theories/SchedSpec.v
theories/SchedProofs.v
theories/DfcirProofs.v
theories/SchedStream.v
theories/SchedMain.v
theories/SchedFinal.v
theories/DfcirBuild.v
theories/KernelSpec.v
theories/KernelValues.v
theories/TypingSpec.v
theories/TypingProofs.v
theories/Instance.v
theories/InstanceSpec.v
theories/InstanceProofs.v
theories/InstanceBind.v
theories/InstanceLoop.v
theories/InstanceMain.v
theories/InstanceStep.v
theories/InstanceDrop.v
theories/InstanceFlow.v
theories/Sim.v
theories/SimSpec.v
theories/WordProofs.v
theories/SimProofs.v
theories/HwSpec.v
theories/HwProofs.v
theories/SimFacts.v
theories/SimInput.v
theories/SimInputSpec.v
theories/SimInputProofs.v
theories/SimRunSpec.v
theories/SimRunProofs.v
theories/KernelFlow.v
theories/SchedProgress.v
theories/SchedGraph.v
theories/LifeProofs.v
theories/SchedFacts.v
theories/InstanceFacts.v
theories/Linear.v
theories/LinearSpec.v
theories/LinearProofs.v
theories/LinearMain.v
theories/LinearFinal.v
theories/LinearProgress.v
theories/LinearFacts.v
theories/Pipeline.v
theories/PipelineSpec.v
theories/PipelineProofs.v
theories/PipelineMain.v
theories/PipelineFlow.v
theories/PipelineFacts.v
theories/Latency.v
theories/LatencySpec.v
theories/LatencyProofs.v
theories/LatencyFacts.v
theories/Verilog.v
theories/Stubs.v
theories/Naming.v
theories/NamingProofs.v
theories/StubsSpec.v
theories/StubsProofs.v
theories/StubsFacts.v
theories/ProgTyping.v
theories/LibraryFacts.v
theories/Firrtl.v
theories/Lower.v
theories/RtlSpec.v
theories/FirrtlProofs.v
theories/RtlProofs.v
theories/RtlFlow.v
theories/RtlRun.v
theories/RtlFacts.v
theories/SliceFacts.v
theories/Prog.v
theories/ProgFrame.v
theories/ProgRules.v
theories/ProgCalls.v
theories/ProgMux.v
theories/ProgPorts.v
theories/ProgInstance.v
theories/StdKernels.v
theories/CryptoSpec.v
theories/GaloisFacts.v
theories/GaloisField.v
theories/KuzFacts.v
theories/ProgLib.v
theories/GaloisKernel.v
theories/KuzKernel.v
theories/KuzCipher.v
theories/MagmaKernel.v
theories/PropertiesGraph.v
theories/PropertiesSim.v
theories/PropertiesVcd.v
theories/PropertiesSched.v
theories/PropertiesInstance.v
theories/PropertiesLife.v
theories/PropertiesLinear.v
theories/PropertiesPipeline.v
theories/PropertiesLatency.v
theories/PropertiesStubs.v
theories/PropertiesRtl.v
theories/StdSpec.v
theories/ProgTop.v
theories/PropertiesCrypto.v
theories/Verify.v
theories/VerifySpec.v
theories/VerifyProofs.v
theories/VerifyFlow.v
theories/PropertiesVerify.v
theories/Dot.v
theories/DotSpec.v
theories/DotProofs.v
theories/PropertiesDot.v
theories/Driver.v
theories/DriverSpec.v
theories/DriverProofs.v
theories/PropertiesDriver.v
theories/Asm.v
theories/AsmSpec.v
theories/AsmProofs.v
theories/AsmBuild.v
theories/AsmFlow.v
theories/Golden.v
theories/PropertiesAsm.v
theories/Interface.v
theories/InterfaceSpec.v
theories/InterfaceProofs.v
theories/PropertiesInterface.v
theories/Examples.v
theories/PropertiesExamples.v
theories/FlatRules.v
theories/FlatCalls.v
theories/FlatSpec.v
theories/FlatTop.v
theories/Idct.v
theories/IdctSpec.v
theories/IdctKernel.v
theories/IdctBody.v
theories/PropertiesIdct.v
theories/RowSpec.v
theories/RowIdct.v
theories/RowKernel.v
theories/RowBody.v
theories/PropertiesRow.v
theories/ExampleKuz.v
theories/KuzExample.v
theories/InlineKuz.v
theories/InlineMul.v
theories/InlineCipher.v
theories/PropertiesExample.v
