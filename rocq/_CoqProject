-Q theories Verif
theories/Base.v
theories/BaseLemmas.v
theories/Data.v
theories/UniqueQueue.v
theories/LCT.v
theories/ProblemDefine.v
theories/Flow.v
theories/ProblemSolver.v
theories/LCTChecked.v
theories/LCTTree.v
theories/LCTHeap.v
theories/LCTSplay.v
theories/LCTBound.v
theories/LCTSpec.v
theories/LCTForest.v
theories/LCTOps.v
theories/LCTRun.v
theories/UQSpec.v
theories/UQProof.v
theories/PropStructures.v
theories/Sums.v
theories/NetMath.v
theories/Spec.v
theories/Convex.v
theories/FlowNet.v
theories/FlowChecked.v
theories/FlowFrame.v
theories/FlowSpec.v
theories/PDProof.v
theories/FlowInv.v
theories/FlowPhase.v
theories/FlowRun.v
theories/FlowNew.v
theories/FlowOpt.v
theories/FlowStates.v
theories/SpecLemmas.v
theories/SolverNet.v
theories/SolverProof.v
theories/FlowProps.v
theories/Oracles.v
theories/OracleProof.v
theories/SolverProps.v
theories/SolverSafe.v
theories/ExampleData.v
theories/PropSolver.v
theories/PropFlow.v
theories/WrappedDouble.v
theories/FloatSpec.v
theories/FloatExact.v
theories/MiscProof.v
theories/PropMisc.v
theories/Sim.v
theories/SolverChecked.v
theories/SolverSim.v
theories/SolverSize.v
theories/FloatRun.v
theories/FloatRound.v
theories/FloatWrapped.v
theories/FloatExample.v
theories/PropFloat.v
theories/CostScaling.v
theories/ScaleNet.v
theories/ScaleRefine.v
theories/ScaleRun.v
theories/ScaleSpec.v
theories/ScaleProof.v
theories/SimpleProof.v
theories/ScaleExample.v
theories/PropScaling.v
theories/Generator.v
theories/GenSpec.v
theories/GenRng.v
theories/GenGraphProof.v
theories/GenProof.v
theories/GenTable.v
theories/GenUniform.v
theories/GenExact.v
theories/TestSuite.v
theories/TestProof.v
theories/GenExample.v
theories/PropGen.v
theories/Hom.v
theories/ScaleRel.v
theories/ScaleRunRel.v
theories/SimpleRel.v
theories/OracleRel.v
theories/FloatOracles.v
theories/TestFloat.v
theories/FuelMono.v
theories/FlowShift.v
theories/FloatEndless.v
theories/Decide.v
theories/FixedTests.v
theories/FixedProof.v
theories/TestExample.v
theories/PropTests.v
theories/CertSpec.v
theories/SolverCert.v
theories/LCTLinear.v
theories/FlowRise.v
theories/FloatOverflow.v
theories/PropMore.v
theories/Printing.v
theories/PrintProof.v
theories/WorkSpec.v
theories/FlowTotal.v
theories/FlowFar.v
theories/NonConvex.v
theories/FloatNull.v
theories/PropWork.v
theories/PrimalSpec.v
theories/FlowPrimal.v
theories/PrimalSolve.v
theories/PrimalExample.v
theories/WorkSolve.v
theories/FlowSteps.v
theories/StepsTotal.v
theories/PropPrimal.v
theories/Capacity.v
theories/PropCapacity.v
theories/GenMore.v
theories/GenMoreSpec.v
theories/GenWeb.v
theories/GenShapes.v
theories/GenTrees.v
theories/GenCactus.v
theories/GenParts.v
theories/GenBipartite.v
theories/GenGrid.v
theories/GenMoreThm.v
theories/PropGenMore.v
theories/LCTTime.v
theories/LCTCount.v
theories/FlowTime.v
theories/FlowCount.v
theories/TimeSpec.v
theories/TimeTotal.v
theories/SolverTime.v
theories/SolverCount.v
theories/PropTime.v
theories/Text.v
theories/TextProof.v
theories/WrappedSpec.v
theories/FloatAny.v
theories/WrappedLaws.v
theories/TextTies.v
theories/PropText.v
theories/ThrowSpec.v
theories/Throw.v
theories/ThrowProof.v
theories/PropThrow.v
theories/MachSpec.v
theories/MachProof.v
theories/PropData.v
theories/FracSpec.v
theories/FracProof.v
theories/LatticeProof.v
theories/FracExamples.v
theories/PropFrac.v
theories/GenFar.v
theories/GenFarSpec.v
theories/GenFarFloat.v
theories/GenFarProof.v
theories/GenFarShapes.v
theories/GenFarThm.v
theories/PropGenFar.v
theories/TextSpec.v
theories/TextStream.v
theories/TextStreamProof.v
theories/StreamCases.v
theories/PropStream.v
theories/ProxSpec.v
theories/ProxProof.v
theories/ProxExamples.v
theories/PropProx.v
theories/GenUnit.v
theories/BinSpec.v
theories/BinFormat.v
theories/BinRun.v
theories/BinExample.v
theories/PropBin.v
theories/LCTSizes.v
theories/LCTAmort.v
theories/LCTAmortOps.v
theories/LCTAmortRun.v
theories/PropAmort.v
theories/FlowLog.v
theories/FlowReplay.v
theories/CallSpec.v
theories/CallTotal.v
theories/PropCalls.v
theories/EvalSpec.v
theories/EvalLog.v
theories/EvalErase.v
theories/EvalSim.v
theories/EvalFlow.v
theories/EvalTotal.v
theories/PropEval.v
theories/GenObj.v
theories/GenObjSpec.v
theories/GenObjProof.v
theories/GenObjTree.v
theories/PropGenObj.v
theories/MemRun.v
theories/MemSpec.v
theories/MemSim.v
theories/MemExample.v
theories/PropMem.v
theories/Closure.v
theories/ClosureProof.v
theories/ClosureDeep.v
theories/PropClosure.v
theories/GenShuffle.v
theories/PropShuffle.v
theories/GenSeed.v
theories/PropSeed.v
theories/Client.v
theories/ClientProof.v
theories/PropClient.v
theories/FlowParam.v
theories/PropParam.v
theories/GroupPre.v
theories/EvHom.v
theories/RealSpec.v
theories/RealProof.v
theories/RealExample.v
theories/PropReal.v
theories/GroupSpec.v
theories/GroupSigns.v
theories/GroupExpr.v
theories/GroupProof.v
theories/GroupInst.v
theories/GroupExample.v
theories/PropGroup.v
theories/TreeFlow.v
theories/TreeFollow.v
theories/TreeProof.v
theories/PropTree.v
theories/Reset.v
theories/ResetProof.v
theories/PropReset.v
theories/AnyOrder.v
theories/AnyOrderProof.v
theories/PropOrder.v
theories/MonotoneSpec.v
theories/MonotoneProof.v
theories/PropMonotone.v
theories/NonConvexEndless.v
theories/NonConvexDouble.v
theories/PropNonConvex.v
theories/InfEndless.v
theories/PropInfinite.v
theories/NDebug.v
theories/NDebugProof.v
theories/PropRelease.v
theories/Rounding.v
theories/RoundingProof.v
theories/PropRounding.v
theories/Gather.v
theories/GatherProof.v
theories/GatherExample.v
theories/PropGather.v
theories/MixSpec.v
theories/MixProof.v
theories/PropMix.v
theories/CostCheck.v
theories/CostCheckProof.v
theories/PropCostCheck.v
theories/LowerProof.v
theories/PropLower.v
theories/ClosedProof.v
theories/PropClosed.v
