-Q theories Verif
theories/M31.v
theories/M31Facts.v
theories/Instr.v
theories/InstrFacts.v
theories/VmMem.v
theories/VmMemFacts.v
theories/Vm.v
theories/Isa.v
theories/IsaFacts.v
theories/Machine.v
theories/VmFacts.v
theories/RunFacts.v
theories/Hex.v
theories/HexFacts.v
theories/LoadFacts.v
theories/MemSpec.v
theories/VmPropFacts.v
theories/ArithFacts.v
theories/Prop_Instr.v
theories/Prop_Vm.v
theories/Air.v
theories/AirOpcodes.v
theories/AirSpec.v
theories/AirFacts.v
theories/LimbFacts.v
theories/AirSound1.v
theories/AirSound2.v
theories/AirSound3.v
theories/AirSound.v
theories/AirChain.v
theories/AirMem.v
theories/AirGlobal.v
theories/AirRows.v
theories/AirExec.v
theories/AirAccept.v
theories/AirCheck.v
theories/AirVm.v
theories/AirWitness.v
theories/Prop_Air.v
theories/Prop_Proof.v
theories/TraceIo.v
theories/TraceIoFacts.v
theories/Cli.v
theories/CliSpec.v
theories/CliFacts.v
theories/Abi.v
theories/AbiSpec.v
theories/AbiFacts.v
theories/AbiDecodeFacts.v
theories/Prop_Io.v
theories/Adapter.v
theories/AdapterSpec.v
theories/AdapterFacts.v
theories/AdapterRun.v
theories/AdapterProps.v
theories/AdapterWitness.v
theories/Prop_Adapter.v
theories/Trace.v
theories/TraceSpec.v
theories/TraceFacts.v
theories/TraceSteps1.v
theories/TraceSteps2.v
theories/TraceSteps3.v
theories/TraceSteps4.v
theories/TraceSteps5.v
theories/TraceAll.v
theories/ProverSpec.v
theories/TraceRun.v
theories/Prop_Trace.v
theories/Prover.v
theories/ProverFacts.v
theories/ProverMem.v
theories/ProverTree.v
theories/ProverRun.v
theories/Prop_Prover.v
theories/Merkle.v
theories/MerkleSpec.v
theories/MerkleFacts.v
theories/MerkleProps.v
theories/SpaceFacts.v
theories/MerkleSegs.v
theories/Prop_Merkle.v
theories/Mir.v
theories/MirSem.v
theories/MirPasses.v
theories/MirFacts.v
theories/MirLocalFacts.v
theories/MirSim.v
theories/MirFuseFacts.v
theories/MirBranchFacts.v
theories/MirIsa.v
theories/MirIsaFacts.v
theories/Prop_Mir.v
theories/MirDce.v
theories/MirDceFacts.v
theories/Prop_Dce.v
theories/MirSsa.v
theories/MirSsaFacts.v
theories/MirSsaMap.v
theories/MirCopy.v
theories/MirCopyFacts.v
theories/Prop_Copy.v
theories/MirCse.v
theories/MirCseFacts.v
theories/Prop_Cse.v
theories/MirReach.v
theories/MirConst.v
theories/MirConstFacts.v
theories/Prop_Const.v
theories/MirPhi.v
theories/MirPhiSeq.v
theories/MirPhiFacts.v
theories/Prop_Phi.v
theories/MirLegal.v
theories/MirLegalFacts.v
theories/Prop_Legal.v
theories/Cg.v
theories/CgLink.v
theories/CgSpec.v
theories/CgPassFacts.v
theories/CgStepFacts.v
theories/CgBoolFacts.v
theories/CgLinkFacts.v
theories/CgLayoutFacts.v
theories/CgRun.v
theories/Prop_Codegen.v
theories/CgCheck.v
theories/CgExec.v
theories/CgArith.v
theories/CgOps.v
theories/CgCompute.v
theories/CgInstr.v
theories/CgCall.v
theories/CgSim.v
theories/CgModule.v
theories/CgVm.v
theories/CgWhole.v
theories/Prop_Compile.v
theories/Src.v
theories/SrcSem.v
theories/SrcCheck.v
theories/SrcFacts.v
theories/Prop_Source.v
theories/Lower.v
theories/LowerSpec.v
theories/LowerFacts.v
theories/LowerStep.v
theories/LowerStmt.v
theories/LowerSim.v
theories/LowerFun.v
theories/Prop_Lower.v
theories/MirType.v
theories/MirTypeFacts.v
theories/PipeLift.v
theories/MirSroa.v
theories/SroaSpec.v
theories/SroaFacts.v
theories/SroaStep.v
theories/SroaRun.v
theories/SroaWhole.v
theories/SroaFlat.v
theories/SroaCheck.v
theories/Pipe.v
theories/PipeCheck.v
theories/PipeFacts.v
theories/PipeSource.v
theories/Prop_Pipe.v
theories/Lex.v
theories/Syn.v
theories/SynSpec.v
theories/Parse.v
theories/Fmt.v
theories/ParseComb.v
theories/ParseFacts.v
theories/ParseStmt.v
theories/ParseSound.v
theories/LexFacts.v
theories/FmtFacts.v
theories/SynFacts.v
theories/Prop_Syntax.v
theories/Sema.v
theories/SemaSpec.v
theories/SemaFacts.v
theories/Prop_Sema.v
theories/Typing.v
theories/TypingSpec.v
theories/Prop_Typing.v
theories/Elab.v
theories/Named.v
theories/ElabFacts.v
theories/ElabFile.v
theories/Prop_Elab.v
theories/ElabCrate.v
theories/NamedCrate.v
theories/ElabCrateFacts.v
theories/Prop_Crate.v
theories/Prop_Sroa.v
theories/Imports.v
theories/ImportsSpec.v
theories/ImportsFacts.v
theories/ImportsCrate.v
theories/Prop_Imports.v
theories/Server.v
theories/ServerSpec.v
theories/ServerFacts.v
theories/ServerRun.v
theories/Prop_Server.v
theories/Position.v
theories/PositionSpec.v
theories/PositionFacts.v
theories/Prop_Position.v
theories/Project.v
theories/ProjectSpec.v
theories/ProjectFacts.v
theories/Prop_Project.v
theories/Poseidon.v
theories/PoseidonSpec.v
theories/PoseidonFacts.v
theories/Prop_Poseidon.v
theories/Tables.v
theories/TablesFacts.v
theories/Prop_Tables.v
theories/Wasm.v
theories/WasmSpec.v
theories/WasmOps.v
theories/WasmFlow.v
theories/WasmFacts.v
theories/Prop_Wasm.v
theories/MdTest.v
theories/MdTestSpec.v
theories/Prop_MdTest.v
theories/Transcript.v
theories/Prop_Transcript.v
theories/Prop_PublicSum.v
theories/Comments.v
theories/CommentsSpec.v
theories/Prop_Comments.v
theories/Dups.v
theories/Prop_Dups.v
theories/StructLit.v
theories/Prop_StructLit.v
theories/ServerChange.v
theories/Prop_ServerChange.v
theories/Compat.v
theories/Prop_Compat.v
theories/AssignPath.v
theories/Prop_AssignPath.v
theories/Destruct.v
theories/Prop_Destruct.v
theories/IndexCheck.v
theories/Prop_IndexCheck.v
theories/ConstArray.v
theories/Prop_ConstArray.v
theories/ArrayLit.v
theories/Prop_ArrayLit.v
theories/StmtCheck.v
theories/Prop_StmtCheck.v
theories/Access.v
theories/Prop_Access.v
theories/Driver.v
theories/Prop_Driver.v
theories/Undeclared.v
theories/Prop_Undeclared.v
theories/Prop_Own.v
theories/Progress.v
theories/Prop_Progress.v
theories/Scroll.v
theories/Prop_Scroll.v
theories/Padding.v
theories/Prop_Padding.v
theories/CheckAll.v
theories/Prop_CheckAll.v
