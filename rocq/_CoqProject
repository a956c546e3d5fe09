-Q theories Verif
theories/Base.v
theories/Tensor.v
theories/Spec.v
theories/BatchChunk.v
theories/Dispatch.v
theories/SpecDispatch.v
theories/BaseProofs.v
theories/TensorProofs.v
theories/DispatchProofs.v
theories/SelectProofs.v
theories/SyncProofs.v
theories/Example_Dispatch.v
theories/Prop_Dispatch.v
theories/Sched.v
theories/SpecSched.v
theories/Shared.v
theories/SchedProofs.v
theories/TableProofs.v
theories/SharedProofs.v
theories/Prop_Sched.v
theories/Async.v
theories/SpecAsync.v
theories/AsyncProofs.v
theories/AsyncProofs2.v
theories/AsyncLive.v
theories/AsyncEnd.v
theories/AsyncOp.v
theories/AsyncOpProofs.v
theories/Except.v
theories/SpecExcept.v
theories/ExceptProofs.v
theories/Example_Async.v
theories/Prop_Async.v
theories/Pool.v
theories/SpecPool.v
theories/PoolProofs.v
theories/Prop_Pool.v
theories/PoolLife.v
theories/SpecPoolLife.v
theories/PoolLifeProofs.v
theories/Prop_PoolLife.v
theories/Prop_Except.v
theories/SpecMap.v
theories/SmapProofs.v
theories/Rename.v
theories/SpecRename.v
theories/RenameProofs.v
theories/Params.v
theories/SpecParams.v
theories/ParamsProofs.v
theories/Prop_Params.v
theories/Mpi.v
theories/SpecMpi.v
theories/MpiProofs.v
theories/Prop_Mpi.v
theories/Log.v
theories/SpecLog.v
theories/LogProofs.v
theories/Prop_Log.v
theories/Broadcast.v
theories/SpecBroadcast.v
theories/BroadcastProofs.v
theories/FwdRows.v
theories/Misalign.v
theories/Prop_Forward.v
theories/Float.v
theories/Newton.v
theories/SpecNewton.v
theories/NewtonProofs.v
theories/MaskedProofs.v
theories/Example_Newton.v
theories/Prop_Newton.v
theories/Pack.v
theories/SpecPack.v
theories/PackProofs.v
theories/Prop_Pack.v
theories/Implicit.v
theories/SpecImplicit.v
theories/ImplicitProofs.v
theories/CaptureProofs.v
theories/Substep.v
theories/SubstepGuess.v
theories/Prop_Implicit.v
theories/SpecSubstep.v
theories/DriveProofs.v
theories/RowTableProofs.v
theories/SubstepProofs.v
theories/SubstepRunProofs.v
theories/SpecDyadic.v
theories/DyadicProofs.v
theories/Example_Substep.v
theories/Prop_Substep.v
theories/Mat.v
theories/Jac.v
theories/SubstepJac.v
theories/JacModel.v
theories/SpecJac.v
theories/MatProofs.v
theories/JacProofs.v
theories/JacRunProofs.v
theories/SpecLayout.v
theories/LayoutProofs.v
theories/JacMainProofs.v
theories/JacDirectProofs.v
theories/JvpProofs.v
theories/SpecAlgebra.v
theories/AlgebraProofs.v
theories/JacExactProofs.v
theories/Example_Jac.v
theories/Prop_Jac.v
theories/ParamJac.v
theories/SpecParam.v
theories/ParamProofs.v
theories/ParamMainProofs.v
theories/ParamVjpProofs.v
theories/ParamExactProofs.v
theories/ParamDirectProofs.v
theories/Example_Param.v
theories/Prop_Param.v
theories/SpecSubstepJac.v
theories/SubstepJacProofs.v
theories/SubstepJacRunProofs.v
theories/SubstepProductProofs.v
theories/SubstepIftProofs.v
theories/Example_SubstepJac.v
theories/Prop_SubstepJac.v
theories/Krylov.v
theories/SpecKrylov.v
theories/KrylovProofs.v
theories/KrylovCostProofs.v
theories/KrylovRowProofs.v
theories/KrylovGmresProofs.v
theories/KrylovExactProofs.v
theories/KrylovSoloProofs.v
theories/KrylovBudgetProofs.v
theories/KrylovSystem.v
theories/SpecKrylovSystem.v
theories/KrylovFlatProofs.v
theories/KrylovCacheProofs.v
theories/KrylovDenseProofs.v
theories/Example_Krylov.v
theories/Prop_Krylov.v
theories/Prop_KrylovSystem.v
theories/FwdModel.v
theories/SpecValue.v
theories/ValueProofs.v
theories/Prop_Value.v
theories/SystemAoti.v
theories/SpecSolved.v
theories/SolvedProofs.v
theories/Example_Solved.v
theories/Prop_Solved.v
theories/SpecSubSolved.v
theories/SubSolvedProofs.v
theories/Example_SubSolved.v
theories/Prop_SubSolved.v
theories/SpecKrylovStep.v
theories/KrylovStepProofs.v
theories/Example_KrylovStep.v
theories/Prop_KrylovStep.v
theories/Load.v
theories/SpecLoad.v
theories/LoadProofs.v
theories/Example_Load.v
theories/Prop_Load.v
theories/Bridge.v
theories/SpecBridge.v
theories/BridgeProofs.v
theories/Prop_Bridge.v
theories/SpecGmres.v
theories/RealVec.v
theories/GmresBasis.v
theories/GmresExactProofs.v
theories/GmresStopProofs.v
theories/Example_Gmres.v
theories/Prop_Gmres.v
theories/SpecStepGmres.v
theories/StepGmresProofs.v
theories/Example_StepGmres.v
theories/Example_GmresStop.v
theories/Prop_StepGmres.v
theories/Prop_GmresStop.v
theories/Interp.v
theories/SpecInterp.v
theories/InterpProofs.v
theories/Example_Interp.v
theories/Prop_Interp.v
theories/OpReg.v
theories/SpecOpReg.v
theories/OpRegProofs.v
theories/Prop_OpReg.v
theories/SpecIncrement.v
theories/IncrementProofs.v
theories/Example_Increment.v
theories/Prop_Increment.v
theories/LogThreads.v
theories/SpecLogThreads.v
theories/LogThreadsProofs.v
theories/LogEndProofs.v
theories/Example_LogThreads.v
theories/Prop_LogThreads.v
theories/NewtonLog.v
theories/SpecNewtonLog.v
theories/NewtonLogProofs.v
theories/NewtonTellProofs.v
theories/Example_NewtonLog.v
theories/Prop_NewtonLog.v
theories/Runtime.v
theories/SpecRuntime.v
theories/RuntimeProofs.v
theories/RuntimeComplete.v
theories/Example_Runtime.v
theories/Prop_Runtime.v
theories/RuntimeParam.v
theories/SpecRuntimeParam.v
theories/RuntimeParamProofs.v
theories/Example_RuntimeParam.v
theories/Prop_RuntimeParam.v
theories/Bundle.v
theories/SpecBundle.v
theories/BundleProofs.v
theories/Example_Bundle.v
theories/Prop_Bundle.v
theories/Eager.v
theories/SpecEager.v
theories/EagerProofs.v
theories/Example_Eager.v
theories/Prop_Eager.v
theories/Serve.v
theories/SpecServe.v
theories/ServeProofs.v
theories/Example_Serve.v
theories/Prop_Serve.v
theories/SubstepLog.v
theories/SpecSubstepLog.v
theories/SubstepLogProofs.v
theories/SubstepLogRunProofs.v
theories/SubstepLogContextProofs.v
theories/Example_SubstepLog.v
theories/Prop_SubstepLog.v
theories/ServeExtProofs.v
theories/ServeJac.v
theories/SpecServeJac.v
theories/ServeStitchProofs.v
theories/ServeNamesProofs.v
theories/ServeJacProofs.v
theories/Example_ServeJac.v
theories/Prop_ServeJac.v
theories/KrylovLog.v
theories/SpecKrylovLog.v
theories/KrylovLogProofs.v
theories/KrylovLinesProofs.v
theories/KrylovLogSolveProofs.v
theories/KrylovLogGmresProofs.v
theories/KrylovLogStepProofs.v
theories/Example_KrylovLog.v
theories/Prop_KrylovLog.v
theories/EagerModel.v
theories/SpecEagerModel.v
theories/EagerModelProofs.v
theories/EagerSeedProofs.v
theories/EagerCallProofs.v
theories/EagerTwinProofs.v
theories/Example_EagerModel.v
theories/Prop_EagerModel.v
theories/ExtractTemp.v
theories/SpecExtractTemp.v
theories/ExtractTempProofs.v
theories/ExtractTempMoreProofs.v
theories/Example_ExtractTemp.v
theories/Prop_ExtractTemp.v
theories/EagerParam.v
theories/SpecEagerParam.v
theories/EagerParamProofs.v
theories/EagerParamMoreProofs.v
theories/EagerParamCallProofs.v
theories/Example_EagerParam.v
theories/Prop_EagerParam.v
theories/FailContext.v
theories/SpecFailContext.v
theories/FailContextProofs.v
theories/Prop_FailContext.v
theories/Storage.v
theories/SpecStorage.v
theories/StorageProofs.v
theories/Prop_Storage.v
theories/Prop_StorageServe.v
theories/Settings.v
theories/SpecSettings.v
theories/SettingsProofs.v
theories/Prop_Settings.v
theories/PyModel.v
theories/PyModelProofs.v
theories/Prop_PyModel.v
