-Q theories Verif
theories/Base/NpLite.v
theories/Base/NpFacts.v
theories/Base/Deriv.v
theories/Spec/KernelSpec.v
theories/Model/KernelSqExp.v
theories/Model/KernelMatern.v
theories/Model/KernelRatQuad.v
theories/Model/KernelDispatch.v
theories/Model/KernelMaskFree.v
theories/Proofs/KernTac.v
theories/Proofs/KernGradBlocks.v
theories/Proofs/RadialCalculus.v
theories/Proofs/RadialFns.v
theories/Proofs/KernelExact.v
theories/Proofs/KernelExtra.v
theories/Proofs/ThetaGradBlocks.v
theories/Proofs/ThetaGrad.v
theories/Proofs/ThetaGradBase.v
theories/Proofs/ThetaGradMask.v
theories/Proofs/AlphaGrad.v
theories/Proofs/HessX.v
theories/Proofs/HessX2.v
theories/Proofs/MaskFree.v
theories/Proofs/HessXMask.v
theories/Proofs/FloorFacts.v
theories/Props/FloorProps.v
theories/Props/KernelProps.v
theories/Props/KernelDerivProps.v
theories/Props/MaskFreeProps.v
theories/Spec/LinAlgSpec.v
theories/Model/Chol.v
theories/Proofs/LinAlg.v
theories/Proofs/CholCorrect.v
theories/Proofs/Jets.v
theories/Proofs/Mixture.v
theories/Proofs/MixRatQu.v
theories/Proofs/MixMatern.v
theories/Proofs/Psd.v
theories/Props/PsdProps.v
theories/Proofs/RowSum.v
theories/Proofs/JetGersh.v
theories/Proofs/PreconBound.v
theories/Model/CommonFun.v
theories/Model/WellCond.v
theories/Model/Rescaling.v
theories/Model/NlcScaling.v
theories/Model/HpBounds.v
theories/Model/Tables.v
theories/Spec/TableSpec.v
theories/Props/TableProps.v
theories/Spec/BoundSpec.v
theories/Props/BoundProps.v
theories/Model/GpState.v
theories/Model/SetDataState.v
theories/Model/Cov.v
theories/Spec/GpSpec.v
theories/Proofs/CovStruct.v
theories/Proofs/StateFacts.v
theories/Proofs/SetDataFacts.v
theories/Proofs/CondBound.v
theories/Proofs/NoiseFacts.v
theories/Proofs/NuggetCond.v
theories/Proofs/NuggetMain.v
theories/Proofs/CondMain.v
theories/Proofs/Det.v
theories/Props/CondProps.v
theories/Proofs/Precon.v
theories/Props/PreconProps.v
theories/Spec/DataSpec.v
theories/Proofs/MinMax.v
theories/Proofs/DataFacts.v
theories/Props/DataProps.v
theories/Spec/RescaleSpec.v
theories/Spec/NlcSpec.v
theories/Proofs/RescaleFacts.v
theories/Props/RescaleProps.v
theories/Props/NlcProps.v
theories/Props/NlcHessProps.v
theories/Model/RescaleLoop.v
theories/Spec/ThetaSpec.v
theories/Proofs/ThetaRescale.v
theories/Props/ThetaProps.v
theories/Spec/HpSpec.v
theories/Model/HpInfo.v
theories/Model/HpGrad.v
theories/Model/MeanFun.v
theories/Model/Lkd.v
theories/Proofs/HpInfoFacts.v
theories/Proofs/HpGradFacts.v
theories/Proofs/HpGradMain.v
theories/Proofs/HpGradFree.v
theories/Proofs/LinDeriv.v
theories/Proofs/LkdCore.v
theories/Proofs/LkdFacts.v
theories/Props/HpGradProps.v
theories/Proofs/LkdMain.v
theories/Proofs/CondGrad.v
theories/Proofs/CondFro.v
theories/Proofs/CondLkd.v
theories/Spec/LkdSpec.v
theories/Spec/CondSpec.v
theories/Props/LkdProps.v
theories/Model/OptzLkd.v
theories/Spec/OptzSpec.v
theories/Props/OptzProps.v
theories/Props/OptzProps2.v
theories/Props/ReportProps.v
theories/Props/CondGradProps.v
theories/Props/CondGradProps2.v
theories/Model/EvalModel.v
theories/Model/EvalWrap.v
theories/Model/History.v
theories/Model/StartPts.v
theories/Model/OptzHp.v
theories/Model/Object.v
theories/Model/Session.v
theories/Model/Construct.v
theories/Proofs/EvalKern.v
theories/Proofs/EvalFacts.v
theories/Spec/EvalSpec.v
theories/Spec/OrderSpec.v
theories/Spec/CoordSpec.v
theories/Spec/HistSpec.v
theories/Spec/StartSpec.v
theories/Proofs/StartFacts.v
theories/Props/StartProps.v
theories/Spec/ObjSpec.v
theories/Spec/RejectSpec.v
theories/Spec/SessionSpec.v
theories/Spec/NewSpec.v
theories/Proofs/EvalInterp.v
theories/Proofs/HistFacts.v
theories/Proofs/ObjFacts.v
theories/Proofs/EvalMain.v
theories/Props/EvalProps.v
theories/Props/EvalProps2.v
theories/Props/EvalProps3.v
theories/Props/HistProps.v
theories/Props/ObjProps.v
theories/Props/ObjProps2.v
theories/Props/RejectProps.v
theories/Props/ObjProps3.v
theories/Proofs/OptzHpFacts.v
theories/Props/OptzHpProps.v
theories/Props/OptzTotal.v
theories/Props/OptzTotal2.v
theories/Proofs/SessionFacts.v
theories/Props/SessionProps.v
theories/Props/SessionExample.v
theories/Props/NewProps.v
theories/Props/VaryProps.v
theories/Props/SelectProps.v
theories/Props/FixedKernelProps.v
theories/Props/FroProps.v
theories/Proofs/Reorder.v
theories/Props/OrderProps.v
theories/Props/OrderLkd.v
theories/Props/BatchProps.v
theories/Props/CoordProps.v
theories/Spec/UnitSpec.v
theories/Props/UnitProps.v
theories/Props/UnitProps2.v
theories/Props/UnitLkd.v
theories/Props/UnitPnlt.v
theories/Spec/LinearSpec.v
theories/Props/LinearProps.v
theories/Proofs/FarFacts.v
theories/Proofs/FarHess.v
theories/Props/FarProps.v
theories/Props/FarProps2.v
theories/Proofs/LipFacts.v
theories/Props/LipProps.v
theories/Spec/NoiseOrderSpec.v
theories/Props/NoiseOrderProps.v
theories/Spec/BelieverSpec.v
theories/Props/BelieverProps.v
theories/Spec/NativeSpec.v
theories/Props/NativeProps.v
theories/Model/GradTest.v
theories/Spec/GradTestSpec.v
theories/Props/HessSym.v
theories/Props/GradTestProps.v
theories/Props/GradTestProps2.v
theories/Model/Scripts.v
theories/Spec/ScriptSpec.v
theories/Spec/FloatSpec.v
theories/Model/CholFl.v
theories/Model/EvalFl.v
theories/Proofs/FlChol.v
theories/Proofs/FlOrder.v
theories/Proofs/FlMargin.v
theories/Proofs/FlSolve.v
theories/Proofs/FlSol.v
theories/Proofs/FlEval.v
theories/Proofs/FlTarget.v
theories/Props/CorrProps.v
theories/Props/ScriptProps.v
theories/Props/AcqProps.v
theories/Props/ResultProps.v
theories/Props/ScaleProps.v
theories/Props/NuggetCurveProps.v
theories/Props/FloatProps.v
theories/Props/FloatProps2.v
theories/Props/FloatProps3.v
theories/Props/FloatProps4.v
theories/Spec/FloatKernSpec.v
theories/Spec/FloatGradSpec.v
theories/Spec/FloatLkdSpec.v
theories/Model/KernFl.v
theories/Model/EvalGradFl.v
theories/Model/EvalStdGradFl.v
theories/Model/LkdFl.v
theories/Proofs/FlFac.v
theories/Proofs/FlKern.v
theories/Proofs/FlCov.v
theories/Proofs/FlCovMain.v
theories/Proofs/FlPred.v
theories/Proofs/FlGrad.v
theories/Proofs/FlStd.v
theories/Proofs/FlLkd.v
theories/Proofs/FlLkdFree.v
theories/Props/FloatProps5.v
theories/Props/FloatKernProps.v
theories/Props/FloatKernProps2.v
theories/Props/FloatKernProps3.v
theories/Props/FloatGradProps.v
theories/Props/FloatGradProps2.v
theories/Props/FloatLkdProps.v
theories/Props/FloatLkdProps2.v
theories/Props/LkdFloorProps.v
