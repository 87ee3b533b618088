-Q theories Verif
theories/PyBase.v
theories/Scalar.v
theories/BigSum.v
theories/Index.v
theories/Tensor.v
theories/TensorFacts.v
theories/Spec.v
theories/SpecFacts.v
theories/QMath.v
theories/QTN.v
theories/QOperator.v
theories/ExpandFacts.v
theories/ExpandFacts2.v
theories/ContractFacts.v
theories/ContractFacts2.v
theories/CInst.v
theories/GateSpec.v
theories/QGates.v
theories/GateCalls.v
theories/GateFacts.v
theories/GateFacts2.v
theories/GateFacts3.v
theories/GateFacts4.v
theories/GateFacts5.v
theories/GateFacts6.v
theories/GateProofs.v
theories/WireFacts.v
theories/Prop_Gates.v
theories/MPSSpec.v
theories/MPSFacts1.v
theories/MPSFacts2.v
theories/MPSFacts3.v
theories/MPSFacts4.v
theories/MPSFacts5.v
theories/MPSFacts6.v
theories/MPSFacts7.v
theories/MPSFacts8.v
theories/RunSpec.v
theories/MPSFacts9.v
theories/MPSFacts10.v
theories/MPSFacts11.v
theories/MPSFacts12.v
theories/QMathC.v
theories/MPSCases.v
theories/Prop_MPS.v
theories/LayerSpec.v
theories/QLayers.v
theories/LayerCalls.v
theories/LayerFacts1.v
theories/LayerFacts2.v
theories/LayerFacts3.v
theories/LayerFacts4.v
theories/LayerProofs.v
theories/Prop_Layers.v
theories/CircuitSpec.v
theories/QCircuit.v
theories/StateFacts.v
theories/CircuitFacts1.v
theories/CircuitProofs.v
theories/CircuitCases.v
theories/Prop_Circuit.v
theories/QGradient.v
theories/GradFacts1.v
theories/GradFacts2.v
theories/GradFacts3.v
theories/GradFacts4.v
theories/GradSpec.v
theories/GradProofs.v
theories/GradProofs2.v
theories/GradCases.v
theories/GradDemo.v
theories/Prop_Gradient.v
theories/PTSpec.v
theories/PTFacts1.v
theories/PTFacts2.v
theories/PTFacts3.v
theories/PTFacts4.v
theories/PTProofs.v
theories/PTCases.v
theories/Prop_PartialTrace.v
theories/MeasSpec.v
theories/MeasFacts.v
theories/MeasCases.v
theories/Prop_Measure.v
theories/QGateLegacy.v
theories/LegacySpec.v
theories/LegacyFacts.v
theories/LegacyCases.v
theories/Prop_Legacy.v
theories/EmbedSpec.v
theories/QEmbedding.v
theories/EmbedFacts.v
theories/EmbedFacts2.v
theories/Prop_Embedding.v
theories/QuanvSpec.v
theories/QQuanv.v
theories/QuanvFacts.v
theories/QuanvProofs.v
theories/Prop_Quanv.v
theories/MPDOSpec.v
theories/MPDOFacts1.v
theories/MPDOFacts2.v
theories/Prop_MPDO.v
theories/TruncSpec.v
theories/TruncFacts1.v
theories/TruncFacts2.v
theories/Prop_Trunc.v
theories/SVDExist1.v
theories/SVDExist2.v
theories/SVDExist3.v
theories/SVDExist4.v
theories/SVDExist5.v
theories/LayerOldSpec.v
theories/QLayerOld.v
theories/LayerOldFacts.v
theories/Prop_LayerOld.v
theories/TruncRun1.v
theories/TruncRun2.v
theories/TruncRun3.v
theories/TruncRun4.v
theories/TruncRun5.v
theories/TruncRunSpec.v
theories/TruncRun6.v
theories/TruncRun8.v
theories/TruncRun7.v
theories/TruncRun9.v
theories/Prop_TruncRun.v
theories/TruncRun10.v
theories/Prop_TruncExp.v
theories/LayerOldFacts2.v
theories/LayerOldFacts3.v
theories/LayerOldFacts4.v
theories/LayerOldFacts5.v
theories/LayerOldFacts6.v
theories/LayerOldFacts7.v
theories/Prop_LayerOld2.v
theories/QuanvClosed.v
theories/QuanvClosed2.v
theories/QuanvClosed3.v
theories/NetFacts.v
theories/Prop_Quanv2.v
theories/ContractSpec.v
theories/ContractBad.v
theories/ContractBad2.v
theories/Prop_Contract.v
theories/QInfo.v
theories/InfoSpec.v
theories/InfoFacts.v
theories/Prop_Info.v
theories/WireCount.v
theories/WireCalls.v
theories/Prop_WireCount.v
theories/QCircuitX.v
theories/UndoSpec.v
theories/UndoFacts.v
theories/Prop_Undo.v
theories/PlaceSpec.v
theories/PlaceFacts.v
theories/IdentSpec.v
theories/IdentFacts.v
theories/IdentProofs.v
theories/Prop_Place.v
theories/Prop_Ident.v
theories/ApartSpec.v
theories/ApartFacts.v
theories/RhoCalls.v
theories/ApartProofs.v
theories/PhaseProofs.v
theories/Prop_Apart.v
theories/BondSpec.v
theories/BondFacts.v
theories/BondProofs.v
theories/Prop_Bond.v
theories/OneAngleSpec.v
theories/OneAngleFacts.v
theories/OneAngleProofs.v
theories/Prop_OneAngle.v
theories/ObsSpec.v
theories/ObsProofs.v
theories/Prop_Obs.v
theories/GradRunV.v
theories/TruncGrad.v
theories/Prop_TruncGrad.v
theories/TruncAdj.v
theories/TruncAdj2.v
theories/LayerAnySpec.v
theories/LayerAnyCalls.v
theories/LayerAny.v
theories/LayerAny2.v
theories/LayerAny3.v
theories/LayerAny4.v
theories/Prop_LayerAny.v
theories/RingAnySpec.v
theories/RingAnyCalls.v
theories/RingAny.v
theories/Prop_RingAny.v
theories/EmbedAnySpec.v
theories/EmbedAny.v
theories/Prop_EmbedAny.v
theories/MPSBad.v
theories/MPSBad2.v
theories/Prop_MPSBad.v
theories/QShared.v
theories/SharedSpec.v
theories/SharedFacts.v
theories/SharedProofs.v
theories/SharedCases.v
theories/Prop_Shared.v
theories/QFailed.v
theories/FailedFacts.v
theories/FailedProofs.v
theories/Prop_Failed.v
theories/StaleProofs.v
theories/StaleCases.v
theories/Prop_Stale.v
theories/QFailed2.v
theories/Failed2Proofs.v
theories/Failed2Cases.v
theories/Prop_Failed2.v
theories/QStride.v
theories/StrideFacts.v
theories/StrideProofs.v
theories/StrideProofs2.v
theories/StrideProofs3.v
theories/StrideAddr.v
theories/StrideCases.v
theories/Prop_Stride.v
theories/QStride2.v
theories/StrideCircuit.v
theories/StrideCircuit2.v
theories/Prop_Stride2.v
theories/QStride3.v
theories/StrideGrad.v
theories/Prop_Stride3.v
theories/StrideSaved.v
theories/StrideSaved2.v
theories/StrideShift.v
theories/QQuanv2.v
theories/QuanvZ.v
theories/Prop_QuanvZ.v
theories/SmoothSpec.v
theories/SmoothProofs.v
theories/SmoothCases.v
theories/Prop_Smooth.v
theories/DescentProofs.v
theories/Prop_Descent.v
theories/DescentRun.v
