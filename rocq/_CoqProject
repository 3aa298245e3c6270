-Q theories Verif
theories/Base.v
theories/ListUtil.v
theories/ValueTypesModel.v
theories/ValueTypesSpec.v
theories/ValueTypesProofs.v
theories/ConvProofs.v
theories/BitsProofs.v
theories/DpfModel.v
theories/DpfTree.v
theories/TypeProofs.v
theories/DpfWf.v
theories/DpfGen.v
theories/DpfEval.v
theories/DpfPoint.v
theories/DpfCtx.v
theories/DpfApply.v
theories/DpfSpec.v
theories/DpfHist.v
theories/DpfReach.v
theories/DpfSafe.v
theories/DpfCreate.v
theories/DpfFacts.v
theories/SampleSpec.v
theories/SampleProofs.v
theories/SampleJoint.v
theories/SampleMixed.v
theories/CorrectionSpec.v
theories/ConvSurj.v
theories/DpfPrivacySpec.v
theories/DpfPrivacy.v
theories/DpfShape.v
theories/DpfHide.v
theories/DpfBiject.v
theories/DpfBatch.v
theories/PropertiesValueTypes.v
theories/DpfExamples.v
theories/PropertiesDpf.v
theories/PropertiesDpfApi.v
theories/PropertiesKeygenExact.v
theories/PropertiesRoom.v
theories/PropertiesDpfTree.v
theories/PropertiesPrivacy.v
theories/PropertiesDpfTypes.v
theories/HwyModel.v
theories/HwyProofs.v
theories/HwyLoop.v
theories/PropertiesHwy.v
theories/DcfModel.v
theories/DcfSpec.v
theories/DcfProofs.v
theories/DcfGen.v
theories/DcfExact.v
theories/PropertiesDcf.v
theories/MicProofs.v
theories/PropertiesMic.v
theories/PropertiesFssPrivacy.v
theories/PirDbModel.v
theories/PirSpec.v
theories/PirDbProofs.v
theories/PirIpProofs.v
theories/PirBuildProofs.v
theories/PirModel.v
theories/PirProtoSpec.v
theories/PirProtoProofs.v
theories/PirDenseProofs.v
theories/PropertiesPir.v
theories/PropertiesPirProto.v
theories/HashModel.v
theories/HashSpec.v
theories/HashProofs.v
theories/PropertiesHash.v
theories/SparseModel.v
theories/SparseSpec.v
theories/SparseDbProofs.v
theories/SparseProofs.v
theories/ChannelExample.v
theories/PropertiesSparse.v
theories/PropertiesPirSafety.v
theories/PropertiesSparseParams.v
theories/TestingModel.v
theories/PropertiesTesting.v
theories/PirPrivacy.v
theories/PropertiesPirPrivacy.v
theories/ExperimentModel.v
theories/ExperimentProofs.v
theories/PropertiesExperiment.v
theories/PropertiesAggregate.v
theories/PropertiesPoints.v
theories/PirRolesModel.v
theories/PropertiesPirCreate.v
theories/PropertiesTypeEq.v
theories/PropertiesMicExact.v
theories/PropertiesPirExact.v
theories/PropertiesDcfExact.v
theories/PropertiesDpfExact.v
theories/PropertiesIpExact.v
theories/PropertiesPirOutcomes.v
theories/PropertiesPirEnd.v
theories/PropertiesCuckooEnd.v
theories/PropertiesExperimentMore.v
theories/DpfExt.v
theories/PirMask.v
theories/PropertiesPirView.v
theories/PropertiesPirSparseView.v
theories/WireModel.v
theories/PropertiesWire.v
theories/PrgMemModel.v
theories/PropertiesPrgMem.v
theories/EndianModel.v
theories/PropertiesEndian.v
theories/OverloadModel.v
theories/PropertiesOverload.v
theories/CorrectionProofs.v
theories/KeyDistSpec.v
theories/KeyDistProofs.v
theories/KeyDist.v
theories/PropertiesCorrection.v
theories/PropertiesKeyDist.v
theories/FloatModel.v
theories/FloatSpec.v
theories/FloatProofs.v
theories/FloatLevel.v
theories/PropertiesFloat.v
theories/PropertiesDcfDist.v
theories/FaultModel.v
theories/FaultSpec.v
theories/FaultProofs.v
theories/FaultRetry.v
theories/PropertiesFault.v
theories/CostSpec.v
theories/CostProofs.v
theories/PropertiesCost.v
theories/FaultPirModel.v
theories/FaultPirProofs.v
theories/PropertiesFaultPir.v
theories/KeyWireModel.v
theories/KeyWireSpec.v
theories/KeyWireProofs.v
theories/PropertiesKeyWire.v
theories/PropertiesKeyWirePir.v
theories/ContextWireModel.v
theories/ContextWireSpec.v
theories/ContextWireProofs.v
theories/PropertiesContextWire.v
theories/MessageWireModel.v
theories/MessageWireSpec.v
theories/MessageWireProofs.v
theories/PropertiesMessageWire.v
theories/AcceptSpec.v
theories/PropertiesAccept.v
theories/PropertiesLevels.v
