-Q theories Verif
theories/Base.v
theories/BaseFacts.v
theories/NBits.v
theories/Gf128Model.v
theories/Gf128Spec.v
theories/Gf128Poly.v
theories/Gf128Proofs.v
theories/Gf128Field.v
theories/Gf128Generator.v
theories/GgmModel.v
theories/GgmSpec.v
theories/GgmProofs.v
theories/GgmProofs2.v
theories/GgmProofs3.v
theories/GgmFinal.v
theories/EmpBlockModel.v
theories/Gf128Final.v
theories/ScalarModel.v
theories/ScalarSpec.v
theories/ScalarProofs.v
theories/ScalarFinal.v
theories/PackModel.v
theories/PackProofs.v
theories/ListFacts.v
theories/ProcModel.v
theories/ProcSpec.v
theories/ProcProofs.v
theories/RotModel.v
theories/RotSpec.v
theories/RotProofs.v
theories/RotFinal.v
theories/SpfssModel.v
theories/SpfssProofs.v
theories/SpfssFinal.v
theories/GilboaModel.v
theories/GilboaSpec.v
theories/GilboaProofs.v
theories/GilboaFinal.v
theories/RngModel.v
theories/RngSpec.v
theories/RngProofs.v
theories/CuckooModel.v
theories/CuckooSpec.v
theories/CuckooProofs.v
theories/CuckooFinal.v
theories/TraceSpec.v
theories/TraceProofs.v
theories/SumFacts.v
theories/MpfssModel.v
theories/MpfssSpec.v
theories/MpfssProofs.v
theories/MpfssFinal.v
theories/MeetProofs.v
theories/VoleModel.v
theories/VoleSpec.v
theories/RngUsable.v
theories/VoleProofs.v
theories/VoleMeet.v
theories/VolePair.v
theories/VoleFinal.v
theories/VoleSucceed.v
theories/VoleSolo.v
theories/VoleHistory.v
theories/VoleCode.v
theories/VoleToy.v
theories/VoleFail.v
theories/VoleWitness.v
theories/UseSpec.v
theories/VoleUse.v
theories/PatternSpec.v
theories/PatternProofs.v
theories/PatternToy.v
theories/CostSpec.v
theories/CostProofs.v
theories/SafeSpec.v
theories/SafeProofs.v
theories/TransportSpec.v
theories/TransportProofs.v
theories/TransportFinal.v
theories/ViewSpec.v
theories/ViewProofs.v
theories/ViewBlocks.v
theories/ViewFinal.v
theories/ViewWitness.v
theories/HideSpec.v
theories/HideRun.v
theories/HideProofs.v
theories/HideGgm.v
theories/HideFinal.v
theories/HideSpfss.v
theories/HideMpfss.v
theories/DeltaSpec.v
theories/DeltaRun.v
theories/DeltaLogic.v
theories/DeltaTrees.v
theories/DeltaRng.v
theories/DeltaGilboa.v
theories/DeltaSteps.v
theories/DeltaFinal.v
theories/DeltaToy.v
theories/PropertiesDelta.v
theories/RepModel.v
theories/RepSpec.v
theories/RepProofs.v
theories/ParModel.v
theories/ParLoops.v
theories/ParSpec.v
theories/ParProofs.v
theories/ParFinal.v
theories/ParScalars.v
theories/FloatSpec.v
theories/FloatModel.v
theories/FloatFacts.v
theories/FloatLevels.v
theories/FloatSecurity.v
theories/FloatBits.v
theories/FloatErf.v
theories/FloatBuckets.v
theories/FloatFinal.v
theories/PropertiesScalar.v
theories/PropertiesGf128.v
theories/PropertiesGgm.v
theories/PropertiesProc.v
theories/PropertiesRot.v
theories/PropertiesSpfss.v
theories/PropertiesGilboa.v
theories/PropertiesRng.v
theories/PropertiesCuckoo.v
theories/PropertiesMpfss.v
theories/PropertiesVole.v
theories/PropertiesFail.v
theories/RetryProofs.v
theories/PropertiesUse.v
theories/PropertiesSession.v
theories/PropertiesLevel.v
theories/PropertiesPattern.v
theories/PropertiesCost.v
theories/PropertiesSafe.v
theories/PropertiesTransport.v
theories/PropertiesView.v
theories/PropertiesHide.v
theories/PropertiesRep.v
theories/PropertiesPar.v
theories/PropertiesFloat.v
theories/UniformModel.v
theories/UniformSpec.v
theories/UniformProofs.v
theories/UniformRelabel.v
theories/UniformFinal.v
theories/UniformToy.v
theories/PropertiesUniform.v
theories/ParEigen.v
theories/ParModulusSpec.v
theories/ParModulus.v
theories/ParModulusFinal.v
theories/PropertiesModulus.v
theories/SecretRun.v
theories/SecretGilboa.v
theories/SecretSteps.v
theories/SecretPlay.v
theories/SecretSpec.v
theories/SecretFinal.v
theories/SecretToy.v
theories/PropertiesSecret.v
theories/RotInt.v
theories/RotIntProofs.v
theories/PropertiesRotInt.v
theories/JointSpec.v
theories/JointProofs.v
theories/JointFinal.v
theories/PropertiesJoint.v
theories/FloatJoint.v
theories/PropertiesFloatJoint.v
theories/StopSpec.v
theories/StopProofs.v
theories/StopFinal.v
theories/PropertiesStop.v
theories/LaterSpec.v
theories/LaterProofs.v
theories/SpfssInt.v
theories/SpfssIntProofs.v
theories/LaterFinal.v
theories/PropertiesLater.v
theories/MpfssInt.v
theories/MpfssIntProofs.v
theories/PropertiesMpfssInt.v
theories/VoleInt.v
theories/VoleIntProofs.v
theories/PropertiesVoleInt.v
theories/RolesProofs.v
theories/LevelSpec.v
theories/VoleLevel.v
theories/SplitSpec.v
theories/SplitProofs.v
theories/PropertiesSplit.v
theories/DivideSpec.v
theories/DivideProofs.v
theories/PropertiesDivide.v
