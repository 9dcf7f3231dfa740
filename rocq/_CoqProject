-Q theories Verif
theories/AffineModel.v
theories/AffineProofs.v
theories/AffineSpec.v
theories/AffineTensorProofs.v
theories/AffineThms.v
theories/AnnModel.v
theories/AnnProofs.v
theories/AnnRestoreProofs.v
theories/AnnRunProofs.v
theories/AnnSpec.v
theories/AnnThms.v
theories/AqIso.v
theories/AqModel.v
theories/AqProofs.v
theories/AqSim.v
theories/AqSpec.v
theories/AqTemps.v
theories/AqThms.v
theories/AqWitness.v
theories/BndModel.v
theories/BndProofs.v
theories/BndSpec.v
theories/BndThms.v
theories/BuildCallProofs.v
theories/BuildModel.v
theories/BuildProofs.v
theories/BuildSpec.v
theories/BuildThms.v
theories/BuildTidyProofs.v
theories/BuildWitness.v
theories/CapModel.v
theories/CapProofs.v
theories/CapSpec.v
theories/CapThms.v
theories/ClnModel.v
theories/ClnProofs.v
theories/ClnRunProofs.v
theories/ClnSpec.v
theories/ClnThms.v
theories/CoarseBaseProofs.v
theories/CoarseExtraProofs.v
theories/CoarseModel.v
theories/CoarseProofs.v
theories/CoarseSpec.v
theories/CoarseSubProofs.v
theories/CoarseSuccessProofs.v
theories/CoarseThms.v
theories/CoarseTotalProofs.v
theories/CoarseValueProofs.v
theories/CoarseWitness.v
theories/CqfModel.v
theories/CqfProofs.v
theories/CqfSpec.v
theories/CqfThms.v
theories/DdpModel.v
theories/DdpProofs.v
theories/DdpShareProofs.v
theories/DdpSimProofs.v
theories/DdpSpec.v
theories/DdpThms.v
theories/DispatcherModel.v
theories/DispatcherProofs.v
theories/DispatcherSpec.v
theories/DispatcherThms.v
theories/EncHandlerProofs.v
theories/EncLpbqProofs.v
theories/EncMetaProofs.v
theories/EncModel.v
theories/EncProofs.v
theories/EncSpec.v
theories/EncThms.v
theories/EncTotalProofs.v
theories/EncV2Proofs.v
theories/EncWitness.v
theories/EngineBaseProofs.v
theories/EngineContextProofs.v
theories/EngineDeviceProofs.v
theories/EngineExamples.v
theories/EngineInputProofs.v
theories/EngineLifeProofs.v
theories/EngineModel.v
theories/EngineOffloadProofs.v
theories/EngineOptProofs.v
theories/EngineSameProofs.v
theories/EngineSchedProofs.v
theories/EngineSpec.v
theories/EngineThms.v
theories/EngineTopProofs.v
theories/EngineWitness.v
theories/EntDynamicProofs.v
theories/EntModel.v
theories/EntProofs.v
theories/EntSpec.v
theories/EntTensorProofs.v
theories/EntThms.v
theories/FlagsModel.v
theories/FlagsProofs.v
theories/FlagsSpec.v
theories/FlagsThms.v
theories/FltModel.v
theories/FltProofs.v
theories/FltSpec.v
theories/FltThms.v
theories/FuseFloatProofs.v
theories/FuseModel.v
theories/FuseModuleProofs.v
theories/FuseProofs.v
theories/FuseSpec.v
theories/FuseThms.v
theories/FuseWitness.v
theories/FwdModel.v
theories/FwdProofs.v
theories/FwdQProofs.v
theories/FwdSpec.v
theories/FwdThms.v
theories/FwrModel.v
theories/FwrProofs.v
theories/FwrSpec.v
theories/FwrThms.v
theories/FxModel.v
theories/FxProofs.v
theories/FxPropProofs.v
theories/FxRunProofs.v
theories/FxSpec.v
theories/FxThms.v
theories/FxViewProofs.v
theories/FxWitness.v
theories/GgufExportProofs.v
theories/GgufHalfProofs.v
theories/GgufModel.v
theories/GgufNameProofs.v
theories/GgufPackProofs.v
theories/GgufRopeProofs.v
theories/GgufSpec.v
theories/GgufThms.v
theories/GgufTopProofs.v
theories/GgufWitness.v
theories/GptqColumnProofs.v
theories/GptqFixProofs.v
theories/GptqGroupProofs.v
theories/GptqHessianProofs.v
theories/GptqLoopProofs.v
theories/GptqModel.v
theories/GptqSpec.v
theories/GptqThms.v
theories/GptqTopProofs.v
theories/GptqTotalProofs.v
theories/GptqWitness.v
theories/GranularityModel.v
theories/GranularityProofs.v
theories/GranularitySpec.v
theories/GraphCycleProofs.v
theories/GraphModel.v
theories/GraphProofs.v
theories/GraphSpec.v
theories/GraphThms.v
theories/GraphWalkProofs.v
theories/IdnModel.v
theories/IdnProofs.v
theories/IdnSpec.v
theories/IdnThms.v
theories/ImpModel.v
theories/ImpProofs.v
theories/ImpSpec.v
theories/ImpThms.v
theories/MemModel.v
theories/MemProofs.v
theories/MemSpec.v
theories/MemThms.v
theories/ModulesConvProofs.v
theories/ModulesInitProofs.v
theories/ModulesModel.v
theories/ModulesProofs.v
theories/ModulesSpec.v
theories/ModulesThms.v
theories/MpathCollModel.v
theories/MpathCollProofs.v
theories/MpathCollSpec.v
theories/MpathLangProofs.v
theories/MpathModel.v
theories/MpathParseModel.v
theories/MpathParseProofs.v
theories/MpathParseSpec.v
theories/MpathProofs.v
theories/MpathSetProofs.v
theories/MpathSpec.v
theories/MpathThms.v
theories/MtyModel.v
theories/MtyProofs.v
theories/MtySpec.v
theories/MtyThms.v
theories/NamModel.v
theories/NamProofs.v
theories/NamSpec.v
theories/NamThms.v
theories/NlbInsertProofs.v
theories/NlbModel.v
theories/NlbProofs.v
theories/NlbScopeProofs.v
theories/NlbSemProofs.v
theories/NlbSpec.v
theories/NlbThms.v
theories/NrmModel.v
theories/NrmProofs.v
theories/NrmSpec.v
theories/NrmThms.v
theories/OnxModel.v
theories/OnxProofs.v
theories/OnxSpec.v
theories/OnxThms.v
theories/OpsModel.v
theories/OpsProofs.v
theories/OpsSpec.v
theories/OpsTable.v
theories/OpsThms.v
theories/OptModel.v
theories/OptProofs.v
theories/OptSpec.v
theories/OptThms.v
theories/OrcModel.v
theories/OrcProofs.v
theories/OrcSpec.v
theories/OrcThms.v
theories/OverrideModel.v
theories/OverrideProofs.v
theories/OverrideSpec.v
theories/OverrideThms.v
theories/PatLoopProofs.v
theories/PatModel.v
theories/PatProofs.v
theories/PatScopeProofs.v
theories/PatSpec.v
theories/PatTextProofs.v
theories/PatThms.v
theories/PipelineEditProofs.v
theories/PipelineModel.v
theories/PipelineProofs.v
theories/PipelineRunProofs.v
theories/PipelineSpec.v
theories/PipelineThms.v
theories/PipelineTopProofs.v
theories/PmgModel.v
theories/PmgProofs.v
theories/PmgSpec.v
theories/PmgThms.v
theories/Prelude.v
theories/QanInvProofs.v
theories/QanModel.v
theories/QanProofs.v
theories/QanSafeProofs.v
theories/QanSpec.v
theories/QanThms.v
theories/QanTotalProofs.v
theories/QdqModel.v
theories/QdqProofs.v
theories/QdqSpec.v
theories/QdqThms.v
theories/QmModel.v
theories/QmNameProofs.v
theories/QmProofs.v
theories/QmRegProofs.v
theories/QmSpec.v
theories/QmSurProofs.v
theories/QmThms.v
theories/QnrModel.v
theories/QnrProofs.v
theories/QnrSpec.v
theories/QnrThms.v
theories/RangeBlockProofs.v
theories/RangeGridProofs.v
theories/RangeModel.v
theories/RangeProofs.v
theories/RangeSmoothProofs.v
theories/RangeSpec.v
theories/RangeThms.v
theories/RegModel.v
theories/RegProofs.v
theories/RegSpec.v
theories/RegThms.v
theories/RsvModel.v
theories/RsvThms.v
theories/SaveLoadProofs.v
theories/SaveModel.v
theories/SavePolicyProofs.v
theories/SaveProofs.v
theories/SaveQuantProofs.v
theories/SaveRejectProofs.v
theories/SaveSpec.v
theories/SaveThms.v
theories/SdpModel.v
theories/SdpProofs.v
theories/SdpSpec.v
theories/SdpThms.v
theories/SnrModel.v
theories/SnrProofs.v
theories/SnrSpec.v
theories/SnrThms.v
theories/StructuralModel.v
theories/StructuralProofs.v
theories/StructuralSpec.v
theories/StructuralThms.v
theories/SupModel.v
theories/SupProofs.v
theories/SupSpec.v
theories/SupThms.v
theories/ThrModel.v
theories/ThrProofs.v
theories/ThrSpec.v
theories/ThrThms.v
theories/TilingModel.v
theories/TilingProofs.v
theories/TilingSpec.v
theories/TilingThms.v
theories/TokModel.v
theories/TokProofs.v
theories/TokSpec.v
theories/TokThms.v
theories/TrcGraphProofs.v
theories/TrcModel.v
theories/TrcNameProofs.v
theories/TrcProofs.v
theories/TrcSpec.v
theories/TrcThms.v
theories/TrcValueProofs.v
theories/TrcWitness.v
theories/UniModel.v
theories/UniProofs.v
theories/UniSpec.v
theories/UniThms.v
theories/UniTraceProofs.v
theories/VocModel.v
theories/VocProofs.v
theories/VocThms.v
theories/WrkModel.v
theories/WrkProofs.v
theories/WrkSpec.v
theories/WrkThms.v
theories/WrnModel.v
theories/WrnProofs.v
theories/WrnSpec.v
theories/WrnThms.v
