-Q theories Verif
theories/Outcome.v
theories/ListLemmas.v
theories/SamplingModel.v
theories/SamplingSpec.v
theories/SamplingProofs.v
theories/SamplingExamples.v
theories/SamplingProperties.v
theories/TagsModel.v
theories/TagsSpec.v
theories/TagsProofs.v
theories/TagsExamples.v
theories/TagsProperties.v
theories/SnapshotModel.v
theories/SnapshotSpec.v
theories/SnapshotProofs.v
theories/SnapshotCollect.v
theories/SnapshotExamples.v
theories/SnapshotProperties.v
theories/ConfigModel.v
theories/ConfigSpec.v
theories/ConfigProofs.v
theories/ConfigExamples.v
theories/ConfigProperties.v
theories/ProfilerModel.v
theories/ProfilerSpec.v
theories/ProfilerProofs.v
theories/ProfilerExamples.v
theories/ProfilerProperties.v
theories/HdfModel.v
theories/HdfSpec.v
theories/HdfProofs.v
theories/HdfExamples.v
theories/HdfProperties.v
theories/TopoModel.v
theories/TopoSpec.v
theories/TopoProofs.v
theories/TopoExamples.v
theories/TopoProperties.v
theories/CompModel.v
theories/CompSpec.v
theories/CompProofs.v
theories/CompPortProofs.v
theories/CompBuildProofs.v
theories/CompExamples.v
theories/CompProperties.v
theories/LaBase.v
theories/LinalgModel.v
theories/LinalgSpec.v
theories/LinalgProofs.v
theories/LinalgSubProofs.v
theories/LinalgTensorProofs.v
theories/LinalgGsProofs.v
theories/LinalgBrentProofs.v
theories/LinalgExamples.v
theories/LinalgProperties.v
theories/BlockVec.v
theories/RomModel.v
theories/RomSpec.v
theories/RomProofs.v
theories/RomBasisProofs.v
theories/RomOpProofs.v
theories/RomStateProofs.v
theories/RomHeapProofs.v
theories/RomExamples.v
theories/RomProperties.v
theories/MbModel.v
theories/MbSpec.v
theories/MbVecProofs.v
theories/MbFlowProofs.v
theories/MbMiscProofs.v
theories/MbAsmProofs.v
theories/MbExamples.v
theories/MbProperties.v
theories/SmoothModel.v
theories/SmoothSpec.v
theories/SmoothProofs.v
theories/SmoothExamples.v
theories/SmoothProperties.v
theories/ItfModel.v
theories/ItfSpec.v
theories/ItfProofs.v
theories/ItfAlgProofs.v
theories/ItfPortProofs.v
theories/ItfExamples.v
theories/ItfProperties.v
theories/EqpModel.v
theories/EqpSpec.v
theories/EqpProofs.v
theories/EqpSetupProofs.v
theories/EqpEvalProofs.v
theories/EqpAccProofs.v
theories/EqpItfModel.v
theories/EqpItfSpec.v
theories/EqpItfProofs.v
theories/EqpOwnModel.v
theories/EqpOwnSpec.v
theories/EqpOwnProofs.v
theories/EqpOwnItfProofs.v
theories/EqpExamples.v
theories/EqpProperties.v
theories/IntegModel.v
theories/IntegSpec.v
theories/IntegProofs.v
theories/IntegDomProofs.v
theories/IntegDom2Proofs.v
theories/IntegFaceProofs.v
theories/IntegLaxProofs.v
theories/IntegLax2Proofs.v
theories/IntegQuadProofs.v
theories/IntegMoreProofs.v
theories/IntegExamples.v
theories/IntegProperties.v
theories/IntegFastModel.v
theories/IntegFastProofs.v
theories/IntegFastItfModel.v
theories/IntegFormSpec.v
theories/IntegFormProofs.v
theories/IntegFastItfProofs.v
theories/IntegFastExamples.v
theories/IntegFastProperties.v
theories/NsModel.v
theories/NsSpec.v
theories/NsProofs.v
theories/NsRomProofs.v
theories/NsEqpProofs.v
theories/NsPatternProofs.v
theories/NsExamples.v
theories/NsProperties.v
theories/NsTensorModel.v
theories/NsTensorSpec.v
theories/NsTensorProofs.v
theories/NsFomProofs.v
theories/NsTensorExamples.v
theories/NsTensorProperties.v
theories/UnsteadyModel.v
theories/UnsteadySpec.v
theories/UnsteadyStepProofs.v
theories/UnsteadyLoopProofs.v
theories/UnsteadyRunProofs.v
theories/UnsteadyExamples.v
theories/UnsteadyProperties.v
theories/ProbModel.v
theories/ProbSpec.v
theories/ProbProofs.v
theories/ProbFormulaProofs.v
theories/ProbExamples.v
theories/ProbProperties.v
theories/BcModel.v
theories/BcSpec.v
theories/BcProofs.v
theories/BcFlowProofs.v
theories/BcFluxProofs.v
theories/BcExamples.v
theories/BcProperties.v
theories/WorkModel.v
theories/WorkSpec.v
theories/WorkProofs.v
theories/WorkTagProofs.v
theories/WorkCollectProofs.v
theories/WorkExamples.v
theories/WorkProperties.v
theories/UromModel.v
theories/UromSpec.v
theories/UromProofs.v
theories/UromExamples.v
theories/UromProperties.v
theories/DriveModel.v
theories/DriveSpec.v
theories/DriveProofs.v
theories/DriveReportProofs.v
theories/DriveExamples.v
theories/DriveProperties.v
theories/SupModel.v
theories/SupSpec.v
theories/SupProofs.v
theories/SupExamples.v
theories/SupProperties.v
theories/BvisModel.v
theories/BvisProofs.v
theories/BvisProperties.v
theories/DgModel.v
theories/DgSpec.v
theories/DgAddProofs.v
theories/DgKernelProofs.v
theories/DgItfProofs.v
theories/DgFaceProofs.v
theories/DgRhsProofs.v
theories/DgFormProofs.v
theories/DgProperties.v
theories/DgExamples.v
theories/BupModel.v
theories/BupSpec.v
theories/BupFormProofs.v
theories/BupFullProofs.v
theories/BupRomProofs.v
theories/BupAsmProofs.v
theories/BupSolverProofs.v
theories/BupStokesProofs.v
theories/BupExamples.v
theories/BupProperties.v
theories/AdvModel.v
theories/AdvSpec.v
theories/AdvProofs.v
theories/AdvAsmProofs.v
theories/AdvVisProofs.v
theories/AdvExamples.v
theories/AdvProperties.v
theories/NeqModel.v
theories/NeqSpec.v
theories/NeqProofs.v
theories/NeqEvalProofs.v
theories/NeqFileProofs.v
theories/NeqExamples.v
theories/NeqProperties.v
theories/SplitModel.v
theories/SplitSpec.v
theories/SplitProofs.v
theories/SplitMapProofs.v
theories/SplitTopProofs.v
theories/SplitMoveProofs.v
theories/SplitExamples.v
theories/SplitProperties.v
theories/AsmModel.v
theories/AsmSpec.v
theories/AsmProofs.v
theories/AsmExamples.v
theories/AsmProperties.v
theories/TenModel.v
theories/TenSpec.v
theories/TenProofs.v
theories/TenOwnProofs.v
theories/TenFileProofs.v
theories/TenExamples.v
theories/TenProperties.v
theories/ClkModel.v
theories/ClkSpec.v
theories/ClkProofs.v
theories/ClkExamples.v
theories/ClkProperties.v
theories/CgoModel.v
theories/CgoSpec.v
theories/CgoProofs.v
theories/CgoExamples.v
theories/CgoProperties.v
theories/ItrModel.v
theories/ItrSpec.v
theories/ItrProofs.v
theories/ItrRunProofs.v
theories/ItrEvalProofs.v
theories/ItrExamples.v
theories/ItrProperties.v
theories/StdyModel.v
theories/StdySpec.v
theories/StdyProofs.v
theories/StdyRomProofs.v
theories/StdyExamples.v
theories/StdyProperties.v
theories/EqcModel.v
theories/EqcSpec.v
theories/EqcProofs.v
theories/EqcExamples.v
theories/EqcProperties.v
theories/SchurModel.v
theories/SchurSpec.v
theories/SchurProofs.v
theories/SchurExamples.v
theories/SchurProperties.v
theories/CfgfModel.v
theories/CfgfSpec.v
theories/CfgfProofs.v
theories/CfgfExamples.v
theories/CfgfProperties.v
theories/SparModel.v
theories/SparSpec.v
theories/SparProofs.v
theories/SparExamples.v
theories/SparProperties.v
theories/CmprModel.v
theories/CmprSpec.v
theories/CmprProofs.v
theories/CmprProperties.v
theories/CmprExamples.v
theories/DirModel.v
theories/DirSpec.v
theories/DirProofs.v
theories/DirProperties.v
theories/DirExamples.v
theories/DirRomSpec.v
theories/DirRomProofs.v
theories/DirRomProperties.v
theories/DirRomExamples.v
theories/DirSigProofs.v
theories/DirSigProperties.v
theories/DirSigExamples.v
theories/WarnModel.v
theories/WarnSpec.v
theories/WarnProofs.v
theories/WarnProperties.v
theories/WarnExamples.v
