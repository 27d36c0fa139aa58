-Q theories Verif
theories/Base.v
theories/BaseFacts.v
theories/Sums.v
theories/Quat.v
theories/ModelSequence.v
theories/ModelWilliamson.v
theories/Spec.v
theories/SeqFacts.v
theories/QuatFacts.v
theories/Convert.v
theories/QSymm.v
theories/Transpose.v
theories/GroupRing.v
theories/QtWt.v
theories/PropSequences.v
theories/ModelEquivalence.v
theories/SpecEquiv.v
theories/OpFacts.v
theories/EquivFacts.v
theories/TypeFacts.v
theories/OrderFacts.v
theories/FastFacts.v
theories/EquivThms.v
theories/PropEquivalence.v
theories/CanonFacts.v
theories/NsFacts.v
theories/ReduceFacts.v
theories/WsFacts.v
theories/PropCanonical.v
theories/ModelFind.v
theories/FindUniqueFacts.v
theories/SearchFacts.v
theories/SpecFind.v
theories/FindFacts.v
theories/FindQuadFacts.v
theories/FindThms.v
theories/PropFind.v
theories/ModelRowsum.v
theories/SpecRowsum.v
theories/RowsumFacts.v
theories/RowsumOrder.v
theories/PropRowsum.v
theories/ModelMatrices.v
theories/SpecMatrix.v
theories/MatFacts.v
theories/HmFacts.v
theories/QhmFacts.v
theories/SpecPrint.v
theories/PrintFacts.v
theories/PropMatrix.v
theories/ModelMum.v
theories/SpecMum.v
theories/ProductFacts.v
theories/MumFacts.v
theories/LeftFacts.v
theories/MumThms.v
theories/PropMum.v
theories/ModelGraph.v
theories/SpecGraph.v
theories/GraphFacts.v
theories/GraphThms.v
theories/PropGraph.v
theories/ModelFourier.v
theories/ModelMatching.v
theories/FourierFacts.v
theories/SpecFourier.v
theories/ModelWrite.v
theories/MatchFacts.v
theories/TextFacts.v
theories/JoinFacts.v
theories/WriteFacts.v
theories/PsdKeys.v
theories/DirFacts.v
theories/FolderFacts.v
theories/SearchThms.v
theories/ExtendFacts.v
theories/SpecSearch.v
theories/MatchThms.v
theories/PsdSame.v
theories/DriverFacts.v
theories/SameResult.v
theories/ComplFacts.v
theories/PropMatching.v
theories/PropSearch.v
theories/ModelEquations.v
theories/SpecEquations.v
theories/EquationText.v
theories/EquationFacts.v
theories/QuadraticFacts.v
theories/SystemFacts.v
theories/PropEquations.v
theories/SpecFiles.v
theories/SingleFacts.v
theories/PropFiles.v
theories/ModelFloat.v
theories/SpecFloats.v
theories/FloatFacts.v
theories/FloatQuat.v
theories/FloatLimit.v
theories/PropFloat.v
theories/HadEquiv.v
theories/ModelMain.v
theories/SpecMain.v
theories/MainFacts.v
theories/ArgFacts.v
theories/MainThms.v
theories/RepSymm.v
theories/DriverMain.v
theories/PropMain.v
theories/SpecOutputs.v
theories/FilesMain.v
theories/ModelLog.v
theories/SpecLog.v
theories/Published.v
theories/LogText.v
theories/LogFolder.v
theories/LogFacts.v
theories/LogStages.v
theories/LogJoin.v
theories/DriverLog.v
theories/TableThms.v
theories/PropDriver.v
theories/ModelScripts.v
theories/SpecSplit.v
theories/SplitFacts.v
theories/SplitThms.v
theories/SpecScripts.v
theories/ScriptThms.v
theories/PropSplit.v
theories/ModelDebug.v
theories/SpecDebug.v
theories/DebugFacts.v
theories/DebugThms.v
theories/DebugMain.v
theories/PropDebug.v
theories/ModelSolver.v
theories/SpecSolver.v
theories/SolverFacts.v
theories/SolverThms.v
theories/PropSolver.v
theories/ModelNoise.v
theories/SpecNoise.v
theories/NoiseFacts.v
theories/KernelFacts.v
theories/NoiseKeys.v
theories/NoiseSearch.v
theories/NoiseThms.v
theories/NoiseTies.v
theories/NoiseWarn.v
theories/PrimeFacts.v
theories/PrimeThms.v
theories/PropNoise.v
theories/ModelPanic.v
theories/SpecPanic.v
theories/PanicFacts.v
theories/PanicThms.v
theories/PanicDriver.v
theories/PropPanic.v
theories/ModelJobs.v
theories/SpecJobs.v
theories/JobsFacts.v
theories/JobsThms.v
theories/JobsResults.v
theories/PropJobs.v
theories/SpecAgree.v
theories/AgreeThms.v
theories/PropAgree.v
theories/ModelExplore.v
theories/SpecExplore.v
theories/ExploreFacts.v
theories/ExploreThms.v
theories/AgreeStrict.v
theories/PropExplore.v
theories/AmicFacts.v
theories/SpecTests.v
theories/TestThms.v
theories/PropTests.v
theories/OrbitFacts.v
theories/SpecOrbit.v
theories/GroupSize.v
theories/GroupMaps.v
theories/GroupThms.v
theories/PropOrbit.v
theories/ModelApi.v
theories/ApiThms.v
theories/PropApi.v
theories/ModelMumText.v
theories/MumText.v
theories/PropMumText.v
theories/Len32Facts.v
theories/Len32Thms.v
theories/Len32Example.v
theories/PropLength32.v
theories/Len48Facts.v
theories/Len48Thms.v
theories/Len48Even.v
theories/Len48Example.v
theories/Len64Facts.v
theories/PropLength48.v
theories/PropLength64.v
theories/SpecKilled.v
theories/KilledFacts.v
theories/KilledThms.v
theories/SpecSums.v
theories/ClassSums.v
theories/KilledSilent.v
theories/PropKilled.v
theories/SumsThms.v
theories/PropSums.v
theories/ModelChecked.v
theories/SpecChecked.v
theories/CheckedFacts.v
theories/CheckedThms.v
theories/CheckedMatrix.v
theories/PropChecked.v
theories/ModelSlurm.v
theories/SpecSlurm.v
theories/SlurmThms.v
theories/PropSlurm.v
theories/ModelFull.v
theories/SpecFull.v
theories/FullFacts.v
theories/FullThms.v
theories/FullWide.v
theories/PropFull.v
theories/SpecMixed.v
theories/MixedThms.v
theories/MixedFacts.v
theories/MixedSplit.v
theories/PropMixed.v
theories/SpecPrinted.v
theories/PrintedFacts.v
theories/PrintedJoin.v
theories/PropPrinted.v
theories/SpecResultLog.v
theories/ResultLog.v
theories/PropResultLog.v
theories/SpecThinned.v
theories/ThinFacts.v
theories/ThinThms.v
theories/PropThinned.v
theories/SpecCut.v
theories/CutFacts.v
theories/CutThms.v
theories/PropCut.v
