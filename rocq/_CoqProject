-Q theories Verif
theories/Base/PyBase.v
theories/Base/PyFacts.v
theories/Base/Arr.v
theories/Spec/FreqSpec.v
theories/Model/MpiAux.v
theories/Proofs/MpiAuxP.v
theories/Properties/MpiProps.v
theories/Model/Matsubara.v
theories/Proofs/MatsubaraP.v
theories/Properties/MatsubaraProps.v
theories/Model/Util.v
theories/Proofs/UtilP.v
theories/Properties/UtilProps.v
theories/Spec/BZSpec.v
theories/Model/BrillouinZone.v
theories/Proofs/BrillouinZoneP.v
theories/Spec/KPathSpec.v
theories/Model/KPath.v
theories/Proofs/KPathP.v
theories/Properties/BrillouinZoneProps.v
theories/Base/FieldTac.v
theories/Spec/BseSpec.v
theories/Spec/SdeSpec.v
theories/Model/LocalFourPoint.v
theories/Model/LocalSDE.v
theories/Proofs/LocalFourPointP.v
theories/Proofs/LocalSDEP.v
theories/Proofs/LocalG2P.v
theories/Proofs/LocalObjP.v
theories/Proofs/LocalSDE2P.v
theories/Properties/LocalFourPointProps.v
theories/Model/RankFiles.v
theories/Proofs/StrP.v
theories/Proofs/MaskP.v
theories/Proofs/RankFilesP.v
theories/Spec/RankSpec.v
theories/Proofs/RankOpsP.v
theories/Proofs/RankLoadP.v
theories/Proofs/RankLoad2P.v
theories/Proofs/RankMainP.v
theories/Properties/RankFilesProps.v
theories/Spec/SymSpec.v
theories/Spec/SymValueSpec.v
theories/Model/Symmetrize.v
theories/Proofs/SymIndexP.v
theories/Proofs/SymOrbitP.v
theories/Proofs/SymValuesP.v
theories/Properties/SymmetrizeProps.v
theories/Model/Config.v
theories/Proofs/ConfigP.v
theories/Properties/ConfigProps.v
theories/Model/Pade.v
theories/Proofs/PadeP.v
theories/Properties/PadeProps.v
theories/Spec/LambdaSpec.v
theories/Model/Lambda.v
theories/Proofs/LambdaP.v
theories/Proofs/LambdaMainP.v
theories/Properties/LambdaProps.v
theories/Spec/EliashbergSpec.v
theories/Model/Eliashberg.v
theories/Proofs/EliashbergP.v
theories/Proofs/EliashbergLoopP.v
theories/Proofs/EliashbergSymP.v
theories/Proofs/EliashbergStartP.v
theories/Proofs/EliashbergMainP.v
theories/Properties/EliashbergProps.v
theories/Model/Wannier.v
theories/Spec/WannierSpec.v
theories/Proofs/WannierP.v
theories/Proofs/WannierSymP.v
theories/Proofs/WannierMeanP.v
theories/Model/HrFile.v
theories/Proofs/HrFileP.v
theories/Properties/WannierProps.v
theories/Model/TwoPoint.v
theories/Spec/TwoPointSpec.v
theories/Proofs/TwoPointP.v
theories/Proofs/TwoPointMainP.v
theories/Proofs/TwoPointFillP.v
theories/Proofs/TwoPointRealP.v
theories/Proofs/TwoPointCoreP.v
theories/Properties/TwoPointProps.v
theories/Model/Bubble.v
theories/Spec/BubbleSpec.v
theories/Proofs/BubbleP.v
theories/Proofs/BubbleLatP.v
theories/Proofs/IrrqP.v
theories/Proofs/BubbleIrrP.v
theories/Properties/BubbleProps.v
theories/Model/BubbleAsympt.v
theories/Spec/AsymptSpec.v
theories/Proofs/OddSumsP.v
theories/Proofs/BubbleAsymptP.v
theories/Proofs/BubbleAsymptMainP.v
theories/Proofs/BubbleTailP.v
theories/Proofs/BubbleOrderP.v
theories/Proofs/BubbleMeshP.v
theories/Proofs/BubbleCorrP.v
theories/Properties/BubbleAsymptProps.v
theories/Spec/LatticeSdeSpec.v
theories/Model/FourPoint.v
theories/Model/DgaMain.v
theories/Proofs/LatticeSdeP.v
theories/Proofs/DgaMainP.v
theories/Proofs/LatticeSymP.v
theories/Proofs/DgaRanksP.v
theories/Proofs/LatticeBseP.v
theories/Proofs/LocalLimitP.v
theories/Proofs/FourPointFindP.v
theories/Proofs/LatticeTildeP.v
theories/Properties/FourPointProps.v
theories/Properties/LatticeAsymptProps.v
theories/Model/Optics.v
theories/Spec/OpticsSpec.v
theories/Proofs/OpticsP.v
theories/Proofs/OpticsVertP.v
theories/Properties/OpticsProps.v
theories/Model/VertexBuild.v
theories/Spec/PairingSpec.v
theories/Proofs/VertexBuildP.v
theories/Proofs/VertexBuildExP.v
theories/Properties/VertexBuildProps.v
theories/Model/OpticsReal.v
theories/Spec/OpticsRealSpec.v
theories/Proofs/OpticsRealP.v
theories/Proofs/OpticsReal2P.v
theories/Proofs/OpticsReal3P.v
theories/Properties/OpticsRealProps.v
theories/Spec/RealMeshSpec.v
theories/Model/RealMesh.v
theories/Proofs/RealMeshP.v
theories/Properties/RealMeshProps.v
theories/Spec/BacktransformSpec.v
theories/Model/Backtransform.v
theories/Proofs/BacktransformP.v
theories/Proofs/KktP.v
theories/Properties/BacktransformProps.v
theories/Spec/MatsubaraFitSpec.v
theories/Model/MatsubaraFit.v
theories/Proofs/MatsubaraFitP.v
theories/Proofs/PolyFitMeshP.v
theories/Properties/MatsubaraFitProps.v
theories/Spec/MaxEntSpec.v
theories/Model/MaxEnt.v
theories/Proofs/MaxEntP.v
theories/Properties/MaxEntProps.v
theories/Spec/HkFileSpec.v
theories/Model/HkFile.v
theories/Proofs/HkFileP.v
theories/Proofs/HkSaveP.v
theories/Properties/HkFileProps.v
theories/Model/OzFit.v
theories/Proofs/OzFitP.v
theories/Properties/OzFitProps.v
theories/Model/InputFiles.v
theories/Spec/InputSpec.v
theories/Proofs/InputFilesP.v
theories/Properties/InputFilesProps.v
theories/Model/InputBuild.v
theories/Proofs/InputBuildP.v
theories/Properties/InputBuildProps.v
theories/Model/PadeAvg.v
theories/Spec/PadeAvgSpec.v
theories/Proofs/PadeAvgP.v
theories/Properties/PadeAvgProps.v
theories/Model/LocalPipeline.v
theories/Spec/LocalPipelineSpec.v
theories/Proofs/LocalPipelineP.v
theories/Proofs/LocalPipelineMainP.v
theories/Properties/LocalPipelineProps.v
theories/Model/RunSetup.v
theories/Spec/RunSetupSpec.v
theories/Proofs/RunPathP.v
theories/Proofs/RunJobP.v
theories/Proofs/RunSetupP.v
theories/Proofs/RunSetupMainP.v
theories/Properties/RunSetupProps.v
theories/Model/ConfigFile.v
theories/Spec/ConfigFileSpec.v
theories/Proofs/ConfigFileP.v
theories/Proofs/ConfigFileMainP.v
theories/Proofs/ConfigFileSubP.v
theories/Proofs/ConfigFileAccP.v
theories/Proofs/ConfigFileMoreP.v
theories/Proofs/ConfigFileRoundP.v
theories/Properties/ConfigFileProps.v
theories/Model/MaxEntRun.v
theories/Spec/MaxEntRunSpec.v
theories/Proofs/MaxEntRunP.v
theories/Proofs/MaxEntRunIndP.v
theories/Properties/MaxEntRunProps.v
theories/Model/RunLog.v
theories/Spec/RunLogSpec.v
theories/Proofs/RunLogP.v
theories/Proofs/RunLogTimeP.v
theories/Properties/RunLogProps.v
theories/Model/DataStore.v
theories/Spec/DataStoreSpec.v
theories/Proofs/DataStoreP.v
theories/Properties/DataStoreProps.v
theories/Model/RunFiles.v
theories/Spec/RunFilesSpec.v
theories/Proofs/RunSyncP.v
theories/Proofs/RunFilesP.v
theories/Proofs/RunEndP.v
theories/Properties/RunFilesProps.v
theories/Model/LocalCont.v
theories/Spec/LocalContSpec.v
theories/Proofs/LocalContP.v
theories/Properties/LocalContProps.v
theories/Model/ShownK.v
theories/Spec/ShownKSpec.v
theories/Proofs/ShownKP.v
theories/Properties/ShownKProps.v
theories/Model/GFObject.v
theories/Proofs/GFObjectP.v
theories/Properties/GFObjectProps.v
theories/Base/RSum.v
theories/Model/AnaSolver.v
theories/Spec/AnaSolverSpec.v
theories/Proofs/RSumP.v
theories/Proofs/AnaSolverP.v
theories/Proofs/AnaSolverOptP.v
theories/Proofs/AnaSolverMainP.v
theories/Proofs/AnaSolverRepP.v
theories/Proofs/AnaSolverExP.v
theories/Properties/AnaSolverProps.v
theories/Model/AnaNewton.v
theories/Spec/AnaNewtonSpec.v
theories/Proofs/AnaNewtonP.v
theories/Properties/AnaNewtonProps.v
theories/Model/AnaAlpha.v
theories/Spec/AnaAlphaSpec.v
theories/Proofs/AnaAlphaP.v
theories/Properties/AnaAlphaProps.v
theories/Model/AnaKernel.v
theories/Spec/AnaKernelSpec.v
theories/Proofs/AnaKernelP.v
theories/Proofs/AnaKernelBoseP.v
theories/Proofs/AnaKernelBlurP.v
theories/Proofs/AnaKernelCovP.v
theories/Properties/AnaKernelProps.v
theories/Model/AnaProblem.v
theories/Spec/AnaProblemSpec.v
theories/Proofs/AnaProblemP.v
theories/Properties/AnaKktProps.v
theories/Properties/AnaProblemProps.v
theories/Model/PathPlot.v
theories/Spec/PathPlotSpec.v
theories/Proofs/PathPlotP.v
theories/Proofs/PathTickP.v
theories/Proofs/PathCrossP.v
theories/Proofs/PathExP.v
theories/Properties/PathPlotProps.v
theories/Model/AnaBayes.v
theories/Spec/AnaBayesSpec.v
theories/Proofs/AnaBayesEigP.v
theories/Proofs/AnaBayesP.v
theories/Proofs/AnaBayesTraceP.v
theories/Proofs/AnaBayesClassicP.v
theories/Proofs/AnaBayesMainP.v
theories/Properties/AnaBayesProps.v
theories/Model/CliTools.v
theories/Spec/CliSpec.v
theories/Proofs/CliToolsP.v
theories/Properties/CliProps.v
theories/Model/SwkAnalysis.v
theories/Spec/SwkSpec.v
theories/Proofs/SwkP.v
theories/Proofs/Swk2P.v
theories/Proofs/Swk3P.v
theories/Proofs/Swk4P.v
theories/Properties/SwkProps.v
theories/Model/FigMaps.v
theories/Spec/FigMapsSpec.v
theories/Proofs/FigMapsP.v
theories/Proofs/FigMaps2P.v
theories/Properties/FigMapsProps.v
theories/Model/LogChecks.v
theories/Spec/LogChecksSpec.v
theories/Proofs/LogChecksP.v
theories/Properties/LogChecksProps.v
theories/Properties/LogGiwkProps.v
theories/Model/SanityFigs.v
theories/Spec/SanityFigsSpec.v
theories/Proofs/SanityFigsP.v
theories/Properties/SanityFigsProps.v
theories/Model/ChiFigs.v
theories/Spec/ChiFigsSpec.v
theories/Proofs/ChiFigsP.v
theories/Properties/ChiFigsProps.v
theories/Model/VertexFigs.v
theories/Spec/VertexFigsSpec.v
theories/Proofs/VertexFigsP.v
theories/Properties/VertexFigsProps.v
