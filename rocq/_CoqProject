-Q theories Verif
theories/Prelude.v
theories/PreludeFacts.v
theories/Poly.v
theories/PolyFacts.v
theories/PolyInterp.v
theories/Mat.v
theories/MatFacts.v
theories/PwModel.v
theories/PwFacts.v
theories/PwInterpModel.v
theories/PwSpec.v
theories/PwInterpSpec.v
theories/PwIntegrProofs.v
theories/PwSchemeProofs.v
theories/PwAccelProofs.v
theories/PwMotionProofs.v
theories/PwDynProofs.v
theories/PwStepProofs.v
theories/PwInterpProofs.v
theories/PwMoreProofs.v
theories/PwLiveProofs.v
theories/PwFinalProofs.v
theories/PwExamples.v
theories/PwSimProofs.v
theories/PwProps.v
theories/SplineModel.v
theories/SolveModel.v
theories/SolveSpec.v
theories/SolveProofs.v
theories/SolveNames.v
theories/SolveExamples.v
theories/SolveProps.v
theories/UErrModel.v
theories/UErrSpec.v
theories/PsModel.v
theories/JacobiFacts.v
theories/PsSpec.v
theories/PsPointsProofs.v
theories/PsBaryProofs.v
theories/PsNodesProofs.v
theories/PsProblemProofs.v
theories/PsApplyProofs.v
theories/PsInterpProofs.v
theories/PsMoreProofs.v
theories/SplineSpec.v
theories/SplineProofs.v
theories/PsFinalProofs.v
theories/PsProps.v
theories/UtilModel.v
theories/UtilSpec.v
theories/GaussFacts.v
theories/UtilProofs.v
theories/BuTdModel.v
theories/BuTdSpec.v
theories/BuTdFacts.v
theories/BuTdProofs.v
theories/BuTdApplyProofs.v
theories/BuTdInterpProofs.v
theories/BuTdMoreProofs.v
theories/BuTdFinalProofs.v
theories/UtilMoreProofs.v
theories/BuTdProps.v
theories/BuTdModeProofs.v
theories/BuTdModeProps.v
theories/SplineBtProofs.v
theories/SplinePwProofs.v
theories/SplineExamples.v
theories/SplineProps.v
theories/PsQuadProofs.v
theories/QuadProps.v
theories/CostModel.v
theories/CostSpec.v
theories/CostFacts.v
theories/CostProofs.v
theories/CostEqProofs.v
theories/CostSqProofs.v
theories/CostPsProofs.v
theories/CostPhProofs.v
theories/CostTrapProofs.v
theories/CostProps.v
theories/DispatchModel.v
theories/DispatchSpec.v
theories/DispatchProofs.v
theories/FuncDynModel.v
theories/FuncDynSpec.v
theories/FuncDynProofs.v
theories/LifeModel.v
theories/LifeProofs.v
theories/LifeSpec.v
theories/LifeMoreProofs.v
theories/EquiModel.v
theories/EquiSpec.v
theories/EquiProofs.v
theories/EquiMoreProofs.v
theories/EquiThirdProofs.v
theories/EquiExamples.v
theories/PhModel.v
theories/PhSpec.v
theories/PhProofs.v
theories/PhSegProofs.v
theories/PhBtProofs.v
theories/PhPsProofs.v
theories/DispatchProps.v
theories/LifeExamples.v
theories/LifeProps.v
theories/EquiProps.v
theories/PhMoreProofs.v
theories/PhJoinProofs.v
theories/PhFinalProofs.v
theories/PhExamples.v
theories/PhProps.v
theories/InitModel.v
theories/InitSpec.v
theories/InitProofs.v
theories/InitLinProofs.v
theories/InitWayProofs.v
theories/InitFinalProofs.v
theories/InitCustomProofs.v
theories/MemModel.v
theories/MemSpec.v
theories/MemProofs.v
theories/MemLoopProofs.v
theories/MemOrderProofs.v
theories/MemIntProofs.v
theories/MemThmProofs.v
theories/MemProps.v
theories/InitPhModel.v
theories/InitPhProofs.v
theories/InitProps.v
theories/StoreModel.v
theories/StoreSpec.v
theories/StoreBindProofs.v
theories/StoreProofs.v
theories/StoreHistProofs.v
theories/StoreExamples.v
theories/StoreProps.v
theories/NumpyModel.v
theories/NumpySpec.v
theories/NumpyProofs.v
theories/NumpyProps.v
theories/AnalysisModel.v
theories/AnalysisSpec.v
theories/AnalysisProofs.v
theories/AnalysisPhProofs.v
theories/AnalysisSegProofs.v
theories/AnalysisSavedProofs.v
theories/AnalysisJoinProofs.v
theories/AnalysisMainProofs.v
theories/AnalysisErrProofs.v
theories/AnalysisPwProofs.v
theories/AnalysisLiveProofs.v
theories/AnalysisExamples.v
theories/AnalysisProps.v
theories/AdaptModel.v
theories/AdaptSpec.v
theories/AdaptProofs.v
theories/AdaptErrProofs.v
theories/AdaptExamples.v
theories/AdaptProps.v
theories/SymModel.v
theories/SymSpec.v
theories/SymProofs.v
theories/SymProps.v
theories/LagrModel.v
theories/LagrSpec.v
theories/LagrFacts.v
theories/LagrProofs.v
theories/LagrAlgebra.v
theories/LagrReduceProofs.v
theories/LagrRhsProofs.v
theories/LagrMoreProofs.v
theories/LagrMotionProofs.v
theories/LagrExamples.v
theories/LagrExamples2.v
theories/LagrProps.v
theories/RobotModel.v
theories/RobotSpec.v
theories/RobotProofs.v
theories/RobotChainProofs.v
theories/RobotEnergyProofs.v
theories/RobotMotionProofs.v
theories/RobotExamples.v
theories/RobotProps.v
theories/PlotModel.v
theories/PlotSpec.v
theories/PlotProofs.v
theories/PlotNameProofs.v
theories/PlotExamples.v
theories/PlotProps.v
theories/CasModel.v
theories/CasSpec.v
theories/CasProofs.v
theories/CasRhsProofs.v
theories/CasNameProofs.v
theories/CasDynProofs.v
theories/CasResProofs.v
theories/CasImplProofs.v
theories/CasSetupProofs.v
theories/NumSymModel.v
theories/NumSymProofs.v
theories/CasToolProofs.v
theories/CasLagrSpec.v
theories/CasLagrProofs.v
theories/PendModel.v
theories/PendSpec.v
theories/PendProofs.v
theories/CasExamples.v
theories/CasExamples2.v
theories/CasCacheModel.v
theories/CasCacheProofs.v
theories/CasProps.v
theories/AnalysisPtModel.v
theories/AnalysisPtSpec.v
theories/AnalysisPtProofs.v
theories/AnalysisPtLive.v
theories/UErrProofs.v
theories/UErrProps.v
theories/AnalysisPtExamples.v
theories/AnalysisPtProps.v
theories/PrintModel.v
theories/PrintSpec.v
theories/PrintProofs.v
theories/PrintThmProofs.v
theories/PrintProps.v
theories/LagrEqModel.v
theories/LagrEqSpec.v
theories/LagrEqProofs.v
theories/LagrEqRhsProofs.v
theories/LagrEqExamples.v
theories/LagrEqProps.v
theories/PinvModel.v
theories/PinvSpec.v
theories/PinvProofs.v
theories/PinvExamples.v
theories/PinvProps.v
theories/ExtCasModel.v
theories/ExtCasProofs.v
theories/ExtCasProps.v
theories/TryModel.v
theories/TrySpec.v
theories/TryProofs.v
theories/TryProps.v
theories/RoundModel.v
theories/RoundSpec.v
theories/RoundProofs.v
theories/RoundProps.v
theories/PwExpandModel.v
theories/PwExpandSpec.v
theories/PwExpandProofs.v
theories/PwExpandProps.v
theories/AnalysisTotSpec.v
theories/AnalysisTotProofs.v
theories/AnalysisTotProps.v
theories/BuBasisProofs.v
theories/BuBasisProps.v
