-Q theories Verif

theories/Base.v
theories/BaseLemmas.v
theories/BudgetModel.v
theories/BudgetSpec.v
theories/BudgetProofs.v
theories/BudgetTreeProofs.v
theories/BudgetProps.v
theories/BackendModel.v
theories/BackendSpec.v
theories/ListLemmas.v
theories/BackendProofs.v
theories/BackendProofs2.v
theories/BackendProps.v
theories/BounderModel.v
theories/BounderSpec.v
theories/BounderProofs.v
theories/BounderProps.v
theories/ParamsModel.v
theories/SensModel.v
theories/CombinerModel.v
theories/EngineModel.v
theories/CombinerSpec.v
theories/CombinerProofs.v
theories/CombinerProofs2.v
theories/CombinerProofs3.v
theories/CombinerProps.v
theories/EngineSpec.v
theories/EngineProofs.v
theories/EngineProofs2.v
theories/EngineProofs3.v
theories/EngineProps.v
theories/EngineProofs4.v
theories/EngineProofs5.v
theories/EngineProps2.v
theories/ParamsSpec.v
theories/ParamsProofs.v
theories/ParamsProps.v
theories/NumProps.v
theories/VectorModel.v
theories/VectorSpec.v
theories/VectorProofs.v
theories/VectorProofs2.v
theories/VectorProofs3.v
theories/VectorProps.v
theories/PldModel.v
theories/PldSpec.v
theories/PldProofs.v
theories/PldProps.v
theories/HistModel.v
theories/HistSpec.v
theories/HistProofs.v
theories/HistProofs2.v
theories/HistProofs3.v
theories/HistProofs4.v
theories/HistProofs5.v
theories/HistProps.v
theories/LabelModel.v
theories/LabelProofs.v
theories/LabelProps.v
theories/ExpMechModel.v
theories/ExpMechSpec.v
theories/ExpMechProofs.v
theories/ExpMechProps.v
theories/LaplaceModel.v
theories/LaplaceSpec.v
theories/LaplaceProofs.v
theories/LaplaceProps.v
theories/AnalysisModel.v
theories/AnalysisSpec.v
theories/AnalysisProofs.v
theories/AnalysisProofs2.v
theories/AnalysisProps.v
theories/SummaryModel.v
theories/SummaryProps.v
theories/TuningModel.v
theories/TuningProofs.v
theories/TuningProofs2.v
theories/TuningProofs3.v
theories/TuningProps.v
theories/ReportModel.v
theories/ReportProofs.v
theories/ReportProps.v
theories/DataframeModel.v
theories/DataframeProofs.v
theories/DataframeProps.v
theories/WrapperModel.v
theories/WrapperSpec.v
theories/WrapperProofs.v
theories/WrapperProps.v
theories/MultiProcModel.v
theories/MultiProcProofs.v
theories/MultiProcProps.v
theories/CrossModel.v
theories/CrossSpec.v
theories/CrossProofs.v
theories/CrossProps.v
theories/UtilityModel.v
theories/UtilitySpec.v
theories/UtilityProofs.v
theories/UtilityProofs2.v
theories/UtilityProofs3.v
theories/UtilityProps.v
theories/EstimatorModel.v
theories/EstimatorSpec.v
theories/EstimatorProofs.v
theories/EstimatorProofs2.v
theories/EstimatorProofs3.v
theories/EstimatorProofs4.v
theories/EstimatorProps.v
theories/SelectModel.v
theories/SelectSpec.v
theories/SelectProofs.v
theories/SelectProofs2.v
theories/SelectProofs3.v
theories/SelectProps.v
theories/PrivateSpec.v
theories/PrivateProofs.v
theories/PrivateProofs2.v
theories/PrivateProofs3.v
theories/PrivateProps.v
theories/DistSpec.v
theories/DistProofs.v
theories/DpModel.v
theories/DpSpec.v
theories/DpProofs.v
theories/DpProofs2.v
theories/DpProofs3.v
theories/DpProofs4.v
theories/DpProofs5.v
theories/DpProps.v
theories/LateModel.v
theories/LateSpec.v
theories/LateProofs.v
theories/LateProofs2.v
theories/LateProofs3.v
theories/LateProps.v
theories/ProgSpec.v
theories/ProgProofs.v
theories/ProgProofs2.v
theories/ProgProps.v
theories/AnalyzeModel.v
theories/AnalyzeSpec.v
theories/AnalyzeProofs.v
theories/AnalyzeProofs2.v
theories/AnalyzeProofs3.v
theories/AnalyzeProofs4.v
theories/AnalyzeProofs5.v
theories/AnalyzeProofs6.v
theories/AnalyzeProofs7.v
theories/AnalyzeProps.v
theories/LazyModel.v
theories/LazyEngineModel.v
theories/LazySpec.v
theories/LazyProofs.v
theories/LazyProofs2.v
theories/LazyProofs3.v
theories/LazyProofs4.v
theories/LazyProps.v
theories/ArrayModel.v
theories/ArraySpec.v
theories/ArrayProofs.v
theories/ArrayProofs2.v
theories/ArrayProps.v
theories/TuneModel.v
theories/TuneSpec.v
theories/TuneProofs.v
theories/TuneProofs2.v
theories/TuneProofs3.v
theories/TuneProofs4.v
theories/TuneProps.v
theories/CustomModel.v
theories/CustomSpec.v
theories/CustomProofs.v
theories/CustomProofs2.v
theories/CustomProofs3.v
theories/CustomProofs4.v
theories/CustomProofs5.v
theories/CustomProofs6.v
theories/CustomProps.v
theories/EnforcedSpec.v
theories/EnforcedProofs.v
theories/EnforcedProofs2.v
theories/EnforcedProps.v
theories/QuantileModel.v
theories/QuantileProps.v
theories/PldDpModel.v
theories/PldDpSpec.v
theories/PldDpProofs.v
theories/PldDpProofs2.v
theories/PldDpProofs3.v
theories/PldDpProofs4.v
theories/PldDpProps.v
theories/GroupSpec.v
theories/GroupProofs.v
theories/GroupProps.v
theories/LawSpec.v
theories/LawProofs.v
theories/LawProofs2.v
theories/LawProofs3.v
theories/LawProps.v
theories/PipelineSpec.v
theories/PipelineProofs.v
theories/PipelineProofs2.v
theories/PipelineProps.v
theories/RecordModel.v
theories/RecordSpec.v
theories/RecordProofs.v
theories/RecordProofs2.v
theories/RecordProofs3.v
theories/RecordProps.v
theories/ClusterModel.v
theories/ClusterSpec.v
theories/ClusterProofs.v
theories/ClusterProofs2.v
theories/ClusterProofs3.v
theories/ClusterProofs4.v
theories/ClusterProofs5.v
theories/ClusterProps.v
theories/SampleModel.v
theories/SampleSpec.v
theories/SampleProofs.v
theories/SampleProofs2.v
theories/SampleProofs3.v
theories/SampleProofs4.v
theories/SampleProps.v
theories/FrameModel.v
theories/FrameSpec.v
theories/FrameProofs.v
theories/FrameProofs2.v
theories/FrameProps.v
theories/ApproxModel.v
theories/ApproxSpec.v
theories/ApproxProofs.v
theories/ApproxProps.v
theories/FloatModel.v
theories/FloatSpec.v
theories/FloatProofs.v
theories/FloatProofs2.v
theories/FloatProps.v
theories/DrawSpec.v
theories/DrawProofs.v
theories/DrawProps.v
theories/ExplainModel.v
theories/ExplainSpec.v
theories/ExplainProofs.v
theories/ExplainProps.v
theories/GroupDrawProps.v
theories/ThreshProps.v
theories/RoundModel.v
theories/RoundSpec.v
theories/RoundProofs.v
theories/RoundProofs2.v
theories/RoundProofs3.v
theories/RoundProps.v
theories/WrapperProps2.v
theories/QTreeModel.v
theories/QTreeProofs.v
theories/QTreeProps.v
theories/AnnotateModel.v
theories/AnnotateSpec.v
theories/AnnotateProofs.v
theories/AnnotateProps.v
theories/AccurateSpec.v
theories/AccurateProofs.v
theories/AccurateProps.v
theories/CombineProps.v
theories/AccurateProps2.v
theories/CrossProps2.v
