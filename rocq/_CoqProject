-Q theories Verif
theories/NodeModel.v
theories/NodeSpec.v
theories/NodeProofs.v
theories/CumulatorModel.v
theories/CumulatorProofs.v
theories/NodeProps.v
theories/FlowModel.v
theories/FlowSpec.v
theories/FlowProofs.v
theories/FlowProps.v
theories/PyList.v
theories/FlowListModel.v
theories/FlowListProps.v
theories/GraphModel.v
theories/GraphProofs.v
theories/GraphProps.v
theories/ExtModel.v
theories/ExtProofs.v
theories/ExtProps.v
theories/SwitchModel.v
theories/SwitchProofs.v
theories/SwitchGeom.v
theories/SwitchRhomb.v
theories/SwitchProps.v
theories/LayerModel.v
theories/LayerProofs.v
theories/LayerProps.v
theories/FlowNodeModel.v
theories/FlowNodeProofs.v
theories/FlowNodeProps.v
theories/SchedModel.v
theories/SchedProofs.v
theories/SchedProps.v
theories/ProcModel.v
theories/ProcProofs.v
theories/ProcPipes.v
theories/ProcProps.v
theories/ProcRefuted.v
theories/ThreadModel.v
theories/ThreadProps.v
theories/ParallelModel.v
theories/ParallelProofs.v
theories/ParallelProps.v
theories/CovModel.v
theories/CovProofs.v
theories/CovProps.v
theories/RoutModel.v
theories/RoutProps.v
theories/MiscModel.v
theories/MiscProps.v
theories/ExpModel.v
theories/ExpProofs.v
theories/ExpProps.v
theories/RecModel.v
theories/RecProofs.v
theories/RecWords.v
theories/RecProps.v
theories/CacheModel.v
theories/CacheProps.v
theories/ClassModel.v
theories/ClassProofs.v
theories/ClassProps.v
theories/HopModel.v
theories/HopProps.v
theories/KMeansModel.v
theories/KMeansProps.v
theories/PercModel.v
theories/PercProps.v
theories/GaussModel.v
theories/GaussProps.v
theories/OnlineModel.v
theories/OnlineProps.v
theories/OFlowModel.v
theories/OFlowProps.v
theories/OContModel.v
theories/OContProps.v
theories/OnlineLearn.v
theories/StatsOnlineModel.v
theories/StatsOnlineProps.v
theories/BiModel.v
theories/BiProps.v
theories/BiFlowModel.v
theories/BiMsgModel.v
theories/BiMsgProps.v
theories/BiFlowProps.v
theories/BiFlowEx.v
theories/BiQuiet.v
theories/OFlowNodeModel.v
theories/OFlowNodeProps.v
theories/NGasModel.v
theories/NGasProofs.v
theories/NGasProps.v
theories/RegModel.v
theories/RegProps.v
theories/OField.v
theories/LinAlg.v
theories/PCAModel.v
theories/PCAProofs.v
theories/PCAProps.v
theories/GenEig.v
theories/SymeigModel.v
theories/SymeigProofs.v
theories/SymeigProps.v
theories/SFAModel.v
theories/SFAProps.v
theories/FDAModel.v
theories/FDAProps.v
theories/QuadModel.v
theories/QuadProofs.v
theories/QuadProps.v
theories/SFA2Props.v
theories/VSFAModel.v
theories/VSFAProofs.v
theories/VSFAProps.v
theories/OLayerModel.v
theories/OLayerProps.v
theories/GSFAModel.v
theories/GSFAProofs.v
theories/GSFAProofs2.v
theories/GSFAProps.v
theories/ParNodeModel.v
theories/ParNodeProofs.v
theories/ParNodeProps.v
theories/IncModel.v
theories/IncProofs.v
theories/IncProps.v
theories/IncProps2.v
theories/IncProps3.v
theories/NipModel.v
theories/NipProofs.v
theories/NipProps.v
theories/ExtRegModel.v
theories/ExtRegProps.v
theories/BiFlowNodeModel.v
theories/BiFlowNodeProps.v
theories/GradModel.v
theories/GradProofs.v
theories/GradProps.v
theories/CloneBiModel.v
theories/CloneBiProps.v
theories/SwitchBiModel.v
theories/SwitchBiProps.v
theories/XsfaModel.v
theories/XsfaProps.v
theories/FAModel.v
theories/FAProps.v
theories/ConvModel.v
theories/ConvProps.v
theories/RBMModel.v
theories/RBMProps.v
theories/ParBiModel.v
theories/ParBiProps.v
theories/CoroModel.v
theories/CoroProps.v
theories/ICAModel.v
theories/ICAProofs.v
theories/ICAProps.v
theories/JadeProps.v
theories/FastModel.v
theories/FastProps.v
theories/IsfaModel.v
theories/IsfaProofs.v
theories/IsfaProps.v
theories/LleModel.v
theories/LleProps.v
theories/LleEmbed.v
theories/UtilsModel.v
theories/UtilsProps.v
theories/CompactModel.v
theories/CompactProps.v
theories/IgsfaModel.v
theories/IgsfaProps.v
theories/IgsfaBatch.v
theories/OdModel.v
theories/OdProps.v
theories/ConfModel.v
theories/ConfProps.v
theories/TmpModel.v
theories/TmpProps.v
theories/RotModel.v
theories/RotProps.v
theories/FixModel.v
theories/FixProps.v
theories/EtaModel.v
theories/EtaProps.v
theories/TraceModel.v
theories/TraceProps.v
theories/SlideModel.v
theories/SlideProps.v
theories/SenderModel.v
theories/SenderProps.v
theories/SnapModel.v
theories/SnapProps.v
theories/ShowModel.v
theories/ShowProps.v
theories/SvmModel.v
theories/SvmProps.v
theories/PanelModel.v
theories/PanelProps.v
theories/SkModel.v
theories/SkProps.v
