-Q theories Verif
theories/FieldsModel.v
theories/FieldsSpec.v
theories/FieldsProofs.v
theories/FieldsProps.v
theories/BaselineModel.v
theories/BaselineProofs.v
theories/BaselineProps.v
theories/BdaBufferModel.v
theories/BdaBufferSpec.v
theories/BdaBufferProofs.v
theories/BdaBufferProps.v
theories/QcUtil.v
theories/BdaAverageModel.v
theories/BdaAverageSpec.v
theories/BdaAverageProofs.v
theories/BdaAverageProps.v
theories/BdaExpandModel.v
theories/BdaExpandSpec.v
theories/BdaExpandProofs.v
theories/BdaExpandProps.v
theories/AverageModel.v
theories/AverageSpec.v
theories/AverageProofs.v
theories/AverageProps.v
theories/InfoModel.v
theories/InfoSpec.v
theories/InfoProofs.v
theories/InfoProps.v
theories/UpsampleModel.v
theories/UpsampleSpec.v
theories/UpsampleProofs.v
theories/UpsampleProps.v
theories/FilterModel.v
theories/FilterSpec.v
theories/FilterProofs.v
theories/FilterProps.v
theories/FlagExprModel.v
theories/FlagExprSpec.v
theories/FlagExprProofs.v
theories/FlagExprProps.v
theories/PreflagModel.v
theories/PreflagSpec.v
theories/PreflagProofs.v
theories/PreflagSets.v
theories/PreflagProps.v
theories/UvwFlagModel.v
theories/UvwFlagSpec.v
theories/UvwFlagProofs.v
theories/UvwFlagProps.v
theories/StrModel.v
theories/StrProofs.v
theories/NumParseModel.v
theories/NumParseSpec.v
theories/NumParseProofs.v
theories/NumParseProps.v
theories/SplitModel.v
theories/SplitSpec.v
theories/SplitProofs.v
theories/SplitProps.v
theories/ParsetModel.v
theories/ParsetSpec.v
theories/ParsetProofs.v
theories/ParsetProps.v
theories/ReadModel.v
theories/ReadSpec.v
theories/ReadProofs.v
theories/ReadProps.v
theories/RangeModel.v
theories/RangeSpec.v
theories/RangeProofs.v
theories/RangeProps.v
theories/MedianModel.v
theories/MedianSpec.v
theories/MedianProofs.v
theories/MedianProps.v
theories/FlagCountModel.v
theories/FlagCountSpec.v
theories/FlagCountProofs.v
theories/FlagCountProps.v
theories/InterpModel.v
theories/InterpSpec.v
theories/InterpProofs.v
theories/InterpProps.v
theories/ClipModel.v
theories/ClipSpec.v
theories/ClipProofs.v
theories/ClipProps.v
theories/MadModel.v
theories/MadSpec.v
theories/MadProofs.v
theories/MadProps.v
theories/AdderModel.v
theories/AdderSpec.v
theories/AdderProofs.v
theories/AdderData.v
theories/AdderNames.v
theories/AdderProps.v
theories/TransferModel.v
theories/TransferSpec.v
theories/TransferProofs.v
theories/TransferProps.v
theories/TimesModel.v
theories/TimesSpec.v
theories/TimesProofs.v
theories/TimesProps.v
theories/CellsModel.v
theories/CellsSpec.v
theories/CellsProofs.v
theories/CellsProps.v
theories/ClusterModel.v
theories/ClusterSpec.v
theories/ClusterProofs.v
theories/ClusterProps.v
theories/LaneModel.v
theories/LaneSpec.v
theories/LaneProps.v
theories/PatternModel.v
theories/PatternSpec.v
theories/PatternProps.v
theories/ChainModel.v
theories/ChainSpec.v
theories/ChainProps.v
theories/StokesModel.v
theories/StokesSpec.v
theories/StokesProps.v
theories/CombineModel.v
theories/CombineSpec.v
theories/CombineProps.v
theories/SubchainModel.v
theories/SubchainProps.v
theories/SolveBufferModel.v
theories/SolveBufferSpec.v
theories/SolveBufferProofs.v
theories/SolveBufferProps.v
theories/WeighModel.v
theories/WeighSpec.v
theories/WeighProps.v
theories/SolveDataModel.v
theories/SolveDataSpec.v
theories/SolveDataProofs.v
theories/SolveDataProps.v
theories/Cplx.v
theories/GainModel.v
theories/GainSpec.v
theories/GainProofs.v
theories/GainFit.v
theories/GainProps.v
theories/IterateModel.v
theories/IterateSpec.v
theories/IterateProofs.v
theories/IterateProps.v
theories/PhaseModel.v
theories/PhaseProps.v
theories/ResampleModel.v
theories/ResampleSpec.v
theories/ResampleProofs.v
theories/ResampleProps.v
theories/ResampleRound.v
theories/DdecalModel.v
theories/DdecalSpec.v
theories/DdecalProofs.v
theories/DdecalProps.v
theories/SumsModel.v
theories/SumsSpec.v
theories/SumsProps.v
theories/SubtractModel.v
theories/SubtractSpec.v
theories/SubtractProps.v
theories/BdaApplyModel.v
theories/BdaApplySpec.v
theories/BdaApplyProps.v
theories/BdaQueueModel.v
theories/BdaQueueSpec.v
theories/BdaQueueProofs.v
theories/BdaQueueProps.v
theories/NextStepsModel.v
theories/NextStepsSpec.v
theories/NextStepsProps.v
theories/AoFlagModel.v
theories/AoFlagSpec.v
theories/AoFlagProofs.v
theories/AoFlagProps.v
theories/ApplyCalModel.v
theories/ApplyCalSpec.v
theories/ApplyCalProps.v
theories/ApplySetModel.v
theories/ApplySetSpec.v
theories/ApplySetProps.v
theories/AntFlagModel.v
theories/AntFlagSpec.v
theories/AntFlagProofs.v
theories/AntFlagProps.v
theories/MultiModel.v
theories/MultiSpec.v
theories/MultiProofs.v
theories/MultiProps.v
theories/UpdateMsModel.v
theories/UpdateMsSpec.v
theories/UpdateMsProps.v
theories/UvwSplitModel.v
theories/UvwSplitSpec.v
theories/UvwSplitProofs.v
theories/UvwSplitProps.v
theories/EulerModel.v
theories/SimulateModel.v
theories/SimulateSpec.v
theories/SimulateProofs.v
theories/SimulateProps.v
theories/ShiftModel.v
theories/ShiftSpec.v
theories/ShiftProps.v
theories/BeamModel.v
theories/BeamSpec.v
theories/BeamProofs.v
theories/BeamProps.v
theories/PredictModel.v
theories/PredictSpec.v
theories/PredictProofs.v
theories/PredictProps.v
theories/ScaleModel.v
theories/ScaleSpec.v
theories/ScaleProps.v
theories/AxisModel.v
theories/AxisSpec.v
theories/AxisProofs.v
theories/AxisProps.v
theories/ParmModel.v
theories/ParmSpec.v
theories/ParmProofs.v
theories/ParmProps.v
theories/RealCplx.v
theories/StefModel.v
theories/StefSpec.v
theories/StefProofs.v
theories/StefProps.v
theories/CalModel.v
theories/CalSpec.v
theories/CalProofs.v
theories/CalProps.v
theories/GainFileModel.v
theories/GainFileSpec.v
theories/GainFileProofs.v
theories/GainFileProps.v
theories/ConstrModel.v
theories/ConstrSpec.v
theories/ConstrProofs.v
theories/ConstrProps.v
theories/RotModel.v
theories/RotSpec.v
theories/RotProofs.v
theories/RotProps.v
theories/DemixModel.v
theories/DemixSpec.v
theories/DemixProofs.v
theories/DemixProps.v
theories/DemixTimeModel.v
theories/DemixTimeSpec.v
theories/DemixTimeProofs.v
theories/DemixTimeProps.v
theories/FactoryModel.v
theories/FactorySpec.v
theories/FactoryProps.v
theories/FactoryInitProps.v
theories/InitSolModel.v
theories/InitSolSpec.v
theories/InitSolProps.v
theories/TecModel.v
theories/TecSpec.v
theories/TecProps.v
theories/DomainModel.v
theories/DomainSpec.v
theories/DomainProps.v
theories/GridsModel.v
theories/GridsProps.v
theories/SkyModelModel.v
theories/SkyModelSpec.v
theories/SkyModelProps.v
theories/BoxModel.v
theories/BoxSpec.v
theories/BoxProps.v
theories/GridSortModel.v
theories/GridSortProps.v
