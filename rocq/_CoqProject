-Q theories Verif
theories/CalcModel.v
theories/CalcSpec.v
theories/CalcProofs.v
theories/CalcProps.v
theories/CutModel.v
theories/CutProps.v
theories/Sums.v
theories/MatModel.v
theories/MatSpec.v
theories/MatProofs.v
theories/MatProps.v
theories/BackpropModel.v
theories/BackpropSpec.v
theories/BackpropProofs.v
theories/GradModel.v
theories/GradSpec.v
theories/GradProofs.v
theories/BackpropProps.v
theories/GraphModel.v
theories/GraphSpec.v
theories/GraphProofs.v
theories/GraphHistory.v
theories/GraphWalk.v
theories/GraphProps.v
theories/GraphCloneProps.v
theories/TapeModel.v
theories/TapeSpec.v
theories/TapeIntervals.v
theories/TapeProofs.v
theories/TapeHistory.v
theories/TapeProps.v
theories/LispModel.v
theories/LispSpec.v
theories/LispProofs.v
theories/LispProps.v
theories/LoopModel.v
theories/LoopProofs.v
theories/ConvModel.v
theories/ConvSpec.v
theories/ConvProofs.v
theories/ConvProps.v
theories/PoolModel.v
theories/PoolSpec.v
theories/PoolProofs.v
theories/AvgProofs.v
theories/PoolProps.v
theories/SparsemaxModel.v
theories/SparsemaxSpec.v
theories/SparsemaxProofs.v
theories/SparsemaxProps.v
theories/DropoutModel.v
theories/DropoutSpec.v
theories/DropoutProps.v
theories/BatchNormModel.v
theories/BatchNormSpec.v
theories/BatchNormProofs.v
theories/BatchNormGrad.v
theories/BatchNormProps.v
theories/CtcModel.v
theories/CtcSpec.v
theories/CtcPaths.v
theories/CtcProofs.v
theories/CtcBatch.v
theories/CtcGrad.v
theories/CtcDeriv.v
theories/CtcProps.v
theories/CtcGradProps.v
theories/OpHashModel.v
theories/OpHashSpec.v
theories/OpHashProofs.v
theories/OpHashProps.v
theories/StabModel.v
theories/StabSpec.v
theories/StabProps.v
theories/BfcModel.v
theories/BfcSpec.v
theories/BfcProofs.v
theories/BfcProps.v
theories/BfcCalm.v
theories/BfcCalmProps.v
theories/SolverModel.v
theories/SolverSpec.v
theories/SolverProofs.v
theories/SolverLoops.v
theories/SolverAdamW.v
theories/SolverProps.v
theories/BBSpec.v
theories/BBProofs.v
theories/BBProps.v
theories/BroadcastModel.v
theories/NodeShapeModel.v
theories/BroadcastSpec.v
theories/BroadcastProofs.v
theories/BroadcastProps.v
theories/BitsetModel.v
theories/BitsetSpec.v
theories/BitsetProps.v
theories/ShapeGradModel.v
theories/ShapeGradSpec.v
theories/ShapeGradProofs.v
theories/ShapeGradSlice.v
theories/ShapeGradConcat.v
theories/ShapeGradSum.v
theories/ShapeGradRepeat.v
theories/ShapeGradProps.v
theories/FuncModel.v
theories/FuncSpec.v
theories/FuncProps.v
theories/CvtModel.v
theories/CvtSpec.v
theories/CvtProps.v
theories/TrnModel.v
theories/TrnSpec.v
theories/TrnProps.v
theories/XferModel.v
theories/XferSpec.v
theories/XferProps.v
theories/AtSpec.v
theories/AtProps.v
theories/LiftModel.v
theories/LiftSpec.v
theories/LiftProps.v
theories/FastModel.v
theories/FastSpec.v
theories/FastProps.v
theories/LookModel.v
theories/LookSpec.v
theories/LookProps.v
theories/RptModel.v
theories/RptSpec.v
theories/RptProps.v
theories/DotModel.v
theories/DotSpec.v
theories/DotProps.v
theories/FlushModel.v
theories/FlushSpec.v
theories/FlushProofs.v
theories/FlushSim.v
theories/FlushProps.v
theories/HandModel.v
theories/HandSpec.v
theories/HandProofs.v
theories/HandProps.v
theories/DetModel.v
theories/DetSpec.v
theories/DetProps.v
theories/EngModel.v
theories/EngSpec.v
theories/EngProofs.v
theories/EngProps.v
theories/FoldModel.v
theories/FoldSpec.v
theories/FoldProofs.v
theories/FoldProps.v
theories/BfcResetModel.v
theories/BfcResetProps.v
theories/FlagModel.v
theories/FlagSpec.v
theories/FlagProofs.v
theories/FlagProps.v
theories/CudnnModel.v
theories/CudnnProps.v
theories/MnistModel.v
theories/MnistSpec.v
theories/MnistProps.v
theories/SetupModel.v
theories/SetupSpec.v
theories/SetupProps.v
theories/NodesModel.v
theories/NodesSpec.v
theories/NodesProps.v
theories/WeightModel.v
theories/WeightSpec.v
theories/WeightProps.v
theories/XvmModel.v
theories/XvmSpec.v
theories/XvmProofs.v
theories/XvmLive.v
theories/XvmProps.v
theories/BlaseModel.v
theories/BlaseSpec.v
theories/BlaseProps.v
theories/GroupNormModel.v
theories/GroupNormSpec.v
theories/GroupNormProofs.v
theories/GroupNormFlow.v
theories/GroupNormGrad.v
theories/GroupNormProps.v
theories/ReduceModel.v
theories/ReduceSpec.v
theories/ReduceProofs.v
theories/ReduceFlow.v
theories/ReduceProps.v
theories/SoftmaxModel.v
theories/SoftmaxSpec.v
theories/SoftmaxProofs.v
theories/SoftmaxProps.v
theories/AliasModel.v
theories/AliasSpec.v
theories/AliasProofs.v
theories/AliasProps.v
theories/TrainModel.v
theories/TrainSpec.v
theories/TrainProofs.v
theories/TrainProps.v
theories/ConvGradModel.v
theories/ConvGradSpec.v
theories/ConvGradProofs.v
theories/ConvGradProps.v
theories/TdotModel.v
theories/TdotSpec.v
theories/TdotLists.v
theories/TdotProofs.v
theories/TdotProps.v
theories/EwiseModel.v
theories/EwiseSpec.v
theories/EwiseProofs.v
theories/EwiseAuto.v
theories/EwiseProps.v
theories/ByIdxModel.v
theories/ByIdxSpec.v
theories/ByIdxProps.v
theories/SumAutoModel.v
theories/SumAutoProps.v
theories/LinAlgModel.v
theories/LinAlgSpec.v
theories/LinAlgProps.v
theories/TypeModel.v
theories/TypeSpec.v
theories/TypeProps.v
theories/YoloModel.v
theories/YoloSpec.v
theories/YoloProofs.v
theories/YoloProps.v
theories/YoloTrainProps.v
theories/YoloTightProps.v
theories/BatchNorm32Model.v
theories/BatchNorm32Props.v
theories/TdotAutoModel.v
theories/TdotAutoProps.v
theories/PwGradModel.v
theories/PwGradSpec.v
theories/PwGradProps.v
theories/ActModel.v
theories/ActProps.v
theories/RandModel.v
theories/RandProps.v
theories/ApplyModel.v
theories/ApplyProps.v
theories/NormHashModel.v
theories/NormHashProps.v
theories/GpuModel.v
theories/GpuProofs.v
theories/GpuProps.v
theories/BindModel.v
theories/BindSpec.v
theories/BindProofs.v
theories/BindProps.v
theories/NodeOptModel.v
theories/NodeOptProps.v
theories/ValuesModel.v
theories/ValuesSpec.v
theories/ValuesProofs.v
theories/ValuesProps.v
theories/WatchModel.v
theories/WatchSpec.v
theories/WatchProps.v
theories/KeepModel.v
theories/KeepSpec.v
theories/KeepProps.v
theories/CudaLinModel.v
theories/CudaLinSpec.v
theories/CudaLinProps.v
theories/DeviceModel.v
theories/DeviceSpec.v
theories/DeviceProps.v
theories/DvModel.v
theories/DvSpec.v
theories/DvProofs.v
theories/DvProps.v
theories/TpModel.v
theories/TpSpec.v
theories/TpProofs.v
theories/TpProps.v
theories/ParModel.v
theories/ParSpec.v
theories/ParProofs.v
theories/ParProps.v
theories/CtcParModel.v
theories/CtcParProps.v
theories/VocabModel.v
theories/VocabProps.v
