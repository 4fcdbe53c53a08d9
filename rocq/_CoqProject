-Q theories Verif

theories/Flt.v
theories/Py.v
theories/IndivModel.v
theories/IndivProofs.v
theories/IndivProps.v
theories/ParamModel.v
theories/ParamProofs.v
theories/ParamProps.v
theories/FltMore.v
theories/FManModel.v
theories/FManProofs.v
theories/FManProps.v
theories/ChalModel.v
theories/ChalProofs.v
theories/ChalSerial.v
theories/ChalLive.v
theories/ChalInst.v
theories/ChalProps.v
theories/RankModel.v
theories/SampFloat.v
theories/RankProofs.v
theories/RankProps.v
theories/RunModel.v
theories/RunProofs.v
theories/ScoreProofs.v
theories/RunProps.v
theories/SetupModel.v
theories/SetupProofs.v
theories/SetupProps.v
theories/ConstrModel.v
theories/ConstrProps.v
theories/SpecsModel.v
theories/SpecsProofs.v
theories/SpecsProps.v
theories/HistModel.v
theories/HistProofs.v
theories/HistProps.v
theories/AnalModel.v
theories/AnalProofs.v
theories/AnalRange.v
theories/AnalProps.v
theories/RepModel.v
theories/RepProofs.v
theories/RepFloat.v
theories/RepProps.v
theories/AbortModel.v
theories/AbortProps.v
theories/MiscModel.v
theories/MiscProps.v
theories/LggModel.v
theories/LggProofs.v
theories/LggProps.v
theories/LoadModel.v
theories/LoadProps.v
theories/PopHModel.v
theories/PopHProps.v
theories/LogModel.v
theories/LogProofs.v
theories/LogProps.v
theories/MsgModel.v
theories/MsgProps.v
theories/UtilModel.v
theories/UtilProps.v
theories/ExamModel.v
theories/ExamProps.v
theories/DriftProps.v
theories/LoopModel.v
theories/LoopProofs.v
theories/LoopProps.v
theories/ProgModel.v
theories/ProgProps.v
theories/MapModel.v
theories/MapProps.v
theories/ContModel.v
theories/ContProps.v
theories/VsModel.v
theories/VsProps.v
theories/ViewModel.v
theories/ViewProps.v
theories/PlotModel.v
theories/PlotProofs.v
theories/PlotProps.v
theories/ArgsModel.v
theories/ArgsProofs.v
theories/ArgsProps.v
theories/PvModel.v
theories/PvProps.v
theories/DataModel.v
theories/DataProps.v
theories/FanModel.v
theories/FanProofs.v
theories/FanProps.v
theories/WaitModel.v
theories/WaitProps.v
theories/DrawProps.v
theories/RecModel.v
theories/RecProps.v
theories/PairModel.v
theories/PairProps.v
theories/AdaptModel.v
theories/AdaptProofs.v
theories/AdaptProps.v
theories/PoolModel.v
theories/PoolProps.v
theories/FitModel.v
theories/FitProps.v
theories/WrapModel.v
theories/WrapProps.v
theories/UnityProps.v
theories/CompModel.v
theories/CompProps.v
theories/EndProps.v
theories/RunRepModel.v
theories/RunRepProps.v
theories/LggMainModel.v
theories/LggMainProps.v
theories/CampModel.v
theories/CampProps.v
theories/RunnerModel.v
theories/RunnerProps.v
theories/ShowModel.v
theories/ShowProps.v
theories/HoldModel.v
theories/HoldProps.v
theories/SetRunModel.v
theories/SetRunProps.v
