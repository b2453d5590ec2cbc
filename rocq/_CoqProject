-Q theories Verif

theories/AdiakExportModel.v
theories/AdiakExportProps.v
theories/AdiakModel.v
theories/AdiakProofs.v
theories/AdiakProofs2.v
theories/AdiakProps.v
theories/AdiakSpec.v
theories/AggModel.v
theories/AggProofs.v
theories/AggProofs10.v
theories/AggProofs11.v
theories/AggProofs12.v
theories/AggProofs2.v
theories/AggProofs3.v
theories/AggProofs4.v
theories/AggProofs5.v
theories/AggProofs6.v
theories/AggProofs7.v
theories/AggProofs8.v
theories/AggProofs9.v
theories/AggProps.v
theories/AggProps2.v
theories/AggProps3.v
theories/AggProps4.v
theories/AggSpec.v
theories/AggSpec2.v
theories/AggSpec3.v
theories/AlStModel.v
theories/AlStProofs.v
theories/AlStProofs2.v
theories/AlStProofs3.v
theories/AlStProps.v
theories/AlStSpec.v
theories/AllocModel.v
theories/AllocProps.v
theories/AllocProps2.v
theories/AllocSpec.v
theories/AnnotModel.v
theories/AnnotProps.v
theories/ArgsModel.v
theories/ArgsProps.v
theories/ArgsSpec.v
theories/ArithModel.v
theories/ArithProofs.v
theories/ArithProps.v
theories/ArithSpec.v
theories/AttrModel.v
theories/AttrProps.v
theories/Base.v
theories/BindModel.v
theories/BindProofs.v
theories/BindProps.v
theories/BindSpec.v
theories/BlackboardModel.v
theories/BlackboardProofs.v
theories/BlackboardProps.v
theories/BlackboardSpec.v
theories/BufModel.v
theories/BufProofs.v
theories/BufProofs2.v
theories/BufProofs3.v
theories/BufProps.v
theories/BufSpec.v
theories/CaliFileModel.v
theories/CaliFileProofs.v
theories/CaliFileProofs2.v
theories/CaliFileProofs3.v
theories/CaliFileProofs4.v
theories/CaliFileProofs5.v
theories/CaliFileProps.v
theories/CaliFileProps2.v
theories/CfgMgrModel.v
theories/CfgModel.v
theories/CfgProofs.v
theories/CfgProps.v
theories/CfgProps2.v
theories/CfgProps3.v
theories/CfgProps4.v
theories/CfgProps5.v
theories/CfgSpec.v
theories/CfgTextProofs.v
theories/CfgTextProofs2.v
theories/CfgTextSpec.v
theories/ChnModel.v
theories/ChnProofs.v
theories/ChnProofs2.v
theories/ChnProofs3.v
theories/ChnProofs4.v
theories/ChnProofs5.v
theories/ChnProofs6.v
theories/ChnProps.v
theories/ChnProps2.v
theories/ChnSpec.v
theories/CodecModel.v
theories/CodecProofs.v
theories/CodecProps.v
theories/CsrModel.v
theories/CsrProofs.v
theories/CsrProps.v
theories/CwModel.v
theories/CwProofs.v
theories/CwProofs2.v
theories/CwProps.v
theories/CwSpec.v
theories/EndProofs.v
theories/EndProofs2.v
theories/EndProps.v
theories/EndProps2.v
theories/EndProps3.v
theories/EndProps4.v
theories/EndProps5.v
theories/EndProps6.v
theories/EndSpec.v
theories/EventModel.v
theories/EventProofs.v
theories/EventProps.v
theories/EventProps2.v
theories/EventSpec.v
theories/ExpandModel.v
theories/ExpandProps.v
theories/ExpandSpec.v
theories/FilterModel.v
theories/FilterProofs.v
theories/FilterProofs2.v
theories/FilterProofs3.v
theories/FilterProps.v
theories/FilterSpec.v
theories/FloatModel.v
theories/FmtModel.v
theories/FmtProofs.v
theories/FmtProps.v
theories/FmtProps2.v
theories/FmtStrModel.v
theories/FmtStrProofs.v
theories/FmtStrProps.v
theories/FmtStrSpec.v
theories/GlobModel.v
theories/GlobProps.v
theories/GlobProps2.v
theories/GlobProps3.v
theories/JsonModel.v
theories/JsonOutSpec.v
theories/JsonProofs.v
theories/JsonProofs2.v
theories/JsonProps.v
theories/JsonProps2.v
theories/JsonSpec.v
theories/JsonSplitModel.v
theories/JsonSplitProofs.v
theories/JsonSplitProps.v
theories/JsonSplitProps2.v
theories/JsonSplitSpec.v
theories/LockfreeModel.v
theories/LockfreeProps.v
theories/LoopMonModel.v
theories/LoopMonProps.v
theories/LoopMonSpec.v
theories/LoopStatModel.v
theories/LoopStatProps.v
theories/LoopStatSpec.v
theories/MempoolModel.v
theories/MempoolProps.v
theories/MpiModel.v
theories/MpiProofs.v
theories/MpiProofs2.v
theories/MpiProps.v
theories/MsgPatModel.v
theories/MsgPatProofs.v
theories/MsgPatProps.v
theories/MsgPatSpec.v
theories/MsgTraceModel.v
theories/MsgTraceProofs.v
theories/MsgTraceProofs2.v
theories/MsgTraceProps.v
theories/MsgTraceSpec.v
theories/NamesModel.v
theories/NamesProps.v
theories/ParseModel.v
theories/ParseProofs.v
theories/ParseProps.v
theories/ParseProps2.v
theories/ParseSpec.v
theories/ProcSnapModel.v
theories/ProcSnapProps.v
theories/ProfModel.v
theories/ProfProofs.v
theories/ProfProofs2.v
theories/ProfProofs3.v
theories/ProfProofs4.v
theories/ProfProofs5.v
theories/ProfProps.v
theories/ProfSpec.v
theories/QArgsModel.v
theories/QArgsProofs.v
theories/QArgsProps.v
theories/QArgsSpec.v
theories/QFileModel.v
theories/QFileProofs.v
theories/QFileProofs2.v
theories/QFileProofs3.v
theories/QFileProofs4.v
theories/QFileProofs5.v
theories/QFileProofs6.v
theories/QFileProps.v
theories/QFileProps2.v
theories/QFileSpec.v
theories/QueryModel.v
theories/QueryPrint.v
theories/QueryProofs.v
theories/QueryProofs2.v
theories/QueryProofs3.v
theories/QueryProps.v
theories/QueryProps2.v
theories/QueryProps3.v
theories/QuerySpec.v
theories/RConfigModel.v
theories/RConfigProofs.v
theories/RConfigProps.v
theories/RConfigProps2.v
theories/RConfigProps3.v
theories/RConfigSpec.v
theories/RFilterModel.v
theories/RFilterProofs.v
theories/RFilterProps.v
theories/RFilterSpec.v
theories/RegMonModel.v
theories/RegMonProps.v
theories/RegMonSpec.v
theories/RegProfModel.v
theories/RegProfProofs.v
theories/RegProfProps.v
theories/RegProfProps2.v
theories/RegProfSpec.v
theories/RtAggModel.v
theories/RtAggProofs.v
theories/RtAggProofs2.v
theories/RtAggProofs3.v
theories/RtAggProofs4.v
theories/RtAggProps.v
theories/RtAggProps2.v
theories/RtAggProps3.v
theories/RtAggSpec.v
theories/RuntimeModel.v
theories/RuntimeProofs.v
theories/RuntimeProofs2.v
theories/RuntimeProps.v
theories/RuntimeProps2.v
theories/RuntimeProps3.v
theories/RuntimeProps4.v
theories/RuntimeSpec.v
theories/ServModel.v
theories/ServProps.v
theories/ServProps2.v
theories/ServProps3.v
theories/ServSpec.v
theories/SnapRecModel.v
theories/SnapRecProps.v
theories/SplayModel.v
theories/SplayProofs.v
theories/SplayProofs2.v
theories/SplayProofs3.v
theories/SplayProps.v
theories/SplaySpec.v
theories/StatModel.v
theories/StatProofs.v
theories/StatProofs2.v
theories/StatProps.v
theories/StatSpec.v
theories/StatmModel.v
theories/StatmProps.v
theories/SymModel.v
theories/SymProps.v
theories/TextModel.v
theories/TextProofs.v
theories/TextProofs2.v
theories/TimerModel.v
theories/TimerProofs.v
theories/TimerProps.v
theories/TimerSpec.v
theories/TimeserModel.v
theories/TimeserProofs.v
theories/TimeserProps.v
theories/TimeserProps2.v
theories/TimeserSpec.v
theories/TraceModel.v
theories/TraceProofs.v
theories/TraceProps.v
theories/TreeFmtModel.v
theories/TreeFmtProofs.v
theories/TreeFmtProofs2.v
theories/TreeFmtProps.v
theories/TreeFmtProps2.v
theories/TreeModel.v
theories/TreeProofs.v
theories/TreeProofs2.v
theories/TreeProps.v
theories/TreeSpec.v
theories/ValidModel.v
theories/ValidProofs.v
theories/ValidProps.v
theories/ValidSpec.v
theories/VariantModel.v
theories/VariantOrderProofs.v
theories/VariantProofs.v
theories/VariantProps.v
theories/VariantSpec.v
theories/VlencModel.v
theories/VlencProofs.v
