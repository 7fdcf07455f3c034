-Q theories Verif
theories/Base.v
theories/DepdbModel.v
theories/DepdbSpec.v
theories/DepdbProofs.v
theories/DepdbProofs2.v
theories/DepdbProps.v
theories/MakeModel.v
theories/MakeSpec.v
theories/MakeProofs.v
theories/MakeProps.v
theories/ExecModel.v
theories/ExecSpec.v
theories/ExecProofs.v
theories/ExecProps.v
theories/CacheModel.v
theories/CacheSpec.v
theories/CacheProofs.v
theories/CacheProps.v
theories/QueueModel.v
theories/QueueSpec.v
theories/QueueProofs.v
theories/QueueProps.v
theories/SchedModel.v
theories/SchedSpec.v
theories/SchedProofs.v
theories/SchedProofs2.v
theories/SchedProofs3.v
theories/SchedProps.v
theories/WaitModel.v
theories/WaitSpec.v
theories/WaitProofs.v
theories/WaitProps.v
theories/Count.v
theories/PhaseModel.v
theories/PhaseSpec.v
theories/PhaseProofs.v
theories/PhaseProps.v
theories/TgtModel.v
theories/TgtSpec.v
theories/TgtProofs.v
theories/TgtProps.v
theories/LexModel.v
theories/NameModel.v
theories/NamesModel.v
theories/LexProofs.v
theories/NamesProofs.v
theories/NameSpec.v
theories/NamesProofs2.v
theories/NameProofs.v
theories/LexProofs2.v
theories/NameProps.v
theories/SplitModel.v
theories/SplitSpec.v
theories/SplitProofs.v
theories/SplitProofs2.v
theories/SplitProofs3.v
theories/SplitProps.v
theories/JsonModel.v
theories/JsonSpec.v
theories/JsonProofs.v
theories/JsonProofs2.v
theories/JsonProps.v
theories/EvalModel.v
theories/EvalSpec.v
theories/EvalProofs.v
theories/EvalProofs2.v
theories/EvalProofs3.v
theories/EvalProps.v
theories/VarModel.v
theories/VarSpec.v
theories/VarProofs.v
theories/VarProps.v
theories/OvrModel.v
theories/OvrSpec.v
theories/OvrProofs.v
theories/OvrProofs2.v
theories/OvrProofs3.v
theories/OvrProps.v
theories/VpatModel.v
theories/VpatSpec.v
theories/VpatProofs.v
theories/VpatProps.v
theories/IntModel.v
theories/IntSpec.v
theories/IntProofs.v
theories/IntProofs2.v
theories/IntProps.v
theories/ConfModel.v
theories/ConfSpec.v
theories/ConfProofs.v
theories/ConfProofs2.v
theories/ConfProps.v
theories/ShardModel.v
theories/ShardProps.v
theories/FlowModel.v
theories/FlowSpec.v
theories/FlowProofs.v
theories/FlowProofs2.v
theories/FlowProofs3.v
theories/CmdModel.v
theories/CmdSpec.v
theories/CmdProofs.v
theories/FlowProps.v
theories/CcModel.v
theories/CcSpec.v
theories/CcProofs.v
theories/CcProofs2.v
theories/CcProofs3.v
theories/CcProofs4.v
theories/CcProofs5.v
theories/CcProofs6.v
theories/CcProofs7.v
theories/CcProofs8.v
theories/CcProofs9.v
theories/CcProofs10.v
theories/CcProofs11.v
theories/CcProps.v
theories/UnitModel.v
theories/UnitSpec.v
theories/UnitProofs.v
theories/UnitProps.v
theories/InModel.v
theories/InSpec.v
theories/InProofs.v
theories/InProofs2.v
theories/InProps.v
theories/GraphModel.v
theories/GraphSpec.v
theories/GraphProofs.v
theories/GraphProps.v
theories/FuncModel.v
theories/FuncSpec.v
theories/FuncProofs.v
theories/FuncProps.v
theories/RuleModel.v
theories/RuleSpec.v
theories/RuleProofs.v
theories/RuleProofs2.v
theories/RuleProps.v
theories/CycModel.v
theories/CycSpec.v
theories/CycProofs.v
theories/CycProofs2.v
theories/CycProofs3.v
theories/CycProps.v
theories/ScopeModel.v
theories/ScopeSpec.v
theories/ScopeProofs.v
theories/ScopeProofs2.v
theories/ScopeProps.v
theories/TsetModel.v
theories/TsetSpec.v
theories/TsetProofs.v
theories/TsetProps.v
theories/LibModel.v
theories/LibSpec.v
theories/LibProofs.v
theories/LibProps.v
theories/HdrModel.v
theories/HdrSpec.v
theories/HdrProofs.v
theories/HdrProps.v
theories/InstModel.v
theories/InstSpec.v
theories/InstProofs.v
theories/InstProps.v
theories/CtlModel.v
theories/CtlSpec.v
theories/CtlProofs.v
theories/CtlProofs2.v
theories/CtlProofs3.v
theories/CtlProofs4.v
theories/CtlProps.v
theories/GlobModel.v
theories/GlobSpec.v
theories/GlobProofs.v
theories/GlobProofs2.v
theories/GlobProofs3.v
theories/GlobProofs4.v
theories/GlobProps.v
theories/RunModel.v
theories/RunSpec.v
theories/RunProofs.v
theories/RunProofs2.v
theories/RunProofs3.v
theories/RunProps.v
theories/BspecModel.v
theories/BspecSpec.v
theories/BspecProofs.v
theories/BspecProofs2.v
theories/BspecProofs3.v
theories/BspecProps.v
theories/FiltModel.v
theories/FiltSpec.v
theories/FiltProofs.v
theories/FiltProps.v
theories/TscrModel.v
theories/TscrSpec.v
theories/TscrProofs.v
theories/TscrProofs2.v
theories/TscrProps.v
theories/CleanModel.v
theories/CleanSpec.v
theories/CleanProofs.v
theories/CleanProofs2.v
theories/CleanProps.v
theories/TypedModel.v
theories/TypedSpec.v
theories/TypedProofs.v
theories/TypedProofs2.v
theories/TypedProofs3.v
theories/TypedProps.v
theories/KeepModel.v
theories/KeepSpec.v
theories/KeepProofs.v
theories/KeepProofs2.v
theories/KeepProofs3.v
theories/KeepProofs4.v
theories/KeepProps.v
theories/TrackModel.v
theories/TrackSpec.v
theories/TrackProofs.v
theories/TrackProofs2.v
theories/TrackProps.v
theories/SearchModel.v
theories/SearchSpec.v
theories/SearchProofs.v
theories/SearchProofs2.v
theories/SearchProofs3.v
theories/SearchProps.v
theories/TruleModel.v
theories/TruleSpec.v
theories/TruleProofs.v
theories/TruleProofs2.v
theories/TruleProofs3.v
theories/TruleProofs4.v
theories/TruleProps.v
theories/ProjModel.v
theories/ProjSpec.v
theories/ProjProofs.v
theories/ProjProofs2.v
theories/ProjProps.v
theories/CdbModel.v
theories/CdbSpec.v
theories/CdbProofs.v
theories/CdbProofs2.v
theories/CdbProofs3.v
theories/CdbProofs4.v
theories/CdbProps.v
theories/ImpModel.v
theories/ImpSpec.v
theories/ImpProofs.v
theories/ImpProofs2.v
theories/ImpProps.v
theories/UndoModel.v
theories/UndoSpec.v
theories/UndoProofs.v
theories/UndoProofs2.v
theories/UndoProps.v
theories/DistModel.v
theories/DistSpec.v
theories/DistProofs.v
theories/DistProofs2.v
theories/DistProps.v
theories/PfxModel.v
theories/PfxSpec.v
theories/PfxProofs.v
theories/PfxProofs2.v
theories/PfxProps.v
theories/BackModel.v
theories/BackSpec.v
theories/BackProofs.v
theories/BackProofs2.v
theories/BackProps.v
theories/RxModel.v
theories/RxSpec.v
theories/RxProofs.v
theories/RxProofs2.v
theories/RxProps.v
theories/OutModel.v
theories/OutSpec.v
theories/OutProofs.v
theories/OutProofs2.v
theories/OutProofs3.v
theories/OutProps.v
theories/ModModel.v
theories/ModSpec.v
theories/ModProofs.v
theories/ModProofs2.v
theories/ModProofs3.v
theories/ModProofs4.v
theories/ModProofs5.v
theories/ModProps.v
theories/HereModel.v
theories/HereSpec.v
theories/HereProofs.v
theories/HereProofs2.v
theories/HereProofs3.v
theories/HereProps.v
theories/PathModel.v
theories/PathSpec.v
theories/PathProofs.v
theories/PathProofs2.v
theories/PathProps.v
