-Q theories Verif
theories/Base.v
theories/PathModel.v
theories/PathSpec.v
theories/PathProofs.v
theories/PathProps.v
theories/IfModel.v
theories/IfSpec.v
theories/IfProofs.v
theories/IfProps.v
theories/EStringModel.v
theories/EStringProofs.v
theories/ShellSpec.v
theories/EStringProofs2.v
theories/EStringProps.v
theories/ExecModel.v
theories/ExecSpec.v
theories/ExecProofs.v
theories/ExecProofs2.v
theories/ExecProofs3.v
theories/ExecProofs4.v
theories/ExecExamples.v
theories/ExecProps.v
theories/GraphModel.v
theories/GraphSpec.v
theories/GraphProofs.v
theories/GraphProofs2.v
theories/GraphExamples.v
theories/GraphProps.v
theories/TentModel.v
theories/TentSpec.v
theories/TentProofs.v
theories/TentProofs2.v
theories/TentProofs3.v
theories/TentProps.v
theories/FileModel.v
theories/FileSpec.v
theories/FileProofs.v
theories/FileProofs2.v
theories/FileProps.v
theories/BuildModel.v
theories/BuildSpec.v
theories/BuildProofs.v
theories/BuildProofs2.v
theories/BuildProofs3.v
theories/BuildProofs4.v
theories/BuildExamples.v
theories/BuildProps.v
theories/ConfigModel.v
theories/ConfigSpec.v
theories/ConfigProofs.v
theories/ConfigProofs2.v
theories/ConfigProps.v
theories/ParseModel.v
theories/ParseSpec.v
theories/ParseProofs.v
theories/ParseProofs2.v
theories/ParseProofs3.v
theories/ParseProofs4.v
theories/ParseProps.v
theories/OutputModel.v
theories/OutputSpec.v
theories/OutputProofs.v
theories/OutputProps.v
theories/EntryModel.v
theories/EntrySpec.v
theories/EntryProofs.v
theories/EntryProps.v
theories/DbModel.v
theories/DbSpec.v
theories/DbProofs.v
theories/DbProofs2.v
theories/DbProofs3.v
theories/DbProps.v
theories/RuleModel.v
theories/RuleSpec.v
theories/RuleProofs.v
theories/RuleProofs2.v
theories/RuleProofs3.v
theories/RuleProofs4.v
theories/RuleProps.v
theories/LockModel.v
theories/LockSpec.v
theories/LockProofs.v
theories/LockProofs2.v
theories/LockProps.v
theories/MonModel.v
theories/MonSpec.v
theories/MonProofs.v
theories/MonProofs2.v
theories/MonProofs3.v
theories/MonProofs4.v
theories/MonProofs5.v
theories/MonProps.v
theories/DepModel.v
theories/DepSpec.v
theories/DepProofs.v
theories/DepProps.v
theories/OptModel.v
theories/OptSpec.v
theories/OptProofs.v
theories/OptProofs2.v
theories/OptProps.v
theories/GitModel.v
theories/GitSpec.v
theories/GitProofs.v
theories/GitProps.v
theories/EnvModel.v
theories/EnvSpec.v
theories/EnvProofs.v
theories/EnvProps.v
theories/FuseModel.v
theories/FuseSpec.v
theories/FuseProofs.v
theories/FuseProofs2.v
theories/FuseProofs3.v
theories/FuseProofs4.v
theories/FuseProps.v
theories/TextModel.v
theories/TextSpec.v
theories/TextProofs.v
theories/TextProofs2.v
theories/TextProofs3.v
theories/TextProps.v
theories/MacroModel.v
theories/MacroSpec.v
theories/MacroProofs.v
theories/MacroProofs2.v
theories/MacroProps.v
theories/IncludeModel.v
theories/IncludeSpec.v
theories/IncludeProofs.v
theories/IncludeProps.v
theories/LinkModel.v
theories/LinkSpec.v
theories/LinkProofs.v
theories/LinkProps.v
theories/RulesModel.v
theories/RulesSpec.v
theories/RulesProofs.v
theories/RulesProps.v
theories/ScanModel.v
theories/ScanSpec.v
theories/ScanProofs.v
theories/ScanProofs2.v
theories/ScanProofs3.v
theories/ScanProofs4.v
theories/ScanProofs5.v
theories/ScanProofs6.v
theories/ScanProofs7.v
theories/ScanProofs8.v
theories/ScanProofs9.v
theories/ScanExamples.v
theories/ScanProps.v
theories/CleanModel.v
theories/CleanSpec.v
theories/CleanProofs.v
theories/CleanProofs2.v
theories/CleanProofs3.v
theories/CleanProofs4.v
theories/CleanProps.v
theories/TriModel.v
theories/TriSpec.v
theories/TriProofs.v
theories/TriProofs2.v
theories/TriProofs3.v
theories/TriProofs4.v
theories/TriProps.v
theories/OrderModel.v
theories/OrderSpec.v
theories/OrderProofs.v
theories/OrderProofs2.v
theories/OrderProps.v
theories/TransModel.v
theories/TransSpec.v
theories/TransProofs.v
theories/TransProofs2.v
theories/TransProofs3.v
theories/TransExamples.v
theories/TransProps.v
theories/ForkModel.v
theories/ForkSpec.v
theories/ForkProofs.v
theories/ForkProofs2.v
theories/ForkProofs3.v
theories/ForkProofs4.v
theories/ForkProps.v
theories/ExpandModel.v
theories/ExpandSpec.v
theories/ExpandProofs.v
theories/ExpandProofs2.v
theories/ExpandProps.v
theories/GenModel.v
theories/GenSpec.v
theories/GenProofs.v
theories/GenProofs2.v
theories/GenProofs3.v
theories/GenExamples.v
theories/GenProps.v
theories/JsonModel.v
theories/JsonSpec.v
theories/JsonProofs.v
theories/JsonProofs2.v
theories/JsonProps.v
theories/VariantModel.v
theories/VariantSpec.v
theories/VariantProofs.v
theories/VariantProofs2.v
theories/VariantProofs3.v
theories/VariantProofs4.v
theories/VariantProofs5.v
theories/VariantExamples.v
theories/VariantProps.v
theories/NamesModel.v
theories/NamesSpec.v
theories/NamesProofs.v
theories/NamesProofs2.v
theories/NamesProofs3.v
theories/NamesExamples.v
theories/NamesProps.v
theories/ModeModel.v
theories/ModeSpec.v
theories/ModeProofs.v
theories/ModeProofs2.v
theories/ModeProofs3.v
theories/ModeProofs4.v
theories/ModeProofs5.v
theories/ModeProofs6.v
theories/ModeExamples.v
theories/ModeProps.v
theories/LuaModel.v
theories/LuaSpec.v
theories/LuaProofs.v
theories/LuaProofs2.v
theories/LuaProps.v
theories/TodoModel.v
theories/TodoSpec.v
theories/TodoProofs.v
theories/TodoProofs2.v
theories/TodoProofs3.v
theories/TodoProps.v
theories/ConvModel.v
theories/ConvSpec.v
theories/ConvProofs.v
theories/ConvProofs2.v
theories/ConvProofs3.v
theories/ConvProps.v
theories/CircModel.v
theories/CircSpec.v
theories/CircProofs.v
theories/CircProofs2.v
theories/CircProofs3.v
theories/CircProps.v
theories/PoolModel.v
theories/PoolSpec.v
theories/PoolProofs.v
theories/PoolProofs2.v
theories/PoolProps.v
theories/WatchModel.v
theories/WatchSpec.v
theories/WatchProofs.v
theories/WatchProps.v
theories/ScriptModel.v
theories/ScriptSpec.v
theories/ScriptProofs.v
theories/ScriptProofs2.v
theories/ScriptProps.v
theories/ProgressModel.v
theories/ProgressSpec.v
theories/ProgressProofs.v
theories/ProgressProps.v
