-Q theories Verif
theories/AstIdModel.v
theories/AstIdProps.v
theories/AstIdSpec.v
theories/CallProps.v
theories/CondProofs.v
theories/CondProps.v
theories/CondSpec.v
theories/CondTextProofs.v
theories/CondTextSpec.v
theories/ConfigModel.v
theories/ConfigProps.v
theories/ConfigSpec.v
theories/CursorDots.v
theories/CursorMethods.v
theories/CursorModel.v
theories/CursorNames.v
theories/CursorNamesProps.v
theories/CursorNamesSpec.v
theories/CursorOwn.v
theories/CursorProps.v
theories/CursorSpec.v
theories/DiagModel.v
theories/DiagProofs.v
theories/DiagProps.v
theories/DiagSpec.v
theories/DocMarkdown.v
theories/DocMarkdownProps.v
theories/DocMarkdownSpec.v
theories/DocModel.v
theories/DocProps.v
theories/DocSpec.v
theories/DynMapModel.v
theories/DynMapProps.v
theories/EnumStructModel.v
theories/EnumStructProps.v
theories/EnumStructSpec.v
theories/EvalModel.v
theories/EvalProofs.v
theories/EvalProps.v
theories/EvalSafeProofs.v
theories/EvalSafeSpec.v
theories/EvalSpec.v
theories/FindDefModel.v
theories/FindDefProofs.v
theories/FindDefProps.v
theories/FindDefSpec.v
theories/FlycheckModel.v
theories/FlycheckProofs.v
theories/FlycheckProps.v
theories/FlycheckSpec.v
theories/FunctionNodes.v
theories/GotoMarkup.v
theories/GotoModel.v
theories/GotoProofs.v
theories/GotoProps.v
theories/GotoSpec.v
theories/GraphModel.v
theories/GraphProps.v
theories/GraphSpec.v
theories/GraphvizModel.v
theories/GraphvizProps.v
theories/GraphvizSpec.v
theories/HandshakeModel.v
theories/HandshakeProofs.v
theories/HandshakeProps.v
theories/HandshakeSpec.v
theories/HashMapModel.v
theories/HashMapProps.v
theories/HighlightFlat.v
theories/HighlightModel.v
theories/HighlightProofs.v
theories/HighlightProps.v
theories/HighlightSpec.v
theories/HirModel.v
theories/HirNames.v
theories/HirScopes.v
theories/HirSpec.v
theories/InactiveProps.v
theories/InactiveSpec.v
theories/IncludeModel.v
theories/IncludeProps.v
theories/IncludeSpec.v
theories/IntrinsicsProps.v
theories/IntrinsicsSpec.v
theories/ItemTreeModel.v
theories/ItemTreeProofs.v
theories/ItemTreeProps.v
theories/ItemTreeSpec.v
theories/LifeModel.v
theories/LifeProofs.v
theories/LifeProps.v
theories/LifeSpec.v
theories/LineEndModel.v
theories/LineEndProofs.v
theories/LineEndProps.v
theories/LineEndSpec.v
theories/LinesExpand.v
theories/LinesProofs.v
theories/LinesProps.v
theories/LinesSpec.v
theories/LoaderModel.v
theories/LoaderProofs.v
theories/LoaderProps.v
theories/LoaderSpec.v
theories/LoopDrain.v
theories/LoopModel.v
theories/LoopProofs.v
theories/LoopProps.v
theories/LoopSpec.v
theories/LowerHir.v
theories/LowerModel.v
theories/LowerProofs.v
theories/LowerProps.v
theories/LowerSpec.v
theories/MacroCall.v
theories/MacroHang.v
theories/MacroIdxProps.v
theories/MacroIdxSpec.v
theories/MacroModel.v
theories/MacroProofs.v
theories/MacroProps.v
theories/MacroRun.v
theories/MacroSpec.v
theories/MacroUseProps.v
theories/MainPathModel.v
theories/MainPathProps.v
theories/MainPathSpec.v
theories/MapSourceModel.v
theories/MapSourceProps.v
theories/MapSourceSpec.v
theories/MemberProofs.v
theories/MemberProps.v
theories/MemberSpec.v
theories/MethodModel.v
theories/MethodProps.v
theories/MethodTable.v
theories/MethodTableProps.v
theories/MethodTableSpec.v
theories/MethodmapModel.v
theories/MethodmapProps.v
theories/MethodmapSpec.v
theories/NameProps.v
theories/NamedProofs.v
theories/NamedProps.v
theories/NamedSpec.v
theories/OffsetModel.v
theories/OffsetProofs.v
theories/OffsetProps.v
theories/OffsetSpec.v
theories/OpQueueModel.v
theories/OpQueueProofs.v
theories/OpQueueProps.v
theories/OpQueueSpec.v
theories/OpenDocsModel.v
theories/OpenDocsProofs.v
theories/OpenDocsProps.v
theories/OpenDocsSpec.v
theories/PanicContextModel.v
theories/PanicContextProps.v
theories/PathsModel.v
theories/PathsProps.v
theories/PathsSpec.v
theories/PoolModel.v
theories/PoolProps.v
theories/PoolSpec.v
theories/PosModel.v
theories/PosProofs.v
theories/PosRun.v
theories/PosSpec.v
theories/PreDbAgree.v
theories/PreDbModel.v
theories/PreDbProofs.v
theories/PreDbProps.v
theories/PreDbSpec.v
theories/PreErrProps.v
theories/PreErrSpec.v
theories/PreEvents.v
theories/PreLex.v
theories/PreModel.v
theories/PreSim.v
theories/PreSnapshots.v
theories/PreTypes.v
theories/PrettyModel.v
theories/PrettyProofs.v
theories/PrettyProps.v
theories/PrettySpec.v
theories/PrimeModel.v
theories/PrimeProofs.v
theories/PrimeProps.v
theories/ProfileFilterProps.v
theories/ProfileModel.v
theories/ProfileProofs.v
theories/ProfileProps.v
theories/ProfileSpec.v
theories/ProgressModel.v
theories/ProgressProofs.v
theories/ProgressProps.v
theories/ProgressSpec.v
theories/RangesModel.v
theories/RangesProps.v
theories/RangesSpec.v
theories/ReportModel.v
theories/ReportProps.v
theories/ReportSpec.v
theories/RequestsModel.v
theories/RequestsProofs.v
theories/RequestsProps.v
theories/RequestsSpec.v
theories/SaidOnce.v
theories/SaidPaths.v
theories/SaidProofs.v
theories/SaidProps.v
theories/SaidSpec.v
theories/SaveModel.v
theories/SaveProofs.v
theories/SaveProps.v
theories/SaveSpec.v
theories/SemCacheModel.v
theories/SemCacheProofs.v
theories/SemCacheProps.v
theories/SemCacheSpec.v
theories/SemTokensModel.v
theories/SemTokensProofs.v
theories/SemTokensProps.v
theories/SemTokensSpec.v
theories/SessionModel.v
theories/SessionProofs.v
theories/SessionProps.v
theories/SessionSpec.v
theories/SpCompModel.v
theories/SpCompProofs.v
theories/SpCompProps.v
theories/SpCompSpec.v
theories/StatusModel.v
theories/StatusProofs.v
theories/StatusProps.v
theories/StatusSpec.v
theories/StreamModel.v
theories/StreamProofs.v
theories/StreamProps.v
theories/StreamSpec.v
theories/SyncModel.v
theories/SyncProofs.v
theories/SyncProps.v
theories/SyncSpec.v
theories/SyncWorld.v
theories/TextModel.v
theories/TextProofs.v
theories/TextProps.v
theories/TextSpec.v
theories/TypeRefModel.v
theories/TypeRefProps.v
theories/TypeRefSpec.v
theories/UrlModel.v
theories/UrlProofs.v
theories/UrlProps.v
theories/UrlSpec.v
theories/UsageModel.v
theories/UsageProps.v
theories/UsageSpec.v
theories/Utf8.v
theories/VfsModel.v
theories/VfsPathModel.v
theories/VfsPathProofs.v
theories/VfsPathProps.v
theories/VfsPathSpec.v
theories/VfsProofs.v
theories/VfsProps.v
theories/VfsSpec.v
theories/VisibleProps.v
theories/VisibleSpec.v
theories/WordsModel.v
theories/WordsProps.v
theories/WordsSpec.v
theories/WrittenArena.v
theories/WrittenLower.v
theories/WrittenProofs.v
theories/WrittenProps.v
theories/WrittenSpec.v
