-Q theories Verif
theories/Base.v
theories/PyNum.v
theories/PyNumProofs.v
theories/FloatBridge.v
theories/ArithModel.v
theories/ArithSpec.v
theories/ArithProofs.v
theories/ArithProofs2.v
theories/ArithProps.v
theories/Effects.v
theories/ArrayModel.v
theories/ArraySpec.v
theories/ArrayProofs.v
theories/SortProofs.v
theories/ArrayProofs2.v
theories/ArrayProofs3.v
theories/ArrayProps.v
theories/CallGraphModel.v
theories/CallGraphSpec.v
theories/CallGraphProofs.v
theories/CallGraphProps.v
theories/ScopeModel.v
theories/ScopeSpec.v
theories/ScopeProofs.v
theories/ScopeProps.v
theories/CoreModel.v
theories/PathSpec.v
theories/PathProofs.v
theories/PathProps.v
theories/CoreInv.v
theories/EngineModel.v
theories/EngineSpec.v
theories/EngineProofs.v
theories/CoreDemo.v
theories/EngineProps.v
theories/CoreFuel.v
theories/CoreScopes.v
theories/ControlSpec.v
theories/ControlProofs.v
theories/ControlProps.v
theories/ConcModel.v
theories/ConcSpec.v
theories/ConcProofs.v
theories/ConcProps.v
theories/TypeModel.v
theories/TypeSpec.v
theories/TypeProofs.v
theories/TypeProofs2.v
theories/TypeProps.v
theories/VersionModel.v
theories/VersionProps.v
theories/NumOrder.v
theories/JsonModel.v
theories/JsonSpec.v
theories/JsonFuel.v
theories/JsonProofs.v
theories/JsonProofs2.v
theories/JsonProofs3.v
theories/JsonProps.v
theories/CorePathProps.v
theories/CastProps.v
theories/CoreScopeProps.v
theories/CoreInd.v
theories/CoreFlow.v
theories/StaticModel.v
theories/StaticScope.v
theories/StaticProps.v
theories/TraverseModel.v
theories/TraverseSpec.v
theories/TraverseProofs.v
theories/TraverseProps.v
theories/DeadlockProofs.v
theories/DeadlockProps.v
theories/MapModel.v
theories/MapSpec.v
theories/MapProofs.v
theories/MapProps.v
theories/StatModel.v
theories/StatSpec.v
theories/StatProofs.v
theories/StatProofs2.v
theories/HistSpec.v
theories/HistProofs.v
theories/StatProps.v
theories/PackModel.v
theories/PackSpec.v
theories/PackProofs.v
theories/FormatProofs.v
theories/PackProps.v
theories/TreeModel.v
theories/TreeSpec.v
theories/TreeProofs.v
theories/TreeProps.v
theories/TimeModel.v
theories/TimeSpec.v
theories/TimeProofs.v
theories/TimeProps.v
theories/SigModel.v
theories/SigSpec.v
theories/SigProofs.v
theories/SigProofs2.v
theories/SigProofs3.v
theories/SigProps.v
theories/ClusterModel.v
theories/ClusterSpec.v
theories/ClusterProofs.v
theories/ClusterProofs2.v
theories/ClusterProps.v
theories/InterpModel.v
theories/InterpSpec.v
theories/InterpProofs.v
theories/InterpProps.v
theories/MetricModel.v
theories/MetricSpec.v
theories/MetricProofs.v
theories/MetricProps.v
theories/LaModel.v
theories/LaSpec.v
theories/LaProofs.v
theories/LaProofs2.v
theories/LaProps.v
theories/StrModel.v
theories/StrSpec.v
theories/StrProofs.v
theories/StrProps.v
theories/FloatBridge2.v
theories/RandModel.v
theories/RandSpec.v
theories/RandProofs.v
theories/RandProofs2.v
theories/RandProps.v
theories/SnapModel.v
theories/SnapSpec.v
theories/SnapProofs.v
theories/SnapProofs2.v
theories/SnapProps.v
theories/DeclModel.v
theories/DeclSpec.v
theories/DeclProofs.v
theories/DeclProofs2.v
theories/DeclProps.v
theories/ReadModel.v
theories/ReadSpec.v
theories/ReadProofs.v
theories/ReadProofs2.v
theories/ReadProofs3.v
theories/ReadProofs4.v
theories/ReadProofs5.v
theories/ReadProps.v
theories/RefTable.v
theories/RefModel.v
theories/RefSpec.v
theories/RefProofs.v
theories/RefFill.v
theories/RefUser.v
theories/RefProps.v
theories/HeapModel.v
theories/HeapSpec.v
theories/HeapProofs.v
theories/HeapCalls.v
theories/HeapProps.v
theories/BytesModel.v
theories/BytesSpec.v
theories/BytesProofs.v
theories/BytesProps.v
theories/ParseModel.v
theories/ParseSpec.v
theories/ParseProofs.v
theories/ParseProps.v
theories/RankModel.v
theories/RankSpec.v
theories/RankProofs.v
theories/RankProps.v
theories/ReadSpec2.v
theories/ReadProofs6.v
theories/ReadProofs7.v
theories/ReadProofs8.v
theories/ReadProps2.v
theories/ChainModel.v
theories/ChainSpec.v
theories/ChainNames.v
theories/ChainSim.v
theories/ChainProofs.v
theories/ChainProofs2.v
theories/ChainProofs3.v
theories/ChainProps.v
theories/LinregModel.v
theories/LinregSpec.v
theories/LinregProofs.v
theories/LinregProps.v
theories/NetProofs.v
theories/NetProofs2.v
theories/NetProps.v
theories/LinkModel.v
theories/LinkSpec.v
theories/LinkProofs.v
theories/LinkProps.v
theories/BayesProofs.v
theories/BayesProps.v
theories/KsModel.v
theories/KsSpec.v
theories/KsProofs.v
theories/KsProps.v
theories/PullModel.v
theories/PullSpec.v
theories/PullProofs.v
theories/PullProps.v
theories/GpModel.v
theories/GpProps.v
theories/MathModel.v
theories/RoundProofs.v
theories/MathProofs.v
theories/MathProps.v
theories/HalfProofs.v
theories/HalfProps.v
theories/Hist2Model.v
theories/Hist2Props.v
theories/HoltModel.v
theories/HoltProps.v
theories/ImputeModel.v
theories/ImputeProps.v
theories/DistModel.v
theories/DistSpec.v
theories/DistProofs.v
theories/DistProps.v
theories/ContModel.v
theories/ContSpec.v
theories/ErfProofs.v
theories/ContProps.v
theories/CastBlockModel.v
theories/CastBlockProps.v
theories/ToolsModel.v
theories/ToolsSpec.v
theories/ToolsProofs.v
theories/ToolsProofs2.v
theories/ToolsProofs3.v
theories/ToolsProps.v
theories/ToolsProofs4.v
theories/TypingModel.v
theories/TypingSpec.v
theories/TypingProofs.v
theories/TypingProofs2.v
theories/TypingProofs3.v
theories/TypingProofs4.v
theories/TypingProps.v
theories/CartModel.v
theories/CartSpec.v
theories/CartProofs.v
theories/CartProofs2.v
theories/CartProofs3.v
theories/CartProofs4.v
theories/CartProofs5.v
theories/CartProofs6.v
theories/CartProofs7.v
theories/CartProofs8.v
theories/CartProps.v
theories/KmeansModel.v
theories/KmeansSpec.v
theories/KmeansProofs.v
theories/KmeansProofs2.v
theories/KmeansProofs3.v
theories/KmeansProofs4.v
theories/KmeansProps.v
theories/TransModel.v
theories/TransSpec.v
theories/TransProofs.v
theories/TransProofs2.v
theories/TransProofs3.v
theories/TransProps.v
theories/RegexModel.v
theories/RegexSpec.v
theories/RegexProofs.v
theories/RegexProofs2.v
theories/RegexProps.v
theories/PexModel.v
theories/PexSpec.v
theories/PexProofs.v
theories/PexProofs2.v
theories/PexProofs3.v
theories/PexProofs4.v
theories/PexProofs5.v
theories/PexProps.v
theories/PrettyModel.v
theories/PrettySpec.v
theories/PrettyProofs.v
theories/PrettyProofs2.v
theories/PrettyProofs3.v
theories/PrettyProps.v
theories/ElemModel.v
theories/ElemSpec.v
theories/ElemProofs.v
theories/ElemProps.v
theories/PprModel.v
theories/PprSpec.v
theories/PprProofs.v
theories/PprProofs2.v
theories/PprProps.v
theories/InspModel.v
theories/InspSpec.v
theories/InspProofs.v
theories/InspProofs2.v
theories/InspProofs3.v
theories/InspProps.v
theories/ChgModel.v
theories/ChgSpec.v
theories/ChgProofs.v
theories/ChgProofs2.v
theories/ChgProofs3.v
theories/ChgProps.v
theories/XtnModel.v
theories/XtnSpec.v
theories/XtnProofs.v
theories/XtnProps.v
theories/SesModel.v
theories/SesSpec.v
theories/SesProofs.v
theories/SesProps.v
theories/DirModel.v
theories/DirSpec.v
theories/DirProofs.v
theories/DirProps.v
