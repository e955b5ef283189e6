-Q theories Verif

theories/Num.v
theories/NumFacts.v
theories/RSums.v
theories/Common.v
theories/SqpModel.v
theories/SqpSpec.v
theories/SqpProofs.v
theories/SqpRProofs.v
theories/SqpExamples.v
theories/SqpExampleProofs.v
theories/SqpProps.v
theories/ScoOptModel.v
theories/ScoOptSpec.v
theories/ScoOptProofs.v
theories/ScoOptExamples.v
theories/ScoOptProps.v
theories/ScoExprModel.v
theories/ScoExprProofs.v
theories/ScoExprProps.v
theories/EigenModel.v
theories/EigenProofs.v
theories/EigenProps.v
theories/ModelingModel.v
theories/ModelingSpec.v
theories/ModelingProofs.v
theories/ModelingProps.v
theories/SqpHistorySpec.v
theories/SqpHistoryProofs.v
theories/SqpHistoryProps.v
theories/ScoHistory.v
theories/ScoHistoryProps.v
theories/CacheModel.v
theories/CacheSpec.v
theories/CacheProofs.v
theories/CacheProps.v
theories/CollisionModel.v
theories/CollisionSpec.v
theories/CollisionProofs.v
theories/CollisionAvgProofs.v
theories/CollisionProps.v
theories/CollisionRowProps.v
theories/TermsModel.v
theories/TermsProofs.v
theories/TermsProps.v
theories/IfoptModel.v
theories/IfoptProofs.v
theories/IfoptProps.v
theories/NodesModel.v
theories/NodesProps.v
theories/ExprsModel.v
theories/ExprsProps.v
theories/QpModel.v
theories/QpSpec.v
theories/QpProofs.v
theories/QpSlackProofs.v
theories/QpEvalProofs.v
theories/QpProps.v
theories/QpCaseProps.v
theories/IfoptQpModel.v
theories/IfoptQpProofs.v
theories/IfoptQpProps.v
theories/IfoptQpCaseProps.v
theories/JointCntModel.v
theories/JointCntProps.v
theories/BackendModel.v
theories/BackendSpec.v
theories/BackendProofs.v
theories/BackendProps.v
theories/OsqpReuseProps.v
theories/BpmpdProps.v
theories/PipeModel.v
theories/PipeProps.v
theories/ParallelModel.v
theories/ParallelProps.v
theories/ArrayModel.v
theories/ArrayProps.v
theories/InterpProps.v
theories/TrajCostModel.v
theories/TrajCostProps.v
theories/TrajoptModel.v
theories/SubsetProps.v
theories/LayoutProps.v
theories/HatchProps.v
theories/ConstructProps.v
theories/KinModel.v
theories/KinProofs.v
theories/KinTimeProps.v
theories/KinCartProps.v
theories/KinSingProps.v
theories/KinSvdProps.v
theories/IfCartModel.v
theories/IfCartProps.v
theories/IfLineProps.v
theories/IfIkProps.v
theories/CollNumModel.v
theories/CollNumProps.v
theories/OsqpModel.v
theories/OsqpProps.v
theories/EvalModel.v
theories/EvalProps.v
theories/EvalGradProps.v
theories/JsonModel.v
theories/JsonSpec.v
theories/JsonProofs.v
theories/JsonProps.v
theories/JsonShippedProps.v
theories/SerialModel.v
theories/SerialSpec.v
theories/SerialProofs.v
theories/SerialProps.v
theories/TwistModel.v
theories/TwistSpec.v
theories/TwistProofs.v
theories/TwistProps.v
theories/LogModel.v
theories/LogSpec.v
theories/LogProofs.v
theories/LogProps.v
theories/ObserverModel.v
theories/ObserverProps.v
theories/GurobiModel.v
theories/GurobiSpec.v
theories/GurobiProofs.v
theories/GurobiProps.v
theories/GurobiRoundProofs.v
theories/GurobiRoundProps.v
theories/SolveModel.v
theories/SolveSpec.v
theories/SolveProofs.v
theories/SolveProps.v
theories/RoundSolveSpec.v
theories/RoundSolveProofs.v
theories/RoundSolveProps.v
theories/MeritModel.v
theories/MeritSpec.v
theories/MeritProofs.v
theories/MeritProps.v
theories/RunModel.v
theories/RunSpec.v
theories/RunProofs.v
theories/RunProps.v
theories/SqpRunModel.v
theories/SqpRunSpec.v
theories/SqpRunQpProofs.v
theories/SqpRunProofs.v
theories/SqpRunProps.v
theories/JointRunModel.v
theories/JointRunSpec.v
theories/JointRunProofs.v
theories/JointRunProps.v
theories/PlanModel.v
theories/PlanSpec.v
theories/PlanProofs.v
theories/PlanProps.v
theories/DocModel.v
theories/DocSpec.v
theories/DocProofs.v
theories/DocProps.v
theories/PlotModel.v
theories/PlotProps.v
theories/TimedModel.v
theories/TimedSpec.v
theories/TimedProofs.v
theories/TimedProps.v
theories/TimedDocModel.v
theories/TimedDocSpec.v
theories/TimedDocProofs.v
theories/TimedDocProps.v
theories/MeshModel.v
theories/MeshSpec.v
theories/MeshProofs.v
theories/MeshProps.v
theories/SArrayModel.v
theories/SArraySpec.v
theories/SArrayProofs.v
theories/SArrayProps.v
theories/RingModel.v
theories/RingSpec.v
theories/RingProofs.v
theories/RingProps.v
theories/HessModel.v
theories/HessSpec.v
theories/HessProofs.v
theories/HessProps.v
theories/SortModel.v
theories/SortSpec.v
theories/SortProofs.v
theories/SortProps.v
theories/WideModel.v
theories/WideSpec.v
theories/WideProofs.v
theories/WideProps.v
theories/PoolModel.v
theories/PoolSpec.v
theories/PoolProofs.v
theories/PoolProps.v
theories/GridModel.v
theories/GridSpec.v
theories/GridProofs.v
theories/GridProps.v
theories/FreeModel.v
theories/FreeSpec.v
theories/FreeProofs.v
theories/FreeProps.v
theories/HEdgeModel.v
theories/HEdgeSpec.v
theories/HEdgeProofs.v
theories/HEdgeProps.v
theories/NearModel.v
theories/NearSpec.v
theories/NearProofs.v
theories/NearProps.v
theories/HPartModel.v
theories/HPartSpec.v
theories/HPartProofs.v
theories/HPartProps.v
theories/HCopyModel.v
theories/HCopySpec.v
theories/HCopyProofs.v
theories/HCopyProps.v
theories/HFaceModel.v
theories/HFaceSpec.v
theories/HFaceProofs.v
theories/HFaceProps.v
theories/SplitModel.v
theories/SplitSpec.v
theories/SplitProofs.v
theories/SplitProps.v
theories/AngleModel.v
theories/AngleSpec.v
theories/AngleProofs.v
theories/AngleProps.v
