-Q theories Verif
theories/PyBase.v
theories/PyBaseFacts.v
theories/GraphModel.v
theories/GraphSpec.v
theories/GraphProofs.v
theories/Props_Graph.v
theories/CliqueModel.v
theories/CliqueSpec.v
theories/CliqueProofs.v
theories/Props_Clique.v
theories/ChainModel.v
theories/ChainSpec.v
theories/ChainProofs.v
theories/Props_Chain.v
theories/ChainOnceSpec.v
theories/ChainOnceProofs.v
theories/Props_ChainOnce.v
theories/HtmModel.v
theories/HtmSpec.v
theories/HtmProofs.v
theories/Props_Htm.v
theories/DagModel.v
theories/DagSpec.v
theories/DagProofs.v
theories/Props_Dag.v
theories/QBase.v
theories/CodecModel.v
theories/CodecSpec.v
theories/CodecProofs.v
theories/Props_Codec.v
theories/SuppModel.v
theories/SuppSpec.v
theories/SuppProofs.v
theories/SuppProofs2.v
theories/SuppProofs3.v
theories/SuppProofs4.v
theories/Props_Supp.v
theories/EvalModel.v
theories/EvalSpec.v
theories/EvalProofs.v
theories/Props_Eval.v
theories/PomdpModel.v
theories/PomdpSpec.v
theories/PomdpProofs.v
theories/PomdpProofs2.v
theories/Props_Pomdp.v
theories/BeliefModel.v
theories/BeliefSpec.v
theories/BeliefProofs.v
theories/Props_Belief.v
theories/ParseModel.v
theories/ParseSpec.v
theories/Props_Parse.v
theories/PolicyModel.v
theories/PolicySpec.v
theories/PolicyProofs.v
theories/PolicyProofs2.v
theories/PolicyProofs3.v
theories/Props_Policy.v
theories/PomcpModel.v
theories/PomcpSpec.v
theories/PomcpProofs.v
theories/PomcpProofs2.v
theories/PomcpProofs3.v
theories/Props_Pomcp.v
theories/AsyncModel.v
theories/AsyncSpec.v
theories/Props_Async.v
theories/NodeModel.v
theories/NodeSpec.v
theories/NodeProofs.v
theories/NodeProofs2.v
theories/NodeProofs3.v
theories/NodeProofs4.v
theories/ConvModel.v
theories/NameSpec.v
theories/NameProofs.v
theories/ConvSpec.v
theories/ConvProofs.v
theories/ConvProofs2.v
theories/ConvProofs3.v
theories/ConvProofs4.v
theories/Props_Conv.v
theories/BringModel.v
theories/BringSpec.v
theories/BringProofs.v
theories/BringProofs2.v
theories/Props_Bring.v
theories/PoolModel.v
theories/PoolSpec.v
theories/PoolProofs.v
theories/Props_Pool.v
theories/ScriptModel.v
theories/ScriptSpec.v
theories/ScriptProofs.v
theories/Props_Script.v
theories/RunModel.v
theories/RunSpec.v
theories/RunProofs.v
theories/RunProofs2.v
theories/Props_Run.v
theories/ExpModel.v
theories/ExpSpec.v
theories/ExpProofs.v
theories/ExpProofs2.v
theories/Props_Exp.v
theories/JobModel.v
theories/JobSpec.v
theories/JobProofs.v
theories/JobProofs2.v
theories/Props_Job.v
theories/ActionModel.v
theories/ActionSpec.v
theories/ActionProofs.v
theories/SnapModel.v
theories/SnapSpec.v
theories/SnapProofs.v
theories/Props_Action.v
theories/TowerModel.v
theories/TowerSpec.v
theories/TowerProofs.v
theories/Props_Tower.v
theories/HoldModel.v
theories/HoldSpec.v
theories/Props_Hold.v
theories/ElapsedModel.v
theories/ElapsedSpec.v
theories/ElapsedProofs.v
theories/Props_Elapsed.v
theories/HierModel.v
theories/HierSpec.v
theories/HierProofs.v
theories/Props_Hier.v
theories/SharedModel.v
theories/SharedSpec.v
theories/SharedProofs.v
theories/SharedProofs2.v
theories/SharedProofs3.v
theories/Props_Shared.v
theories/ExportModel.v
theories/ExportSpec.v
theories/ExportProofs.v
theories/ExportProofs2.v
theories/ExportProofs3.v
theories/ExportProofs4.v
theories/ExportProofs5.v
theories/Props_Export.v
theories/LawSpec.v
theories/LawProofs.v
theories/LawProofs2.v
theories/LawProofs3.v
theories/LawProofs4.v
theories/Props_Law.v
theories/RolloutSpec.v
theories/RolloutProofs.v
theories/RolloutProofs2.v
theories/Props_Rollout.v
theories/SuppLawModel.v
theories/SuppLawSpec.v
theories/SuppLawProofs.v
theories/Props_SuppLaw.v
theories/TrajModel.v
theories/TrajSpec.v
theories/TrajProofs.v
theories/Props_Traj.v
theories/ActionEqSpec.v
theories/ActionEqProofs.v
theories/Props_ActionEq.v
theories/ValueSpec.v
theories/ValueProofs.v
theories/Props_Value.v
theories/EvalLawSpec.v
theories/EvalLawProofs.v
theories/Props_EvalLaw.v
theories/DumpModel.v
theories/DumpSpec.v
theories/DumpProofs.v
theories/Props_Dump.v
theories/SolveModel.v
theories/SolveSpec.v
theories/SolveProofs.v
theories/Props_Solve.v
theories/TermModel.v
theories/TermSpec.v
theories/TermProofs.v
theories/Props_Term.v
theories/LegsSpec.v
theories/LegsProofs.v
theories/Props_Legs.v
theories/VisitModel.v
theories/VisitSpec.v
theories/VisitProofs.v
theories/VisitProofs2.v
theories/Props_Visit.v
theories/EpiSpec.v
theories/EpiProofs.v
theories/EpiProofs2.v
theories/EpiProofs3.v
theories/Props_Epi.v
theories/Props_Sample.v
theories/StarveSpec.v
theories/StarveProofs.v
theories/Props_Starve.v
theories/Props_Uct.v
theories/LaunchModel.v
theories/LaunchSpec.v
theories/LaunchProofs.v
theories/Props_Launch.v
theories/BoardModel.v
theories/BoardSpec.v
theories/BoardProofs.v
theories/Props_Board.v
theories/Props_Starts.v
theories/LostModel.v
theories/Props_Lost.v
theories/Props_Accept.v
theories/Props_Same.v
theories/Props_Round.v
theories/ShValueSpec.v
theories/ShValueProofs.v
theories/Props_ShValue.v
theories/LabelModel.v
theories/LabelSpec.v
theories/Props_Label.v
theories/PlotModel.v
theories/PlotSpec.v
theories/Props_Plot.v
theories/ShStarveSpec.v
theories/ShStarveProofs.v
theories/Props_ShStarve.v
theories/EvalErrSpec.v
theories/Props_EvalErr.v
theories/StoolModel.v
theories/OrderSpec.v
theories/OrderProofs.v
theories/Props_Order.v
theories/AverageSpec.v
theories/AverageProofs.v
theories/Props_Average.v
theories/MeanSpec.v
theories/MeanProofs.v
theories/Props_Mean.v
theories/SaveModel.v
theories/SaveSpec.v
theories/Props_Save.v
theories/JsonModel.v
theories/JsonSpec.v
theories/Props_Json.v
theories/DomSpec.v
theories/DomProofs.v
theories/Props_Dom.v
theories/Props_Edge.v
theories/WarmModel.v
theories/Props_Warm.v
theories/ShBestProofs.v
theories/Props_ShBest.v
theories/ShDomSpec.v
theories/ShDomProofs.v
theories/Props_ShDom.v
theories/VarModel.v
theories/VarSpec.v
theories/Props_Var.v
