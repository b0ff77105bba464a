-Q theories Verif
theories/Base.v
theories/NxModel.v
theories/NxSpec.v
theories/ReachProofs.v
theories/NxProofs.v
theories/GraphModel.v
theories/GraphSpec.v
theories/GraphProofs.v
theories/ExplicitProofs.v
theories/GraphProps.v
theories/Bn.v
theories/BnProofs.v
theories/CausalModel.v
theories/ScmSpec.v
theories/ScmProofs.v
theories/PowersetProofs.v
theories/BackdoorSpec.v
theories/BackdoorProofs.v
theories/BackdoorProps.v
theories/PathSpec.v
theories/PathProofs.v
theories/PathProps.v
theories/FrontdoorProofs.v
theories/FrontdoorSearch.v
theories/FrontdoorProps.v
theories/IvSpec.v
theories/IvProofs.v
theories/IvProps.v
theories/MethodProps.v
theories/PrintProps.v
theories/QProofs.v
theories/Rational.v
theories/IdProofs.v
theories/IdProps.v
theories/DiscoveryModel.v
theories/DiscoveryProofs.v
theories/DiscoveryProps.v
theories/UtilsModel.v
theories/UtilsProps.v
theories/ApiModel.v
theories/ApiProps.v
theories/UpliftModel.v
theories/UpliftProps.v
theories/BayesModel.v
theories/BayesProps.v
theories/EstUtilsModel.v
theories/EstUtilsProps.v
theories/PQueueModel.v
theories/PQueueProps.v
theories/TreeCritModel.v
theories/TreeCritProps.v
theories/SplitterModel.v
theories/SortModel.v
theories/SortProps.v
theories/SplitterSpec.v
theories/GrfCritModel.v
theories/GrfCritSpec.v
theories/GrfCritOk.v
theories/TreeSpec.v
theories/CritOk.v
theories/SplitterProofs.v
theories/BuilderProofs.v
theories/TreeShape.v
theories/TreeProps.v
theories/CausalTreeModel.v
theories/CausalTreeProps.v
theories/TreeExamples.v
theories/BestFirstModel.v
theories/BestFirstProofs.v
theories/BestFirstShape.v
theories/BestFirstProps.v
theories/PolicyModel.v
theories/PolicyProps.v
theories/MetaModel.v
theories/MetaSpec.v
theories/MetaProofs.v
theories/MetaProps.v
theories/MetaRefit.v
theories/MetaT.v
theories/MetaX.v
theories/MetaSep.v
theories/CrossFitModel.v
theories/CrossFitProofs.v
theories/DrModel.v
theories/DrProofs.v
theories/DrSpec.v
theories/DrProps.v
theories/DrCalls.v
theories/DrRobust.v
theories/DrExamples.v
theories/DmlModel.v
theories/DmlProofs.v
theories/DmlProps.v
theories/DmlCalls.v
theories/DmlDisc.v
theories/DmlExamples.v
theories/BoundModel.v
theories/BoundProofs.v
theories/BoundProps.v
theories/BoundCalls.v
theories/BoundExamples.v
theories/TslsModel.v
theories/TslsSpec.v
theories/TslsProofs.v
theories/TslsProps.v
theories/TslsRecover.v
theories/TslsExamples.v
theories/TslsCalls.v
theories/GrfModel.v
theories/GrfSpec.v
theories/GrfProofs.v
theories/GrfExamples.v
theories/GrfProps.v
theories/GrfRefuted.v
theories/GrfApiProps.v
theories/CforestModel.v
theories/CforestProofs.v
theories/CforestProps.v
theories/CforestCalls.v
theories/CforestExamples.v
theories/RlossModel.v
theories/RlossSpec.v
theories/RlossProofs.v
theories/RlossProps.v
theories/RlossCalls.v
theories/InterpModel.v
theories/InterpSpec.v
theories/InterpProofs.v
theories/InterpPolicy.v
theories/InterpProps.v
theories/InterpCe.v
theories/InterpExamples.v
theories/PermModel.v
theories/PermSpec.v
theories/PermProofs.v
theories/PermProps.v
theories/PermHist.v
theories/PermSl.v
theories/PermExamples.v
theories/CleanModel.v
theories/CleanSpec.v
theories/CleanProofs.v
theories/CleanProps.v
theories/CleanHist.v
theories/CleanExamples.v
theories/MapModel.v
theories/MapSpec.v
theories/MapProofs.v
theories/MapProps.v
theories/MapExamples.v
theories/TransModel.v
theories/TransProps.v
theories/FistProps.v
theories/FistExamples.v
theories/FactoryModel.v
theories/FactoryProps.v
theories/WhyModel.v
theories/WhyProofs.v
theories/WhyProps.v
theories/BayesModulesModel.v
theories/BayesModulesProps.v
theories/DeepIVModel.v
theories/DeepIVProps.v
theories/ParamsModel.v
theories/ParamsProps.v
theories/UpliftWrapModel.v
theories/UpliftWrapProps.v
theories/GenModel.v
theories/GenProps.v
theories/GenAccProps.v
theories/GenDynProps.v
theories/DyDiscoveryModel.v
theories/DyDiscoveryProps.v
theories/IdentTreatModel.v
theories/IdentTreatProps.v
theories/ProxyModel.v
theories/ProxyProps.v
theories/TicTocModel.v
theories/TicTocProps.v
theories/PlotModel.v
theories/PlotProps.v
theories/ScoreModel.v
theories/ScoreProps.v
