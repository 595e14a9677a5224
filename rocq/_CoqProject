-Q theories Verif

theories/Py.v
theories/PyList.v
theories/CoreModel.v
theories/CoreProofs.v
theories/CoreProps.v
theories/DistModel.v
theories/DistProofs.v
theories/DistProps.v
theories/CastModel.v
theories/CastProofs.v
theories/CastProps.v
theories/EnvModel.v
theories/EnvProofs.v
theories/EnvProps.v
theories/RolloutModel.v
theories/RolloutProps.v
theories/ReqModel.v
theories/ReqProps.v
theories/AstarModel.v
theories/AstarProofs.v
theories/AstarProps.v
theories/GridModel.v
theories/GridProps.v
theories/GamesModel.v
theories/GamesProps.v
theories/SchedModel.v
theories/SchedProofs.v
theories/SchedActProofs.v
theories/SchedTimeProofs.v
theories/SchedProps.v
theories/KnapModel.v
theories/KnapProofs.v
theories/KnapProps.v
theories/GraphModel.v
theories/GraphProps.v
theories/PermModel.v
theories/PermProps.v
theories/TspModel.v
theories/TspProofs.v
theories/TspProps.v
theories/StoreModel.v
theories/StoreProps.v
theories/LsModel.v
theories/LsProps.v
theories/ObjModel.v
theories/ObjProps.v
theories/SgsModel.v
theories/SgsProofs.v
theories/SgsTotalProofs.v
theories/SgsProps.v
theories/SatProps.v
theories/PileModel.v
theories/PileProofs.v
theories/PileProps.v
theories/PyMore.v
theories/FacModel.v
theories/FacProps.v
theories/VrpModel.v
theories/VrpProps.v
theories/SpaceModel.v
theories/SpaceProps.v
theories/GreedyModel.v
theories/GreedyProps.v
theories/CppAstarModel.v
theories/CppHeapProofs.v
theories/CppAstarProofs.v
theories/CppAstarProps.v
theories/LrtaModel.v
theories/LrtaProofs.v
theories/LrtaProps.v
theories/CpmModel.v
theories/CpmSpec.v
theories/CpmProofs.v
theories/CpmSgsProofs.v
theories/CpmTotalProofs.v
theories/CpmLoopProofs.v
theories/CpmCheck.v
theories/CpmProps.v
theories/AoModel.v
theories/AoSpec.v
theories/AoProofs.v
theories/AoSolveProofs.v
theories/AoProps.v
theories/LrtdpModel.v
theories/LrtdpSpec.v
theories/LrtdpProofs.v
theories/LrtdpLabelProofs.v
theories/LrtdpSolveProofs.v
theories/LrtdpConvProofs.v
theories/LrtdpProps.v
theories/IlaoModel.v
theories/IlaoSpec.v
theories/IlaoProofs.v
theories/IlaoSolveProofs.v
theories/IlaoProps.v
theories/PevalModel.v
theories/PevalSpec.v
theories/PevalProofs.v
theories/PevalRollProofs.v
theories/PevalProps.v
theories/GexModel.v
theories/GexSpec.v
theories/GexProofs.v
theories/GexMoreProofs.v
theories/GexUncProofs.v
theories/GexProps.v
theories/PolModel.v
theories/PolSpec.v
theories/PolProofs.v
theories/PolExecProofs.v
theories/PolGanttProofs.v
theories/PolMoreProofs.v
theories/PolProps.v
theories/DurModel.v
theories/DurProps.v
theories/CgpModel.v
theories/CgpSpec.v
theories/CgpProofs.v
theories/CgpGenomeProofs.v
theories/CgpLibModel.v
theories/CgpLibProofs.v
theories/CgpConvProofs.v
theories/CgpProps.v
theories/CgpLibProps.v
theories/IwModel.v
theories/IwSpec.v
theories/IwTupleProofs.v
theories/IwProofs.v
theories/IwSearchProofs.v
theories/IwFlagProofs.v
theories/IwProps.v
theories/BfwsModel.v
theories/BfwsSpec.v
theories/BfwsProofs.v
theories/BfwsProps.v
theories/MskModel.v
theories/MskSpec.v
theories/MskSatProofs.v
theories/MskProofs.v
theories/MskLoopProofs.v
theories/MskEndProofs.v
theories/MskTotalProofs.v
theories/MskVarProofs.v
theories/MskProps.v
theories/LnsModel.v
theories/LnsSpec.v
theories/LnsProofs.v
theories/LnsLoopProofs.v
theories/LnsProps.v
theories/MctsModel.v
theories/MctsSpec.v
theories/MctsProofs.v
theories/MctsTreeProofs.v
theories/MctsRunProofs.v
theories/MctsGcProofs.v
theories/MctsProps.v
theories/GymFeatModel.v
theories/GymFeatSpec.v
theories/GymBee1Proofs.v
theories/GymBee2Proofs.v
theories/GymFeatProofs.v
theories/GymBitsProofs.v
theories/GymFeatProps.v
theories/GymActModel.v
theories/GymActProps.v
theories/GymDomModel.v
theories/GymDomSpec.v
theories/GymDomProofs.v
theories/GymInitProofs.v
theories/GymDomProps.v
theories/GymProxyModel.v
theories/GymProxyProps.v
theories/PomcpModel.v
theories/PomcpSpec.v
theories/PomcpProofs.v
theories/PomcpRunProofs.v
theories/PomcpProps.v
theories/PyKeyModel.v
theories/PyKeyProps.v
theories/BindModel.v
theories/BindProps.v
theories/BindSolProps.v
theories/NoiseModel.v
theories/NoiseProps.v
theories/MilpModel.v
theories/MilpProofs.v
theories/MilpKnapModel.v
theories/MilpKnapProps.v
theories/MilpFacModel.v
theories/MilpFacProps.v
theories/MilpColModel.v
theories/MilpColProps.v
theories/MilpRcpspModel.v
theories/MilpRcpspProps.v
theories/MilpTspModel.v
theories/MilpTspProofs.v
theories/MilpTspCycleProofs.v
theories/MilpTspJoinProofs.v
theories/MilpTspSolveProofs.v
theories/MilpTspWitness.v
theories/MilpTspProps.v
theories/RobustModel.v
theories/RobustProofs.v
theories/RobustPlanProofs.v
theories/RobustProps.v
theories/TtpModel.v
theories/TtpSpec.v
theories/TtpProofs.v
theories/TtpProps.v
theories/ParModel.v
theories/ParSpec.v
theories/ParProofs.v
theories/ParProps.v
theories/ShmModel.v
theories/ShmSpec.v
theories/ShmProofs.v
theories/ShmProps.v
theories/HindModel.v
theories/HindSpec.v
theories/HindProofs.v
theories/HindProps.v
theories/GmutModel.v
theories/GmutSpec.v
theories/GmutProofs.v
theories/GmutProps.v
theories/CompaModel.v
theories/CompaProps.v
theories/RiwModel.v
theories/RiwSpec.v
theories/RiwProofs.v
theories/RiwTreeProofs.v
theories/RiwNovProofs.v
theories/RiwProps.v
theories/ReserveModel.v
theories/ReserveProofs.v
theories/ReserveProps.v
theories/IndivModel.v
theories/IndivProofs.v
theories/IndivProps.v
theories/ConsModel.v
theories/ConsProps.v
theories/HelperModel.v
theories/HelperProps.v
theories/HgenModel.v
theories/HgenProofs.v
theories/HgenProps.v
theories/ParseModel.v
theories/ParseProps.v
theories/PsplibModel.v
theories/PsplibProps.v
theories/ReadModel.v
theories/ReadProps.v
