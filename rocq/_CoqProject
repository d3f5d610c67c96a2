-Q theories Verif

theories/AddModel.v
theories/AddProofs.v
theories/AddSpec.v
theories/AddSysProofs.v
theories/AddrModel.v
theories/AddrProofs.v
theories/AllocMax.v
theories/AllocModel.v
theories/AllocProofs.v
theories/AllocProofs2.v
theories/AllocSep.v
theories/AllocSpec.v
theories/AllocWave.v
theories/AnyNetCheck.v
theories/AnyNetModel.v
theories/AnyNetProofs.v
theories/AnyNetRank.v
theories/AnyNetRead.v
theories/AnyNetRoute.v
theories/AnyNetSpec.v
theories/AnyNetText.v
theories/AnyNetWires.v
theories/ArbiterFair.v
theories/ArbiterModel.v
theories/ArbiterProofs.v
theories/ArbiterSpec.v
theories/AximmFormatModel.v
theories/AximmFormatProofs.v
theories/AximmInModel.v
theories/AximmInProofs.v
theories/AximmOutModel.v
theories/AximmOutProofs.v
theories/AximmOutSpec.v
theories/AximmSpec.v
theories/AxisFormatModel.v
theories/AxisFormatProofs.v
theories/AxisMasterModel.v
theories/AxisMasterProofs.v
theories/AxisMasterSpec.v
theories/AxisSlaveModel.v
theories/AxisSlaveProofs.v
theories/AxisSlaveSpec.v
theories/Bits.v
theories/BitsProofs.v
theories/BufferModel.v
theories/BufferProofs.v
theories/BufferSpec.v
theories/ChannelModel.v
theories/ChannelProofs.v
theories/ChaosModel.v
theories/ChaosSpec.v
theories/ClusterModel.v
theories/ClusterProofs.v
theories/CreditModel.v
theories/CreditProofs.v
theories/CreditSpec.v
theories/CrossModel.v
theories/CrossProofs.v
theories/CrossSpec.v
theories/DramBankModel.v
theories/DramBankProofs.v
theories/DramBooksProofs.v
theories/DramCtrlModel.v
theories/DramCtrlProofs.v
theories/DramRefreshProofs.v
theories/DramSpec.v
theories/DramTimingModel.v
theories/DramTraceProofs.v
theories/EndToEndMMProofs.v
theories/EndToEndMMSpec.v
theories/EndToEndProofs.v
theories/EndToEndSpec.v
theories/FatTreeModel.v
theories/FatTreeProofs.v
theories/FatTreeSpec.v
theories/FlitCode.v
theories/FlyModel.v
theories/FlyProofs.v
theories/FlySpec.v
theories/Fupd.v
theories/HelloModel.v
theories/HelloProofs.v
theories/HelloSpec.v
theories/InjectionModel.v
theories/InterRadModel.v
theories/InterRadProofs.v
theories/InterRadSpec.v
theories/IqPotential.v
theories/IqProgress.v
theories/IqRouterInv.v
theories/IqRouterModel.v
theories/IqRouterProofs.v
theories/IqRouterRun.v
theories/IqRouterSpec.v
theories/KnobsModel.v
theories/KnobsProofs.v
theories/KnobsSpec.v
theories/MemAddrModel.v
theories/MemAddrProofs.v
theories/MemAddrSpec.v
theories/MemCtrlModel.v
theories/MemCtrlProofs.v
theories/MemCtrlRunProofs.v
theories/MemCtrlSpec.v
theories/MemDramModel.v
theories/MemDramProofs.v
theories/MinTorusModel.v
theories/MinTorusProofs.v
theories/MinTorusSpec.v
theories/MlpIoModel.v
theories/MlpIoProofs.v
theories/MlpIoSpec.v
theories/MlpModel.v
theories/MlpNet.v
theories/MlpProofs.v
theories/MlpSpec.v
theories/MvmModel.v
theories/MvmProgress.v
theories/MvmProofs.v
theories/MvmRun.v
theories/MvmSpec.v
theories/NetMeshModel.v
theories/NetMeshOrder.v
theories/NetMeshProgress.v
theories/NetMeshProofs.v
theories/NetMeshSpec.v
theories/NetModel.v
theories/NetMore.v
theories/NetOrder.v
theories/NetPotential.v
theories/NetProgress.v
theories/NetProgressSpec.v
theories/NetProofs.v
theories/NetSpec.v
theories/NetStuck.v
theories/NetSum.v
theories/NiTorusModel.v
theories/NiTorusSpec.v
theories/PlacementModel.v
theories/PlacementProofs.v
theories/PlacementSpec.v
theories/PortalModel.v
theories/PortalProofs.v
theories/PortalSpec.v
theories/PrioArbModel.v
theories/PrioArbProofs.v
theories/PrioArbSpec.v
theories/Prop_Add.v
theories/Prop_Addr.v
theories/Prop_Alloc.v
theories/Prop_AnyNet.v
theories/Prop_Arbiter.v
theories/Prop_AximmFormat.v
theories/Prop_AximmIn.v
theories/Prop_AximmOut.v
theories/Prop_AxisFormat.v
theories/Prop_AxisMaster.v
theories/Prop_AxisSlave.v
theories/Prop_Buffer.v
theories/Prop_Channel.v
theories/Prop_Chaos.v
theories/Prop_Cluster.v
theories/Prop_Credit.v
theories/Prop_Dram.v
theories/Prop_EndToEnd.v
theories/Prop_EndToEndMM.v
theories/Prop_FatTree.v
theories/Prop_Fly.v
theories/Prop_Hello.v
theories/Prop_Injection.v
theories/Prop_InterRad.v
theories/Prop_IqRouter.v
theories/Prop_Knobs.v
theories/Prop_MemAddr.v
theories/Prop_MemCtrl.v
theories/Prop_MinTorus.v
theories/Prop_Mlp.v
theories/Prop_MlpIo.v
theories/Prop_Mvm.v
theories/Prop_Net.v
theories/Prop_NetProgress.v
theories/Prop_NiTorus.v
theories/Prop_Placement.v
theories/Prop_Portal.v
theories/Prop_PrioArb.v
theories/Prop_RommNi.v
theories/Prop_Route.v
theories/Prop_Stats.v
theories/Prop_SysLost.v
theories/Prop_SysProgress.v
theories/Prop_System.v
theories/Prop_Telemetry.v
theories/Prop_Term.v
theories/Prop_Traffic.v
theories/Prop_Tree.v
theories/Prop_Util.v
theories/Prop_ValiantTorus.v
theories/Prop_Vc.v
theories/Prop_XSystem.v
theories/RommNiModel.v
theories/RommNiSpec.v
theories/RouteMeshProofs.v
theories/RouteModel.v
theories/RouteNetProofs.v
theories/RouteNetSpec.v
theories/RoutePhaseProofs.v
theories/RouteProofs.v
theories/RouteSpec.v
theories/RouteTorusProofs.v
theories/RouteValiantProofs.v
theories/StatsModel.v
theories/StatsSpec.v
theories/StreamProofs.v
theories/StreamSpec.v
theories/SysBridge.v
theories/SysLemmas.v
theories/SysLost.v
theories/SysModel.v
theories/SysProgress.v
theories/SysProgressSpec.v
theories/SysProofs.v
theories/SysSpec.v
theories/TelemetryModel.v
theories/TelemetryProofs.v
theories/TelemetrySpec.v
theories/TermFlow.v
theories/TermLost.v
theories/TermLostSpec.v
theories/TermModel.v
theories/TermProgress.v
theories/TermProofs.v
theories/TermSpec.v
theories/TrafficModel.v
theories/TrafficProofs.v
theories/TrafficSpec.v
theories/TreeModel.v
theories/TreeProofs.v
theories/TreeSpec.v
theories/UtilFloatProofs.v
theories/UtilModel.v
theories/UtilProofs.v
theories/ValiantTorusModel.v
theories/ValiantTorusSpec.v
theories/VcModel.v
theories/VcProofs.v
theories/XSysLemmas.v
theories/XSysModel.v
theories/XSysProofs.v
theories/XSysSpec.v
theories/ZMap.v
