-Q theories Verif
theories/UtilsModel.v
theories/UtilsLemmas.v
theories/Thm_Utils.v
theories/ListModel.v
theories/ListSpec.v
theories/ListProofs.v
theories/Thm_List.v
theories/RseqIR.v
theories/RseqSpec.v
theories/RseqKernel.v
theories/RseqSafe.v
theories/MemLemmas.v
theories/RunLemmas.v
theories/SafeTac.v
theories/ArchCommon.v
theories/Arch_x86.v
theories/Safe_x86.v
theories/RseqSim.v
theories/RseqOwn.v
theories/RseqCalls.v
theories/RseqSeq.v
theories/RseqProps.v
theories/RseqMisc.v
theories/Replay.v
theories/Arch_aarch64.v
theories/Safe_aarch64.v
theories/Arch_riscv.v
theories/Safe_riscv.v
theories/Arch_arm.v
theories/Safe_arm.v
theories/Arch_ppc.v
theories/Safe_ppc.v
theories/Arch_mips.v
theories/Safe_mips.v
theories/Arch_loongarch.v
theories/Safe_loongarch.v
theories/Arch_s390.v
theories/Safe_s390.v
theories/Archs.v
theories/ArchsGood.v
theories/RseqFacts.v
theories/ExRseq.v
theories/Thm_Rseq.v
theories/PoolVM.v
theories/PoolModel.v
theories/PoolVMLemmas.v
theories/PoolInv.v
theories/PoolItem.v
theories/PoolMap.v
theories/PoolRange.v
theories/PoolBitmap.v
theories/PoolOps.v
theories/PoolMalloc.v
theories/PoolFree.v
theories/PoolWorld.v
theories/PoolDestroy.v
theories/PoolCreate.v
theories/PoolHist.v
theories/PoolProps.v
theories/PoolProps2.v
theories/PoolProps3.v
theories/PoolProps4.v
theories/ExPool.v
theories/ExPool32.v
theories/ExPoolBig.v
theories/Thm_Pool.v
theories/Thm_PoolRobust.v
theories/Thm_PoolLife.v
theories/PoolQuietSpec.v
theories/PoolQuiet.v
theories/Thm_PoolQuiet.v
theories/PoolSetModel.v
theories/PoolSetSpec.v
theories/PoolSetProofs.v
theories/Thm_PoolSet.v
theories/PoolSetConc.v
theories/PoolSetConcSpec.v
theories/PoolSetConcProofs.v
theories/Thm_PoolSetConc.v
theories/RseqKeep.v
theories/Thm_RseqKeep.v
theories/LinSpec.v
theories/LinProofs.v
theories/ClientModel.v
theories/ClientSpec.v
theories/CntProofs.v
theories/LockProofs.v
theories/ListClientProofs.v
theories/BufProofs.v
theories/RecProofs.v
theories/ClientReplay.v
theories/ExClients.v
theories/Thm_Clients.v
theories/SmpModel.v
theories/SmpSpec.v
theories/SmpProofs.v
theories/ExSmp.v
theories/Thm_Smp.v
theories/RegModel.v
theories/RegSpec.v
theories/RegProofs.v
theories/RegTrace.v
theories/ExReg.v
theories/Thm_Reg.v
theories/NumaModel.v
theories/Thm_Numa.v
theories/CowModel.v
theories/CowSpec.v
theories/CowProofs.v
theories/Thm_Cow.v
theories/BarrierSpec.v
theories/BarrierModel.v
theories/BarrierProofs.v
theories/ExBarrier.v
theories/Thm_Barrier.v
theories/WeakModel.v
theories/WeakSpec.v
theories/WeakProofs.v
theories/ExWeak.v
theories/Thm_Weak.v
theories/CpuModel.v
theories/CpuProofs.v
theories/Thm_Cpu.v
theories/RaceSpec.v
theories/RaceProofs.v
theories/Thm_Race.v
theories/ViewModel.v
theories/ViewSpec.v
theories/OwnedProofs.v
theories/ViewProofs.v
theories/ViewClients.v
theories/ViewSc.v
theories/ExView.v
theories/Thm_View.v
theories/SyncModel.v
theories/SyncProofs.v
theories/SyncSc.v
theories/ExSync.v
theories/Thm_Sync.v
theories/RseqExits.v
theories/Thm_RseqExits.v
theories/LayoutModel.v
theories/LayoutSpec.v
theories/LayoutProofs.v
theories/Thm_Layout.v
theories/TsoModel.v
theories/TsoSpec.v
theories/TsoProofs.v
theories/TsoCount.v
theories/ExTso.v
theories/Thm_Tso.v
theories/MoModel.v
theories/MoSpec.v
theories/MoProofs.v
theories/ExMo.v
theories/Thm_Mo.v
theories/AreaModel.v
theories/AreaSpec.v
theories/AreaProofs.v
theories/Thm_Area.v
theories/ComposeModel.v
theories/ComposeSpec.v
theories/ComposeProofs.v
theories/ComposeKinds.v
theories/ComposeFinal.v
theories/Thm_Compose.v
theories/PlaceModel.v
theories/PlacePool.v
theories/PlaceProofs.v
theories/PlaceSpec.v
theories/PlaceLayout.v
theories/PlaceFinal.v
theories/ExPlace.v
theories/Thm_Place.v
theories/SmpRace.v
theories/SmpRaceProofs.v
theories/Thm_SmpRace.v
theories/ResSpec.v
theories/ResModel.v
theories/ResProofs.v
theories/ResErase.v
theories/ResHist.v
theories/Thm_Res.v
theories/MicroModel.v
theories/MicroSpec.v
theories/MicroInv.v
theories/MicroWorld.v
theories/MicroProofs.v
theories/MicroSteps.v
theories/MicroOps.v
theories/MicroFork.v
theories/MicroProps.v
theories/MicroFacts.v
theories/MicroTame.v
theories/MicroForkSpec.v
theories/MicroForkProofs.v
theories/ExMicro.v
theories/Thm_Micro.v
theories/Thm_MicroFork.v
theories/ForkSpec.v
theories/ForkProofs.v
theories/ForkTame.v
theories/Thm_Fork.v
theories/OverModel.v
theories/OverSpec.v
theories/OverProofs.v
theories/Thm_Over.v
theories/NameModel.v
theories/NameSpec.v
theories/NameProofs.v
theories/Thm_Name.v
theories/RangeModel.v
theories/RangeSpec.v
theories/RangeProofs.v
theories/Thm_Range.v
theories/MapModel.v
theories/MapSpec.v
theories/MapProofs.v
theories/Thm_Map.v
theories/TestModel.v
theories/TestNr.v
theories/TestProofs.v
theories/TestFill.v
theories/Thm_Test.v
theories/RobustModel.v
theories/RobustProofs.v
theories/Thm_Robust.v
theories/ForkRegModel.v
theories/ForkRegSpec.v
theories/ForkRegProofs.v
theories/Thm_ForkReg.v
theories/RegTestModel.v
theories/Thm_RegTest.v
