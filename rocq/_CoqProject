-Q theories Verif
theories/PySort.v
theories/ScheduleModel.v
theories/ScheduleSpec.v
theories/ScheduleProofs.v
theories/ScheduleExec.v
theories/ScheduleOrder.v
theories/ScheduleInside.v
theories/ScheduleFacts.v
theories/SchedulePreserve.v
theories/ScheduleDemo.v
theories/ScheduleProps.v
theories/RunnerModel.v
theories/RunnerProofs.v
theories/RunnerDemo.v
theories/RunnerProps.v
theories/CheckpointModel.v
theories/CheckpointSpec.v
theories/CheckpointSim.v
theories/CheckpointProofs.v
theories/CheckpointFacts.v
theories/CheckpointProps.v
theories/CkptInsideProps.v
theories/PyDict.v
theories/AgentModel.v
theories/AgentSpec.v
theories/AgentProofs.v
theories/AgentProps.v
theories/SpaceModel.v
theories/SpaceSpec.v
theories/SpaceProofs.v
theories/SpaceFacts.v
theories/SpaceProps.v
theories/TopologyModel.v
theories/TopologySpec.v
theories/TopologyProofs.v
theories/TopologyBuffers.v
theories/TopologyRanges.v
theories/TopologyRouting.v
theories/TopologyProps.v
theories/ContextModel.v
theories/ContextSpec.v
theories/ContextProofs.v
theories/ContextProps.v
theories/WorldModel.v
theories/WorldProofs.v
theories/WorldMoves.v
theories/WorldSpec.v
theories/WorldPopulation.v
theories/WorldRun.v
theories/WorldStatic.v
theories/WorldDemo.v
theories/WorldTrack.v
theories/WorldRequests.v
theories/WorldProps.v
theories/LoggingModel.v
theories/LoggingSpec.v
theories/LoggingProofs.v
theories/LoggingProps.v
theories/IdModel.v
theories/IdSpec.v
theories/IdProofs.v
theories/IdProps.v
theories/UtilModel.v
theories/UtilSpec.v
theories/UtilProofs.v
theories/UtilProps.v
theories/GeometryModel.v
theories/GeometrySpec.v
theories/GeometryProps.v
theories/NetFileModel.v
theories/NetFileSpec.v
theories/NetFileProofs.v
theories/NetFileProps.v
theories/JsonModel.v
theories/JsonSpec.v
theories/JsonProofs.v
theories/JsonFacts.v
theories/NetTextModel.v
theories/JsonLines.v
theories/JsonProps.v
theories/NetFailModel.v
theories/NetFailProps.v
theories/ValueModel.v
theories/ValueSpec.v
theories/ValueProofs.v
theories/ValueProps.v
theories/ValueSyncModel.v
theories/ValueSyncSpec.v
theories/ValueSyncProofs.v
theories/ValueSelf.v
theories/ValueSyncProps.v
theories/ValueRWModel.v
theories/ValueRWSpec.v
theories/ValueRWProofs.v
theories/ValueRWProps.v
theories/NetModel.v
theories/NetSpec.v
theories/NetProofs.v
theories/NetCount.v
theories/NetProps.v
theories/NetWorldModel.v
theories/NetWorldSpec.v
theories/NetWorldBase.v
theories/NetWorldInv.v
theories/NetWorldCalls.v
theories/NetWorldEdges.v
theories/NetWorldReq.v
theories/NetWorldPre.v
theories/NetWorldRem.v
theories/NetWorldVert.v
theories/NetWorldSync.v
theories/NetWorldProps.v
theories/FloatModel.v
theories/FloatProofs.v
theories/BorderModel.v
theories/BorderProofs.v
theories/BorderProps.v
theories/TreeModel.v
theories/TreeProofs.v
theories/TreeFacts.v
theories/TreeRun.v
theories/TreeProps.v
theories/CkptStateModel.v
theories/CkptStateProofs.v
theories/CkptStateFacts.v
theories/CkptStateProps.v
theories/CkptNetModel.v
theories/CkptNetProofs.v
theories/CkptNetFacts.v
theories/CkptNetWorld.v
theories/CkptNetProps.v
theories/HeapModel.v
theories/HeapProofs.v
theories/HeapSim.v
theories/HeapProps.v
theories/BufferSpec.v
theories/BufferSpace.v
theories/BufferRank.v
theories/BufferWorld.v
theories/BufferTopo.v
theories/BufferRun.v
theories/BufferDemo.v
theories/BufferProps.v
theories/BufferTotal.v
theories/BufferTotalProps.v
theories/NetMoveModel.v
theories/NetMoveDemo.v
theories/NetMoveBase.v
theories/NetMoveSteps.v
theories/NetMovePost.v
theories/NetMoveWorld.v
theories/NetMoveSpec.v
theories/NetMoveHist.v
theories/NetMoveProps.v
theories/NetArrive.v
theories/NetArriveProps.v
theories/NetLeaveProps.v
theories/NetPostProps.v
theories/NetLeftProps.v
theories/NetLeaversProps.v
theories/NetGroupProps.v
theories/CWorldModel.v
theories/CSpaceFacts.v
theories/CWorldSpec.v
theories/CWorldTopo.v
theories/CWorldRank.v
theories/CWorldWorld.v
theories/CWorldRun.v
theories/CWorldProps.v
theories/CWorldDemo.v
theories/WorldStateSpec.v
theories/WorldState.v
theories/WorldFresh.v
theories/WorldStateProps.v
theories/NetState.v
theories/NetStateProps.v
theories/LogClassModel.v
theories/LogClassSpec.v
theories/LogClassProps.v
theories/NetReadModel.v
theories/NetReadBase.v
theories/NetReadReq.v
theories/NetReadProofs.v
theories/NetReadSpec.v
theories/NetReadFacts.v
theories/NetReadClaim.v
theories/NetReadProps.v
theories/NetReadDemo.v
theories/NetMetisModel.v
theories/NetMetisProofs.v
theories/NetMetisProps.v
theories/MemDict.v
theories/MemModel.v
theories/MemSpec.v
theories/MemProofs.v
theories/MemInv.v
theories/MemExec.v
theories/MemRun.v
theories/MemFacts.v
theories/MemProps.v
theories/LoopModel.v
theories/LoopSpec.v
theories/LoopProofs.v
theories/LoopFacts.v
theories/LoopProps.v
theories/PointModel.v
theories/PointSpec.v
theories/PointProofs.v
theories/PointProps.v
theories/RaiseModel.v
theories/RaiseProofs.v
theories/RaiseProps.v
theories/ScheduleResched.v
theories/TimesProofs.v
theories/TimesProps.v
theories/RandomModel.v
theories/RandomSpec.v
theories/RandomProofs.v
theories/RandomProps.v
