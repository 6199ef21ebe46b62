-Q theories Verif

theories/Base.v
theories/HandlePool.v
theories/HandleSpec.v
theories/HandlePoolProofs.v
theories/HandleWrap.v
theories/PropHandle.v
theories/SparseMap.v
theories/SparseMapProofs.v
theories/PropSparse.v
theories/SparseMove.v
theories/PropSparseMove.v
theories/Bits.v
theories/Layout.v
theories/PropLayout.v
theories/HashTable.v
theories/HashTableProofs.v
theories/HashTableMap.v
theories/PropHash.v
theories/HashLife.v
theories/HashLifeProofs.v
theories/PropHashLife.v
theories/HashRange.v
theories/PropHashRange.v
theories/TypeRegistry.v
theories/PropTypes.v
theories/StaticInit.v
theories/PropStaticInit.v
theories/Bitset.v
theories/BitsetProofs.v
theories/ComponentSet.v
theories/ComponentSetProofs.v
theories/PropSets.v
theories/Allocators.v
theories/PropAlloc.v
theories/ParallelFor.v
theories/PropParallelFor.v
theories/Task.v
theories/PropTask.v
theories/ThreadPool.v
theories/ThreadPoolProofs.v
theories/ThreadPoolRun.v
theories/ThreadPoolJoin.v
theories/PropThreadPool.v
theories/ThreadPoolFair.v
theories/PropPoolFair.v
theories/PropPoolTasks.v
theories/PoolStats.v
theories/PropPoolStats.v
theories/WSQueue.v
theories/WSQueueProofs.v
theories/PropWSQueue.v
theories/WeakMem.v
theories/WeakQueue.v
theories/WeakQueueProofs.v
theories/WeakQueueSteps.v
theories/WeakQueueOwner.v
theories/WeakQueueThief.v
theories/WeakQueueProgress.v
theories/WeakTask.v
theories/PropWeakQueue.v
theories/Access.v
theories/AccessProofs.v
theories/Stage.v
theories/StageProofs.v
theories/Interleave.v
theories/PropStage.v
theories/Chunk.v
theories/Archetype.v
theories/Registry.v
theories/ChunkProofs.v
theories/ArchetypeProofs.v
theories/RegistryStore.v
theories/RegistryProofs.v
theories/View.v
theories/ViewProofs.v
theories/RegSpec.v
theories/RegSpecProofs.v
theories/RegTrap.v
theories/RegObs.v
theories/RegRun.v
theories/PropRegistry.v
theories/PropView.v
theories/PropStorage.v
theories/ParEach.v
theories/ParEachProofs.v
theories/PropParEach.v
theories/SystemRun.v
theories/SystemRunProofs.v
theories/PropSystemRun.v
theories/Command.v
theories/CommandSpec.v
theories/CommandProofs.v
theories/PropCommand.v
theories/SysCommand.v
theories/SysCommandProofs.v
theories/PropSysCommand.v
theories/FlushHook.v
theories/PropFlushHook.v
theories/SysFrame.v
theories/SysFrameProofs.v
theories/PropSysFrame.v
theories/Frames.v
theories/FramesProofs.v
theories/PropFrames.v
theories/PoolThrow.v
theories/PoolThrowProofs.v
theories/PoolThrowSim.v
theories/PropPoolThrow.v
theories/EachOps.v
theories/EachOpsProofs.v
theories/PropEachOps.v
theories/PoolContext.v
theories/PropPoolContext.v
theories/PoolFail.v
theories/PropPoolFail.v
theories/StageThrow.v
theories/StageThrowProofs.v
theories/StageCalm.v
theories/PropStageThrow.v
theories/EntityRef.v
theories/EntityRefProofs.v
theories/PropEntityRef.v
theories/Placeholder.v
theories/PlaceholderProofs.v
theories/PropPlaceholder.v
theories/SchedBuild.v
theories/PropSchedBuild.v
theories/KeptRange.v
theories/KeptRangeProofs.v
theories/PropKeptRange.v
theories/PropFirstFit.v
theories/QueueMem.v
theories/PropQueueMem.v
theories/CmdRace.v
theories/CmdRaceProofs.v
theories/PropCmdRace.v
theories/SelfMove.v
theories/PropSelfMove.v
theories/RefKept.v
theories/RefKeptProofs.v
theories/PropRefKept.v
theories/HashLoop.v
theories/PropHashLoop.v
theories/HashAlias.v
theories/PropHashAlias.v
theories/TempMemory.v
theories/PropTempMemory.v
theories/PoolTrace.v
theories/PoolTraceProofs.v
theories/PropPoolTrace.v
theories/ChunkCount.v
theories/ChunkCountProofs.v
theories/ChunkPackedProofs.v
theories/PropChunkCount.v
theories/PoolDepth.v
theories/PoolDepthProofs.v
theories/PoolDepthTwoProofs.v
theories/PropPoolDepth.v
theories/PropForeign.v
theories/Reuse.v
theories/ReuseProofs.v
theories/PropReuse.v
theories/Once.v
theories/PropOnce.v
theories/PoolSlot.v
theories/PoolSlotProofs.v
theories/PoolPartProofs.v
theories/PropPoolSlot.v
theories/RemoveProofs.v
theories/PropRemove.v
theories/PropMainThread.v
theories/PropSem.v
theories/PropReserveMix.v
theories/HandleOrder.v
theories/PropOrder.v
theories/PropReserveReg.v
