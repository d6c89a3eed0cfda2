-Q theories Verif
theories/Base.v
theories/Model_Utils.v
theories/Proof_Utils.v
theories/Proof_Flags.v
theories/Spec_Utils.v
theories/Proof_UtilsProps.v
theories/Properties_Utils.v
theories/Model_Critnib.v
theories/Proof_Critnib.v
theories/Spec_Map.v
theories/Proof_CritnibMap.v
theories/Properties_Critnib.v
theories/Model_Ravl.v
theories/Spec_OrderedSet.v
theories/Proof_Ravl.v
theories/Properties_Ravl.v
theories/Model_Coarse.v
theories/Spec_Coarse.v
theories/Proof_Coarse.v
theories/Proof_CoarseInv.v
theories/Proof_CoarseAlloc.v
theories/Proof_CoarseOps.v
theories/Proof_CoarseProps.v
theories/Properties_Coarse.v
theories/Proof_CoarseLog.v
theories/Proof_CoarseFit.v
theories/Properties_CoarseLog.v
theories/Model_Tracker.v
theories/Spec_Tracker.v
theories/Proof_Tracker.v
theories/Proof_TrackerOps.v
theories/Proof_TrackerInv.v
theories/Proof_TrackerStep.v
theories/Proof_TrackerProps.v
theories/Properties_Tracker.v
theories/Model_IpcCache.v
theories/Spec_IpcCache.v
theories/Proof_IpcCache.v
theories/Proof_IpcCacheStep.v
theories/Proof_IpcCacheProps.v
theories/Properties_IpcCache.v
theories/Model_Ipc.v
theories/Spec_Ipc.v
theories/Proof_Ipc.v
theories/Properties_Ipc.v
theories/Model_Disjoint.v
theories/Spec_Disjoint.v
theories/Proof_DisjointClass.v
theories/Proof_DisjointBits.v
theories/Proof_Disjoint.v
theories/Proof_DisjointStep.v
theories/Proof_DisjointMem.v
theories/Proof_DisjointRun.v
theories/Proof_DisjointCalls.v
theories/Proof_DisjointView.v
theories/Proof_DisjointLimit.v
theories/Proof_DisjointMain.v
theories/Properties_Disjoint.v
theories/Model_BaseAlloc.v
theories/Spec_BaseAlloc.v
theories/Proof_BaseAlloc.v
theories/Proof_BaseAllocStep.v
theories/Proof_BaseAllocLinear.v
theories/Proof_BaseAllocWaste.v
theories/Proof_BaseAllocRefuse.v
theories/Proof_BaseAllocGlobal.v
theories/Properties_BaseAlloc.v
theories/Model_OsNuma.v
theories/Spec_OsNuma.v
theories/Proof_OsNumaSplit.v
theories/Proof_OsNuma.v
theories/Properties_OsNuma.v
theories/Model_OsProvider.v
theories/Spec_OsProvider.v
theories/Proof_OsProvider.v
theories/Proof_OsHistory.v
theories/Proof_OsPaged.v
theories/Properties_OsProvider.v
theories/Model_OsStats.v
theories/Spec_OsStats.v
theories/Proof_OsStats.v
theories/Properties_OsStats.v
theories/Model_FileProvider.v
theories/Spec_FileProvider.v
theories/Proof_FileProvider.v
theories/Proof_FileHistory.v
theories/Proof_FileEnd.v
theories/Properties_FileProvider.v
theories/Model_ProviderApi.v
theories/Spec_ProviderApi.v
theories/Proof_ProviderApi.v
theories/Properties_ProviderApi.v
theories/Model_PoolApi.v
theories/Spec_PoolApi.v
theories/Proof_PoolApi.v
theories/Properties_PoolApi.v
theories/Model_PoolTag.v
theories/Spec_PoolTag.v
theories/Proof_PoolTag.v
theories/Properties_PoolTag.v
theories/Model_Libumf.v
theories/Spec_Libumf.v
theories/Proof_Libumf.v
theories/Properties_Libumf.v
theories/Model_Ctl.v
theories/Spec_Ctl.v
theories/Proof_Ctl.v
theories/Properties_Ctl.v
theories/Model_Memspace.v
theories/Spec_Memspace.v
theories/Proof_Memspace.v
theories/Proof_MemspaceApi.v
theories/Properties_Memspace.v
theories/Model_Parse.v
theories/Spec_Parse.v
theories/Proof_Parse.v
theories/Properties_Parse.v
theories/Model_LogLine.v
theories/Spec_LogLine.v
theories/Proof_LogLine.v
theories/Properties_LogLine.v
theories/Model_Proxy.v
theories/Spec_Proxy.v
theories/Proof_Proxy.v
theories/Proof_ProxyStep.v
theories/Proof_ProxyApi.v
theories/Proof_ProxyMain.v
theories/Properties_Proxy.v
theories/Model_Create.v
theories/Spec_Create.v
theories/Proof_Create.v
theories/Properties_Create.v
theories/Model_CritnibConc.v
theories/Spec_CritnibConc.v
theories/Proof_CritnibConc.v
theories/Proof_CritnibConcStep.v
theories/Proof_CritnibConcGet.v
theories/Proof_CritnibConcWrite.v
theories/Proof_CritnibConcOps.v
theories/Proof_CritnibConcPlan.v
theories/Proof_CritnibConcRemove.v
theories/Proof_CritnibConcSys.v
theories/Properties_CritnibConc.v
theories/Model_CritnibFind.v
theories/Proof_CritnibFind.v
theories/Proof_CritnibFindStep.v
theories/Proof_CritnibFindExact.v
theories/Proof_CritnibFindSys.v
theories/Properties_CritnibFind.v
theories/Model_Cuda.v
theories/Spec_Cuda.v
theories/Proof_Cuda.v
theories/Proof_CudaHistory.v
theories/Properties_Cuda.v
theories/Model_LevelZero.v
theories/Spec_LevelZero.v
theories/Proof_LevelZero.v
theories/Properties_LevelZero.v
theories/Model_IpcConc.v
theories/Spec_IpcConc.v
theories/Proof_IpcConc.v
theories/Model_IpcGetConc.v
theories/Spec_IpcGetConc.v
theories/Proof_IpcGetConc.v
theories/Properties_IpcConc.v
theories/Model_TrackerConc.v
theories/Spec_TrackerConc.v
theories/Proof_TrackerConc.v
theories/Properties_TrackerConc.v
theories/Model_PoolError.v
theories/Spec_PoolError.v
theories/Proof_PoolError.v
theories/Properties_PoolError.v
theories/Model_Loader.v
theories/Spec_Loader.v
theories/Proof_Loader.v
theories/Properties_Loader.v
theories/Model_PoolLife.v
theories/Spec_PoolLife.v
theories/Proof_PoolLife.v
theories/Properties_PoolLife.v
theories/Model_Jemalloc.v
theories/Spec_Jemalloc.v
theories/Proof_Jemalloc.v
theories/Properties_Jemalloc.v
theories/Model_FromMemspace.v
theories/Spec_FromMemspace.v
theories/Proof_FromMemspace.v
theories/Properties_FromMemspace.v
theories/Model_DisjointConc.v
theories/Spec_DisjointConc.v
theories/Proof_DisjointConc.v
theories/Proof_DisjointConcStep.v
theories/Properties_DisjointConc.v
theories/Model_Predef.v
theories/Spec_Predef.v
theories/Proof_Predef.v
theories/Proof_PredefLife.v
theories/Proof_PredefBest.v
theories/Properties_Predef.v
theories/Model_TrackerSplit.v
theories/Spec_TrackerSplit.v
theories/Proof_TrackerSplit.v
theories/Proof_TrackerSplitInv.v
theories/Proof_TrackerSplitStep.v
theories/Proof_TrackerSplitMain.v
theories/Proof_TrackerSplitRun.v
theories/Properties_TrackerSplit.v
theories/Model_Scalable.v
theories/Spec_Scalable.v
theories/Proof_Scalable.v
theories/Properties_Scalable.v
theories/Model_NativeError.v
theories/Spec_NativeError.v
theories/Proof_NativeError.v
theories/Properties_NativeError.v
theories/Model_LastFailed.v
theories/Spec_LastFailed.v
theories/Proof_LastFailed.v
theories/Properties_LastFailed.v
theories/Model_SharedFile.v
theories/Spec_SharedFile.v
theories/Proof_SharedFile.v
theories/Properties_SharedFile.v
