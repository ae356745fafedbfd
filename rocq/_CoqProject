-Q theories Verif
theories/Base.v
theories/BlkIdModel.v
theories/BlkIdSpec.v
theories/BlkIdProofs.v
theories/BlkIdProperties.v
theories/ExtSpec.v
theories/ExtFacts.v
theories/SlabModel.v
theories/SlabSpec.v
theories/SlabProofs.v
theories/SlabProperties.v
theories/AppendModel.v
theories/AppendSpec.v
theories/AppendProofs.v
theories/AppendProperties.v
theories/FixedModel.v
theories/FixedSpec.v
theories/FixedProofs.v
theories/FixedProperties.v
theories/BitmapModel.v
theories/BitmapSpec.v
theories/BitmapProofs.v
theories/BitmapProperties.v
theories/VdevFreeModel.v
theories/VdevFreeSpec.v
theories/VdevFreeProofs.v
theories/VdevFreeProperties.v
theories/VarsizeModel.v
theories/VarsizeSpec.v
theories/VarsizeProofs.v
theories/VarsizeProperties.v
theories/PdevModel.v
theories/PdevSpec.v
theories/PdevProofs.v
theories/PdevProperties.v
theories/LayoutModel.v
theories/LayoutProperties.v
theories/TopoModel.v
theories/TopoSpec.v
theories/TopoProofs.v
theories/TopoProperties.v
theories/JournalModel.v
theories/JournalSpec.v
theories/JournalProofs.v
theories/JournalProperties.v
theories/ByteBase.v
theories/LogGroupModel.v
theories/LogGroupSpec.v
theories/LogGroupProofs.v
theories/LogGroupProperties.v
theories/LogDevModel.v
theories/LogDevSpec.v
theories/LogDevProofs.v
theories/LogDevProperties.v
theories/CPModel.v
theories/CPSpec.v
theories/CPProofs.v
theories/CPProperties.v
theories/CPGuardModel.v
theories/CPGuardSpec.v
theories/CPGuardProofs.v
theories/CPGuardProperties.v
theories/MetaModel.v
theories/MetaSpec.v
theories/MetaProofs.v
theories/MetaOps.v
theories/MetaReach.v
theories/MetaProperties.v
theories/ReadTrackModel.v
theories/ReadTrackSpec.v
theories/ReadTrackProofs.v
theories/ReadTrackProperties.v
theories/DataSvcModel.v
theories/DataSvcSpec.v
theories/DataSvcProofs.v
theories/DataSvcProperties.v
theories/BtNodeModel.v
theories/BtNodeSpec.v
theories/BtNodeProofs.v
theories/BtNodeProperties.v
theories/BtreeModel.v
theories/BtreeInv.v
theories/BtreePut.v
theories/BtreeMerge.v
theories/BtreeMerge2.v
theories/BtreeRemove.v
theories/BtreeTotal.v
theories/BtreeTotal2.v
theories/BtreeTotal3.v
theories/BtreeSpec.v
theories/BtreeProperties.v
theories/BtreeQueryModel.v
theories/BtreeQueryProofs.v
theories/BtreeQueryProperties.v
theories/BtreeRangeModel.v
theories/BtreeRangeProofs.v
theories/BtreeRangePut.v
theories/BtreeRangeProperties.v
theories/VarNodeModel.v
theories/VarNodeSpec.v
theories/VarNodeProofs.v
theories/VarNodeProperties.v
theories/PfxNodeModel.v
theories/PfxNodeSpec.v
theories/PfxNodeProofs.v
theories/PfxNodeProperties.v
theories/WbModel.v
theories/WbSpec.v
theories/WbProofs.v
theories/WbFlushProofs.v
theories/WbProperties.v
theories/DagModel.v
theories/DagSpec.v
theories/DagProofs.v
theories/DagProofs2.v
theories/DagProofs3.v
theories/DagProperties.v
theories/RepairModel.v
theories/RepairSpec.v
theories/RepairProofs.v
theories/RepairProofs2.v
theories/RepairProofs3.v
theories/RepairProofs4.v
theories/RepairProofs5.v
theories/RepairProperties.v
theories/TxnModel.v
theories/TxnSpec.v
theories/TxnProofs.v
theories/TxnProperties.v
theories/RaftLogModel.v
theories/RaftLogSpec.v
theories/RaftLogProofs.v
theories/RaftLogProperties.v
theories/ReplayModel.v
theories/ReplaySpec.v
theories/ReplayProofs.v
theories/ReplayProperties.v
theories/ReplEntryModel.v
theories/ReplEntrySpec.v
theories/ReplEntryProofs.v
theories/ReplEntryProperties.v
theories/ReplDataModel.v
theories/ReplDataSpec.v
theories/ReplDataProofs.v
theories/ReplDataProperties.v
theories/LeafCrashModel.v
theories/LeafCrashSpec.v
theories/LeafCrashProofs.v
theories/LeafCrashProofs2.v
theories/LeafCrashProofs3.v
theories/LeafCrashProperties.v
theories/RecovModel.v
theories/RecovSpec.v
theories/RecovProofs.v
theories/RecovProofs2.v
theories/RecovProofs3.v
theories/RecovProperties.v
theories/RecovBlkModel.v
theories/RecovBlkSpec.v
theories/RecovBlkProofs.v
theories/RecovBlkProperties.v
theories/RecoverModel.v
theories/RecoverSpec.v
theories/RecoverProofs.v
theories/RecoverProperties.v
theories/FixNodeModel.v
theories/FixNodeSpec.v
theories/FixNodeProofs.v
theories/FixNodeProperties.v
theories/MemberModel.v
theories/MemberSpec.v
theories/MemberProofs.v
theories/MemberProperties.v
theories/ConcBtModel.v
theories/ConcBtSpec.v
theories/ConcBtLists.v
theories/ConcBtSpread.v
theories/ConcBtTree.v
theories/ConcBtRoot.v
theories/ConcBtProofs.v
theories/ConcBtProperties.v
theories/FetchModel.v
theories/FetchSpec.v
theories/FetchProofs.v
theories/FetchProperties.v
theories/VdevAllocModel.v
theories/VdevAllocSpec.v
theories/VdevAllocProofs.v
theories/VdevAllocProperties.v
theories/VdevSizeModel.v
theories/VdevSizeProofs.v
theories/VdevSizeProperties.v
theories/ReqLifeModel.v
theories/ReqLifeSpec.v
theories/ReqLifeProofs.v
theories/ReqLifeProperties.v
theories/BtDestroyModel.v
theories/BtDestroyProperties.v
theories/LogMetaModel.v
theories/LogMetaSpec.v
theories/LogMetaProofs.v
theories/LogMetaProperties.v
theories/GrpLifeModel.v
theories/GrpLifeSpec.v
theories/GrpLifeProofs.v
theories/GrpLifeProofs2.v
theories/GrpLifeProofs3.v
theories/GrpLifeProofs4.v
theories/GrpLifeProperties.v
theories/DevMgrModel.v
theories/DevMgrSpec.v
theories/DevMgrProofs.v
theories/DevMgrProofs2.v
theories/DevMgrProofs3.v
theories/DevMgrProofs4.v
theories/DevMgrProperties.v
theories/StopModel.v
theories/StopSpec.v
theories/StopProofs.v
theories/StopProofs2.v
theories/StopProofs3.v
theories/StopProperties.v
theories/NodeBufModel.v
theories/NodeBufSpec.v
theories/NodeBufProofs.v
theories/NodeBufProperties.v
theories/IdxSvcModel.v
theories/IdxSvcSpec.v
theories/IdxSvcProofs.v
theories/IdxSvcProperties.v
theories/RaftStateModel.v
theories/RaftStateSpec.v
theories/RaftStateProofs.v
theories/RaftStateProperties.v
theories/QuiesceModel.v
theories/QuiesceSpec.v
theories/QuiesceProofs.v
theories/QuiesceProperties.v
theories/GateModel.v
theories/GateSpec.v
theories/GateProofs.v
theories/GateProperties.v
theories/LatchModel.v
theories/LatchSpec.v
theories/LatchProofs.v
theories/LatchProperties.v
theories/DirtyModel.v
theories/DirtySpec.v
theories/DirtyProofs.v
theories/DirtyProperties.v
