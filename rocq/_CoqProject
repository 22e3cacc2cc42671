-Q theories Verif
theories/Again.v
theories/AgainSpec.v
theories/AskProofs.v
theories/AskSpec.v
theories/BitSpec.v
theories/BitsProofs.v
theories/Bstream.v
theories/BstreamProofs.v
theories/BuildProofs.v
theories/BuildSpec.v
theories/Chunk.v
theories/ChunkFacts.v
theories/ChunkProofs.v
theories/ChunkSpec.v
theories/Cluster.v
theories/ClusterFacts.v
theories/ClusterProofs.v
theories/ClusterSpec.v
theories/Compactor.v
theories/CompactorProofs.v
theories/CompactorSpec.v
theories/Conc.v
theories/ConcSpec.v
theories/CrashKeep.v
theories/CrashOpen.v
theories/CrashProofs.v
theories/CrashQuery.v
theories/CrcProofs.v
theories/Db.v
theories/DbFacts.v
theories/DbHist.v
theories/DbProofs.v
theories/DbSpec.v
theories/DirProofs.v
theories/DirSpec.v
theories/EdgeProofs.v
theories/FaultsMain.v
theories/FaultsProofs.v
theories/FaultsSpec.v
theories/Find.v
theories/FindProofs.v
theories/FindSpec.v
theories/Flush.v
theories/FlushProofs.v
theories/Gorilla.v
theories/GorillaBits.v
theories/GorillaDec.v
theories/GorillaEnc.v
theories/GorillaProofs.v
theories/GorillaRound.v
theories/GorillaSafe.v
theories/GorillaSpec.v
theories/HashProofs.v
theories/Hashing.v
theories/IndexHist.v
theories/IndexProofs.v
theories/IndexSpec.v
theories/Indexer.v
theories/IntersectProofs.v
theories/LabelProofs.v
theories/Labels.v
theories/LockDead.v
theories/LockProofs.v
theories/LockSpec.v
theories/LossDb.v
theories/LossDbSpec.v
theories/LossProofs.v
theories/LossSpec.v
theories/MapProofs.v
theories/MixDb.v
theories/MixEngine.v
theories/MixIndex.v
theories/MixPoints.v
theories/MixRun.v
theories/MixSpec.v
theories/OpenProofs.v
theories/Opts.v
theories/OptsProofs.v
theories/OptsSpec.v
theories/Prog.v
theories/Program.v
theories/ProgramProofs.v
theories/ProgramSpec.v
theories/PropsAgain.v
theories/PropsAsk.v
theories/PropsBuild.v
theories/PropsChunk.v
theories/PropsCluster.v
theories/PropsCompaction.v
theories/PropsCrash.v
theories/PropsDb.v
theories/PropsDir.v
theories/PropsFaults.v
theories/PropsFind.v
theories/PropsHash.v
theories/PropsIndex.v
theories/PropsLock.v
theories/PropsLoss.v
theories/PropsLossDb.v
theories/PropsMix.v
theories/PropsOpts.v
theories/PropsOrder.v
theories/PropsProgram.v
theories/PropsProto.v
theories/PropsReads.v
theories/PropsReopen.v
theories/PropsRequest.v
theories/PropsServer.v
theories/PropsServing.v
theories/PropsShared.v
theories/PropsStop.v
theories/PropsStorage.v
theories/PropsStream.v
theories/PropsSwap.v
theories/PropsTalk.v
theories/PropsTiKv.v
theories/PropsTiKvDb.v
theories/PropsTimePoint.v
theories/PropsTorn.v
theories/PropsTornLives.v
theories/PropsTornMany.v
theories/PropsTornReq.v
theories/PropsWal.v
theories/PropsWide.v
theories/PropsWire.v
theories/PropsWriters.v
theories/Proto.v
theories/ProtoCut.v
theories/ProtoProofs.v
theories/ProtoRound.v
theories/ProtoSpec.v
theories/RangeProofs.v
theories/RangeSpec.v
theories/ReadsConc.v
theories/ReadsCrash.v
theories/ReadsFacts.v
theories/ReadsMay.v
theories/ReadsSpec.v
theories/ReopenProofs.v
theories/ReopenSpec.v
theories/Rust.v
theories/Script.v
theories/ScriptWork.v
theories/Search.v
theories/SearchProofs.v
theories/SearchSpec.v
theories/Server.v
theories/ServerCut.v
theories/ServerProofs.v
theories/ServerSpec.v
theories/Serving.v
theories/ServingMain.v
theories/ServingSpec.v
theories/SharedAck.v
theories/SharedConc.v
theories/SharedFacts.v
theories/SharedLog.v
theories/SharedMain.v
theories/SharedMay.v
theories/SharedSpec.v
theories/SipProofs.v
theories/SipSpec.v
theories/StopSpec.v
theories/Storage.v
theories/StorageProofs.v
theories/StorageSpec.v
theories/Stream.v
theories/StreamProofs.v
theories/StreamSpec.v
theories/StringProofs.v
theories/SwapConc.v
theories/SwapMain.v
theories/SwapProofs.v
theories/SwapSpec.v
theories/TalkProofs.v
theories/TalkSpec.v
theories/TalkTiKv.v
theories/TiKvCli.v
theories/TiKvDb.v
theories/TiKvDbChunk.v
theories/TiKvDbMain.v
theories/TiKvDbProofs.v
theories/TiKvDbRun.v
theories/TiKvDbSpec.v
theories/TiKvFaults.v
theories/TiKvInit.v
theories/TiKvProofs.v
theories/TiKvShared.v
theories/TiKvSpec.v
theories/TimePoint.v
theories/TimePointProofs.v
theories/TimePointSpec.v
theories/TornAll.v
theories/TornCuts.v
theories/TornKnown.v
theories/TornLives.v
theories/TornLivesSpec.v
theories/TornMany.v
theories/TornManySpec.v
theories/TornProofs.v
theories/TornReq.v
theories/TornReqSpec.v
theories/TornServe.v
theories/TornServeSpec.v
theories/TornSession.v
theories/TornSpec.v
theories/Utils.v
theories/Wal.v
theories/WalProofs.v
theories/WalSpec.v
theories/WideProofs.v
theories/WideSpec.v
theories/WireMsgs.v
theories/WireProofs.v
theories/WireSpec.v
theories/WireWritten.v
theories/WireWrong.v
theories/WritersConc.v
theories/WritersMain.v
theories/WritersProofs.v
theories/WritersSpec.v
