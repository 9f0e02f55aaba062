-Q theories Verif
theories/Bytes.v
theories/Spec.v
theories/Sql.v
theories/System.v
theories/SpecLemmas.v
theories/SqlLemmas.v
theories/Sim.v
theories/Prog.v
theories/Backend.v
theories/Limited.v
theories/Etcd.v
theories/Api.v
theories/Pool.v
theories/Observe.v
theories/ReadLemmas.v
theories/ProgLemmas.v
theories/ReadProgs.v
theories/TraceLemmas.v
theories/Safety.v
theories/ApiLemmas.v
theories/StoreProofs.v
theories/ReadProofs.v
theories/CompactProofs.v
theories/TxnProofs.v
theories/TxnWitness.v
theories/P_Txn.v
theories/Watch.v
theories/Poller.v
theories/PollerProofs.v
theories/PollerWitness.v
theories/P_Poller.v
theories/P_Channel.v
theories/Busy.v
theories/BusyProofs.v
theories/P_Busy.v
theories/Demo.v
theories/RepairProofs.v
theories/P_Store.v
theories/ReadWitness.v
theories/P_Read.v
theories/CompactWitness.v
theories/P_Compact.v
theories/WatchLemmas.v
theories/WatchProofs.v
theories/WatchResults.v
theories/WatchWitness.v
theories/P_Watch.v
theories/Stream.v
theories/StreamProofs.v
theories/StreamCancel.v
theories/StreamWitness.v
theories/P_Stream.v
theories/Ttl.v
theories/TtlProofs.v
theories/TtlLive.v
theories/TtlWitness.v
theories/P_Ttl.v
theories/Batch.v
theories/BatchProofs.v
theories/P_Batch.v
theories/Prepared.v
theories/PreparedProofs.v
theories/P_Prepared.v
theories/Schema.v
theories/SchemaProofs.v
theories/P_Schema.v
theories/Server.v
theories/ServerProofs.v
theories/LifeProofs.v
theories/P_Server.v
theories/Client.v
theories/ClientProofs.v
theories/ClientMore.v
theories/KvWire.v
theories/KvWireProofs.v
theories/P_KvWire.v
theories/CompactRunProofs.v
theories/Compactor.v
theories/CompactorProofs.v
theories/P_Compactor.v
theories/P_CompactRun.v
theories/Migrate.v
theories/MigrateProofs.v
theories/P_Client.v
theories/P_Migrate.v
theories/Misc.v
theories/MiscProofs.v
theories/P_Misc.v
theories/Ledger.v
theories/LedgerLemmas.v
theories/LedgerProofs.v
theories/LedgerMore.v
theories/LedgerReads.v
theories/LedgerWitness.v
theories/P_Ledger.v
theories/DriverCompact.v
theories/P_Driver.v
theories/Reflector.v
theories/ReflectorProofs.v
theories/P_Reflector.v
theories/BatchKine.v
theories/BatchKineProofs.v
theories/P_BatchKine.v
theories/Node.v
theories/NodeProofs.v
theories/P_Node.v
theories/Fair.v
theories/FairProofs.v
theories/P_Fair.v
theories/ConnPool.v
theories/ConnPoolProofs.v
theories/P_ConnPool.v
theories/WorkProofs.v
theories/P_Work.v
theories/SizeProofs.v
theories/P_Size.v
theories/Resume.v
theories/ResumeProofs.v
theories/P_Resume.v
theories/Lease.v
theories/LeaseProofs.v
theories/P_Lease.v
theories/Run.v
theories/RunProofs.v
theories/P_Run.v
theories/Wire.v
theories/StreamMore.v
theories/GroupLife.v
theories/GroupLifeProofs.v
theories/WireProofs.v
theories/P_Wire.v
theories/SqlLang.v
theories/SqlText.v
theories/SqlRep.v
theories/SqlTextProofs.v
theories/SqlTextWrites.v
theories/SqlDriver.v
theories/SqlDriverProofs.v
theories/P_SqlText.v
theories/Shown.v
theories/LedgerValues.v
theories/P_Values.v
theories/Whole.v
theories/WholeProofs.v
theories/WholeResults.v
theories/P_Whole.v
theories/FairWatch.v
theories/FairWatchProofs.v
theories/P_FairWatch.v
theories/FairTtl.v
theories/FairTtlProofs.v
theories/P_FairTtl.v
theories/FairCreateProofs.v
theories/P_FairCreate.v
theories/Intervals.v
theories/P_Intervals.v
theories/Rpc.v
theories/RpcProofs.v
theories/P_Rpc.v
theories/Halt.v
theories/HaltProofs.v
theories/HaltWitness.v
theories/P_Halt.v
theories/Metrics.v
theories/MetricsProofs.v
theories/P_Metrics.v
theories/Cluster.v
theories/ClusterProofs.v
theories/ClusterView.v
theories/ClusterResults.v
theories/ClusterWitness.v
theories/P_Cluster.v
theories/GroupPublish.v
theories/P_Publish.v
theories/ExpireProofs.v
theories/ClusterExpire.v
theories/P_Expire.v
theories/Calm.v
theories/CalmProofs.v
theories/P_Calm.v
theories/ClusterFair.v
theories/Metered.v
theories/MeteredProofs.v
theories/P_Metered.v
theories/ClusterFairProofs.v
theories/P_ClusterFair.v
theories/ClusterHearProofs.v
theories/P_ClusterHear.v
theories/ClusterWatchProofs.v
theories/P_ClusterWatch.v
theories/WatchStartProofs.v
theories/P_WatchStart.v
theories/ConvergeProofs.v
theories/P_Converge.v
theories/ClusterCompactProofs.v
theories/P_ClusterCompact.v
theories/RefusedWatchProofs.v
theories/P_WatchRefused.v
theories/TrueRefusalProofs.v
theories/P_TrueRefusal.v
theories/ConfirmedProofs.v
theories/P_Confirmed.v
theories/Holder.v
theories/AgreeProofs.v
theories/P_Agree.v
