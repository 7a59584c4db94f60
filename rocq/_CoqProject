-Q theories Verif
theories/Base.v
theories/BaseFacts.v
theories/IntParse.v
theories/IntSpec.v
theories/IntParseProofs.v
theories/Resp.v
theories/RespSpec.v
theories/RespProofs.v
theories/Memory.v
theories/MemorySpec.v
theories/MemoryProofs.v
theories/UtilIndex.v
theories/IndexSpec.v
theories/UtilIndexProofs.v
theories/StringC.v
theories/StringCProofs.v
theories/StringMap.v
theories/HashC.v
theories/ListSpec.v
theories/LinkedList.v
theories/LinkedListProofs.v
theories/Command.v
theories/SpecDb.v
theories/HashProofs.v
theories/RequestSpec.v
theories/CommandProofs.v
theories/IdealSpec.v
theories/Db.v
theories/DbProofs.v
theories/Engine.v
theories/EngineProofs.v
theories/SpecFacts.v
theories/StringFacts.v
theories/ListFacts.v
theories/HashSetFacts.v
theories/EngineFacts.v
theories/Utf8.v
theories/Utf8Spec.v
theories/Utf8Proofs.v
theories/Log.v
theories/LogSpec.v
theories/LogProofs.v
theories/Persist.v
theories/PersistSpec.v
theories/PersistProofs.v
theories/Replication.v
theories/ReplicationProofs.v
theories/Recovery.v
theories/RecoverySpec.v
theories/RecoveryProofs.v
theories/Lts.v
theories/Future.v
theories/FutureProofs.v
theories/DataChannel.v
theories/DataChannelProofs.v
theories/Broadcast.v
theories/BroadcastProofs.v
theories/RWLock.v
theories/RWLockProofs.v
theories/RWLockRest.v
theories/DataMap.v
theories/DataMapSpec.v
theories/DataMapProofs.v
theories/DataMapRest.v
theories/EventBus.v
theories/EventBusSpec.v
theories/EventBusProofs.v
theories/Topic.v
theories/TopicProofs.v
theories/Conn.v
theories/ConnProofs.v
theories/Props_Conn.v
theories/Client.v
theories/ClientSpec.v
theories/ClientProofs.v
theories/Props_Client.v
theories/Props_Protocol.v
theories/Props_Future.v
theories/RoomProofs.v
theories/Props_Channel.v
theories/Props_Broadcast.v
theories/Props_DataMap.v
theories/Props_Topic.v
theories/Props_Util.v
theories/Props_Strings.v
theories/Props_Lists.v
theories/Props_Hashes.v
theories/Props_Sets.v
theories/Props_Engine.v
theories/Props_Log.v
theories/Props_Replication.v
theories/Props_Recovery.v
theories/Node.v
theories/NodeSpec.v
theories/NodeProofs.v
theories/Props_Node.v
theories/ServerSpec.v
theories/Server.v
theories/ServerProofs.v
theories/ServerRuns.v
theories/ReplySpec.v
theories/ReplyProofs.v
theories/SizeSpec.v
theories/SizeProofs.v
theories/LogSizeSpec.v
theories/LogSizeProofs.v
theories/Props_Size.v
theories/MasterRestSpec.v
theories/MasterRest.v
theories/Props_MasterRest.v
theories/Quote.v
theories/QuoteSpec.v
theories/QuoteProofs.v
theories/Props_Quote.v
theories/Host.v
theories/HostSpec.v
theories/HostProofs.v
theories/Props_Host.v
theories/WireSpec.v
theories/WireProofs.v
theories/Props_Wire.v
theories/Budget.v
theories/WaitSpec.v
theories/WaitChannel.v
theories/WaitTopic.v
theories/WaitFuture.v
theories/WaitBroadcast.v
theories/WaitConn.v
theories/Flow.v
theories/FlowProofs.v
theories/FlowServer.v
theories/FlowServerProofs.v
theories/FlowAll.v
theories/Props_Flow.v
theories/LinSpec.v
theories/LinProofs.v
theories/Props_Lin.v
theories/DamageProofs.v
theories/Props_Damage.v
theories/Props_Reply.v
theories/Cli.v
theories/CliSpec.v
theories/CliProofs.v
theories/Props_Cli.v
theories/Props_Server.v
theories/StopProofs.v
theories/Props_Stop.v
theories/Process.v
theories/Start.v
theories/StartSpec.v
theories/StartProofs.v
theories/Logging.v
theories/LoggingSpec.v
theories/LoggingProofs.v
theories/Props_Logging.v
theories/ProcessProofs.v
theories/CrashProofs.v
theories/StopOrderProofs.v
theories/Props_Process.v
theories/Master.v
theories/MasterProofs.v
theories/Props_Master.v
theories/OrderSpec.v
theories/OrderProofs.v
theories/Props_Order.v
theories/RestartSpec.v
theories/RestartProofs.v
theories/Props_Restart.v
theories/SkipList.v
theories/SortedSetSpec.v
theories/SkipListProofs.v
theories/Props_SortedSet.v
theories/RestSpec.v
theories/ProgressProofs.v
theories/Counted.v
theories/CountedFacts.v
theories/BoundSpec.v
theories/BoundProofs.v
theories/RestProofs.v
theories/IdleSpec.v
theories/IdleProofs.v
theories/FuelProofs.v
theories/Props_Progress.v
theories/EndProofs.v
theories/Signals.v
theories/SignalProofs.v
theories/Props_Signals.v
theories/Props_Start.v
theories/System.v
theories/SystemSpec.v
theories/SystemProofs.v
theories/SyncProofs.v
theories/Props_System.v
theories/Props_Rest.v
theories/Props_Idle.v
theories/Timed.v
theories/TimedSpec.v
theories/TimedProofs.v
theories/Props_Timed.v
theories/Props_Memory.v
theories/Props_Wait.v
theories/DiskProofs.v
theories/Props_Disk.v
theories/Writer.v
theories/WriterSpec.v
theories/WriterProofs.v
theories/Props_Writer.v
theories/DetSpec.v
theories/DetProofs.v
theories/Props_Det.v
theories/RetrySpec.v
theories/RetryProofs.v
theories/Props_Retry.v
theories/EmptySpec.v
theories/EmptyProofs.v
theories/Props_Empty.v
theories/EachSpec.v
theories/EachProofs.v
theories/Props_Each.v
theories/UndoSpec.v
theories/UndoProofs.v
theories/Props_Undo.v
