-Q theories Verif
theories/Model/Acceptor.v
theories/Model/Accumulator.v
theories/Model/Base64.v
theories/Model/Bloom.v
theories/Model/BoolIndex.v
theories/Model/ByteOrder.v
theories/Model/Bytes.v
theories/Model/ClientChan.v
theories/Model/ClientPool.v
theories/Model/CoSync.v
theories/Model/CoTasks.v
theories/Model/Common.v
theories/Model/Coro.v
theories/Model/CountMin.v
theories/Model/Decimal.v
theories/Model/DelayTask.v
theories/Model/FdEvents.v
theories/Model/FreeList.v
theories/Model/Gzip.v
theories/Model/H2Conn.v
theories/Model/H2Token.v
theories/Model/Http.v
theories/Model/HttpConn.v
theories/Model/HttpCtx.v
theories/Model/IOBuffer.v
theories/Model/IOService.v
theories/Model/InvIndex.v
theories/Model/IoWait.v
theories/Model/IpAddress.v
theories/Model/Itoa.v
theories/Model/LineCodec.v
theories/Model/Lists.v
theories/Model/LoadBalance.v
theories/Model/LogMetrics.v
theories/Model/LoopLife.v
theories/Model/Lru.v
theories/Model/Maglev1.v
theories/Model/MsgLoop.v
theories/Model/Mysql.v
theories/Model/Numerics.v
theories/Model/PrTime.v
theories/Model/Rand.v
theories/Model/RawCodec.v
theories/Model/RawCtx.v
theories/Model/RedisInit.v
theories/Model/RefPtr.v
theories/Model/RepTimer.v
theories/Model/Resp.v
theories/Model/Serving.v
theories/Model/SourceLoad.v
theories/Model/StrUtil.v
theories/Model/StringView.v
theories/Model/Sync.v
theories/Model/TaskReply.v
theories/Model/TcpChannel.v
theories/Model/TimeDelta.v
theories/Model/TimeWheel.v
theories/Model/TimerQueue.v
theories/Model/TlsChannel.v
theories/Model/TlsCtx.v
theories/Model/UdpService.v
theories/Model/UrlParser.v
theories/Model/UrlUtils.v
theories/Model/Websocket.v
theories/Model/WsClientLife.v
theories/Model/WsConn.v
theories/Proofs/AccProofs.v
theories/Proofs/AcceptProofs.v
theories/Proofs/Base64Proofs.v
theories/Proofs/BloomProofs.v
theories/Proofs/BoolBuild.v
theories/Proofs/BoolIds.v
theories/Proofs/BoolScan.v
theories/Proofs/ByteOrderProofs.v
theories/Proofs/BytesProofs.v
theories/Proofs/Calendar.v
theories/Proofs/ClientProofs.v
theories/Proofs/CoSyncProofs.v
theories/Proofs/CoTasksProofs.v
theories/Proofs/CoTasksProofs2.v
theories/Proofs/CoTasksProofs3.v
theories/Proofs/CoTasksProofs4.v
theories/Proofs/CoroProofs.v
theories/Proofs/CountMinProofs.v
theories/Proofs/DListProofs.v
theories/Proofs/DecimalProofs.v
theories/Proofs/DelayProofs.v
theories/Proofs/FdProofs.v
theories/Proofs/FreeListDcasProofs.v
theories/Proofs/FreeListProofs.v
theories/Proofs/GzipProofs.v
theories/Proofs/GzipProofs2.v
theories/Proofs/H2Proofs.v
theories/Proofs/H2Proofs2.v
theories/Proofs/H2Proofs3.v
theories/Proofs/H2Proofs4.v
theories/Proofs/HttpConnProofs.v
theories/Proofs/HttpConnProofs2.v
theories/Proofs/HttpConnProofs3.v
theories/Proofs/HttpConnProofs4.v
theories/Proofs/HttpCtxProofs.v
theories/Proofs/HttpDefaults.v
theories/Proofs/HttpHeaders.v
theories/Proofs/HttpParse.v
theories/Proofs/HttpSend.v
theories/Proofs/HttpWire.v
theories/Proofs/IOBufferProofs.v
theories/Proofs/IOServiceProofs.v
theories/Proofs/InvIndexProofs.v
theories/Proofs/InvIndexProofs2.v
theories/Proofs/InvIndexProofs3.v
theories/Proofs/InvIndexProofs4.v
theories/Proofs/InvIndexProofs5.v
theories/Proofs/IoWaitProofs.v
theories/Proofs/IpProofs.v
theories/Proofs/IpProofs2.v
theories/Proofs/IpProofs3.v
theories/Proofs/ItoaProofs.v
theories/Proofs/LineProofs.v
theories/Proofs/ListProofs.v
theories/Proofs/LoadProofs.v
theories/Proofs/LoopLifeProofs.v
theories/Proofs/LoopProofs.v
theories/Proofs/LruProofs.v
theories/Proofs/Maglev1Proofs.v
theories/Proofs/MaglevProofs.v
theories/Proofs/MetricsProofs.v
theories/Proofs/MetricsProofs2.v
theories/Proofs/MetricsProofs3.v
theories/Proofs/MysqlProofs.v
theories/Proofs/NumProofs.v
theories/Proofs/NumProofs2.v
theories/Proofs/NumProofs3.v
theories/Proofs/NumProofs4.v
theories/Proofs/NumProofs5.v
theories/Proofs/PoolBounds.v
theories/Proofs/PoolProofs.v
theories/Proofs/PrTimeProofs.v
theories/Proofs/PrTimeProofs2.v
theories/Proofs/PrTimeProofs3.v
theories/Proofs/PrTimeProofs4.v
theories/Proofs/PrTimeProofs5.v
theories/Proofs/QueuedProofs.v
theories/Proofs/RandProofs.v
theories/Proofs/RawCtxProofs.v
theories/Proofs/RawProofs.v
theories/Proofs/RedisInitProofs.v
theories/Proofs/RefPtrProofs.v
theories/Proofs/RepTimerProofs.v
theories/Proofs/ReplyProofs.v
theories/Proofs/RespProofs.v
theories/Proofs/RespRound.v
theories/Proofs/RespSvc.v
theories/Proofs/RingProofs.v
theories/Proofs/ServeProofs.v
theories/Proofs/StrProofs.v
theories/Proofs/StringViewProofs.v
theories/Proofs/SyncProofs.v
theories/Proofs/Tac.v
theories/Proofs/TcpProofs.v
theories/Proofs/TimeProofs.v
theories/Proofs/TimeProofs2.v
theories/Proofs/TimeProofs3.v
theories/Proofs/TimerQueueProofs.v
theories/Proofs/TimerQueueProofs2.v
theories/Proofs/TimerQueueProofs3.v
theories/Proofs/TimerTab.v
theories/Proofs/TlsProofs.v
theories/Proofs/TlsProofs2.v
theories/Proofs/TlsProofs3.v
theories/Proofs/UdpProofs.v
theories/Proofs/UrlParserProofs.v
theories/Proofs/UrlProofs.v
theories/Proofs/WheelBits.v
theories/Proofs/WheelProofs.v
theories/Proofs/WheelSleep.v
theories/Proofs/WsBuildProofs.v
theories/Proofs/WsClientLifeProofs.v
theories/Proofs/WsConnProofs.v
theories/Proofs/WsConnProofs2.v
theories/Proofs/WsConnProofs3.v
theories/Proofs/WsProofs.v
theories/Properties/C01_C02_IOBuffer.v
theories/Properties/C03_C04_Line.v
theories/Properties/C05_C06_Raw.v
theories/Properties/C07_C10_Websocket.v
theories/Properties/C100_C107_StrUtil.v
theories/Properties/C108_C109_Url.v
theories/Properties/C110_C117_Ip.v
theories/Properties/C118_C132_Time.v
theories/Properties/C11_C13_Redis.v
theories/Properties/C133_C140_Dates.v
theories/Properties/C141_C148_HttpConn.v
theories/Properties/C149_C155_InvIndex.v
theories/Properties/C14_C16_Base.v
theories/Properties/C156_C168_Numerics.v
theories/Properties/C169_C181_WsConn.v
theories/Properties/C17_C21_Timers.v
theories/Properties/C182_C192_Metrics.v
theories/Properties/C193_C202_Tls.v
theories/Properties/C203_C210_H2.v
theories/Properties/C211_C213_IoWait.v
theories/Properties/C214_C218_TimerQueue.v
theories/Properties/C219_C220_RefPtr.v
theories/Properties/C221_C223_Reply.v
theories/Properties/C224_C232_SourceLoad.v
theories/Properties/C22_C24_Loop.v
theories/Properties/C233_C243_Convert.v
theories/Properties/C244_C253_Sockets.v
theories/Properties/C254_C262_Serving.v
theories/Properties/C25_C27_Coroutine.v
theories/Properties/C263_C271_Mysql.v
theories/Properties/C272_C274_Maglev1.v
theories/Properties/C275_C282_StringView.v
theories/Properties/C283_C286_UrlParser.v
theories/Properties/C287_C292_HttpCtx.v
theories/Properties/C28_C30_Clients.v
theories/Properties/C293_C300_CoTasks.v
theories/Properties/C301_C304_RawCtx.v
theories/Properties/C305_C306_RedisInit.v
theories/Properties/C31_Tcp.v
theories/Properties/C32_C34_Components.v
theories/Properties/C35_C37_LoadBalance.v
theories/Properties/C38_C40_BoolIndex.v
theories/Properties/C52_C54_Server.v
theories/Properties/C59_C64_Http.v
theories/Properties/C65_C68_FdEvents.v
theories/Properties/C69_C71_Sync.v
theories/Properties/C72_C74_Accumulator.v
theories/Properties/C75_HttpDefaults.v
theories/Properties/C76_C78_RepeatingTimer.v
theories/Properties/C79_C86_ClientPool.v
theories/Properties/C87_C90_Lists.v
theories/Properties/C91_C94_FreeList.v
theories/Properties/C95_C97_LoopLife.v
theories/Properties/C98_C99_DelayTask.v
theories/Spec/AccSpec.v
theories/Spec/AcceptSpec.v
theories/Spec/Base64Spec.v
theories/Spec/BoolSpec.v
theories/Spec/ByteQueue.v
theories/Spec/ClientSpec.v
theories/Spec/CoTaskSpec.v
theories/Spec/CoroSpec.v
theories/Spec/DateSpec.v
theories/Spec/DelaySpec.v
theories/Spec/FdSpec.v
theories/Spec/FreeListSpec.v
theories/Spec/GzipSpec.v
theories/Spec/H2Spec.v
theories/Spec/HttpConnSpec.v
theories/Spec/HttpCtxSpec.v
theories/Spec/HttpSpec.v
theories/Spec/InvIndexSpec.v
theories/Spec/IpSpec.v
theories/Spec/ItoaSpec.v
theories/Spec/LineSpec.v
theories/Spec/ListSpec.v
theories/Spec/LoadSpec.v
theories/Spec/LoopLifeSpec.v
theories/Spec/LoopSpec.v
theories/Spec/LruSpec.v
theories/Spec/MetricsSpec.v
theories/Spec/MysqlSpec.v
theories/Spec/NumSpec.v
theories/Spec/PoolSpec.v
theories/Spec/RandSpec.v
theories/Spec/RawCtxSpec.v
theories/Spec/RawSpec.v
theories/Spec/RedisInitSpec.v
theories/Spec/RepTimerSpec.v
theories/Spec/ReplySpec.v
theories/Spec/RespSpec.v
theories/Spec/RingSpec.v
theories/Spec/ServeSpec.v
theories/Spec/ServerSpec.v
theories/Spec/SketchSpec.v
theories/Spec/StrSpec.v
theories/Spec/StringViewSpec.v
theories/Spec/SyncSpec.v
theories/Spec/TcpSpec.v
theories/Spec/TimeSpec.v
theories/Spec/TimerSpec.v
theories/Spec/TlsSpec.v
theories/Spec/UriSpec.v
theories/Spec/UrlSpec.v
theories/Spec/WaitSpec.v
theories/Spec/WsConnSpec.v
theories/Spec/WsSpec.v
