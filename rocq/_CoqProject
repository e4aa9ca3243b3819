-Q theories Verif

theories/Bytes.v
theories/SerModel.v
theories/SerSpec.v
theories/SerProofs.v
theories/SerProofs2.v
theories/SerProofs3.v
theories/SerProofs4.v
theories/SerProofs5.v
theories/SerProps.v
theories/IpcModel.v
theories/NetModel.v
theories/IpcSpec.v
theories/IpcProofs.v
theories/NetProofs.v
theories/IpcProps.v
theories/IdModel.v
theories/IdSpec.v
theories/IdProofs.v
theories/IdProps.v
theories/Amap.v
theories/CsTypes.v
theories/ProvModel.v
theories/ProvSpec.v
theories/ProvProofs.v
theories/ProvProofs2.v
theories/ProvProofs3.v
theories/ProvProofs4.v
theories/ProvRace.v
theories/ProvProps.v
theories/ProvProps2.v
theories/ListUtil.v
theories/ReqModel.v
theories/ReqSpec.v
theories/ReqProofs.v
theories/ReqInv.v
theories/ReqIds.v
theories/ReqOnce.v
theories/ReqDeliver.v
theories/ReqDeliver2.v
theories/ReqGone.v
theories/ReqGone2.v
theories/ReqAbort.v
theories/ReqSubs.v
theories/ReqSubs2.v
theories/ReqSerSpec.v
theories/ReqSerial.v
theories/ReqSerial2.v
theories/ReqCache.v
theories/ReqObsSpec.v
theories/ReqObs.v
theories/ReqSyncSpec.v
theories/ReqSync.v
theories/ReqSync2.v
theories/ReqFail.v
theories/ReqProps.v
theories/ReqSpec2.v
theories/ReqCourse.v
theories/ReqProps2.v
theories/QueueModel.v
theories/QueueSpec.v
theories/QueueProofs.v
theories/QueueProofs2.v
theories/QueueProofs3.v
theories/QueueProofs4.v
theories/QueueProps.v
theories/SigModel.v
theories/SigSpec.v
theories/SigProofs.v
theories/SigProofs2.v
theories/SigProofs3.v
theories/SigProofs4.v
theories/SigProofs5.v
theories/SigProofs6.v
theories/SigProofs7.v
theories/SigProofs8.v
theories/SigProofs9.v
theories/SigProofs10.v
theories/SigProps.v
theories/SigProps2.v
theories/ObsModel.v
theories/ObsSpec.v
theories/ObsProofs.v
theories/ObsProofs2.v
theories/ObsProofs3.v
theories/ObsProofs4.v
theories/ObsProofs5.v
theories/ObsProofs6.v
theories/ObsProofs7.v
theories/ObsProofs8.v
theories/ObsProps.v
theories/ObsProps2.v
theories/CompModel.v
theories/CompProofs.v
theories/CompProps.v
theories/TimerModel.v
theories/TimerSpec.v
theories/TimerProofs.v
theories/TimerProofs2.v
theories/TimerProofs3.v
theories/TimerProofs4.v
theories/TimerProps.v
theories/ProcModel.v
theories/ProcSpec.v
theories/ProcProofs.v
theories/ProcProofs2.v
theories/ProcProofs3.v
theories/ProcProofs4.v
theories/ProcProofs5.v
theories/ProcProofs6.v
theories/ProcProofs7.v
theories/ProcProofs8.v
theories/ProcProofs9.v
theories/ProcProofs10.v
theories/ProcProofs11.v
theories/ProcProofs12.v
theories/ProcProofs13.v
theories/ProcProofs14.v
theories/ProcProofs15.v
theories/ProcProofs16.v
theories/ProcProofs17.v
theories/ProcProofs18.v
theories/ProcProofs19.v
theories/ProcProofs20.v
theories/ProcProofs21.v
theories/ProcProofs22.v
theories/ProcProofs23.v
theories/ProcProofs24.v
theories/ProcProofs25.v
theories/ProcProofs26.v
theories/ProcProofs27.v
theories/ProcProofs28.v
theories/ProcProofs29.v
theories/ProcProofs30.v
theories/ProcProps.v
theories/ProcSpec2.v
theories/ProcProofs31.v
theories/ProcProofs32.v
theories/ProcProofs33.v
theories/ProcProofs34.v
theories/ProcProofs35.v
theories/ProcProofs36.v
theories/ProcProofs37.v
theories/ProcProofs38.v
theories/ProcProofs39.v
theories/ProcProofs40.v
theories/ProcProps2.v
theories/PoolModel.v
theories/PoolSpec.v
theories/PoolProofs.v
theories/PoolProofs2.v
theories/PoolProofs3.v
theories/PoolProofs4.v
theories/PoolProofs5.v
theories/PoolProps.v
theories/PoolProofs6.v
theories/PoolProofs7.v
theories/PoolProofs8.v
theories/PoolProps2.v
theories/RouteModel.v
theories/RouteSpec.v
theories/RouteProofs.v
theories/RouteProofs2.v
theories/RouteProofs3.v
theories/RouteProofs4.v
theories/RouteProofs5.v
theories/RouteProofs6.v
theories/RouteProofs7.v
theories/RouteProofs8.v
theories/RouteProofs9.v
theories/RouteProps.v
theories/RouteSpec2.v
theories/RouteProofs10.v
theories/RouteProps2.v
theories/SrvModel.v
theories/SrvSpec.v
theories/SrvProofs.v
theories/SrvProofs2.v
theories/SrvProofs3.v
theories/SrvProofs4.v
theories/SrvProofs5.v
theories/SrvProps.v
theories/SrvSpec2.v
theories/SrvProofs6.v
theories/SrvProofs7.v
theories/SrvProofs8.v
theories/SrvProps2.v
theories/CliModel.v
theories/CliSpec.v
theories/CliProofs.v
theories/CliProofs2.v
theories/CliProofs3.v
theories/CliProofs4.v
theories/CliProps.v
theories/CliSpec2.v
theories/CliProofs5.v
theories/CliProofs6.v
theories/CliProofs7.v
theories/CliProps2.v
theories/CsProps.v
theories/E2eSpec.v
theories/E2eProofs.v
theories/E2eProofs2.v
theories/E2eProps.v
theories/StubModel.v
theories/StubSpec.v
theories/StubProofs.v
theories/StubProofs2.v
theories/StubProofs3.v
theories/StubProofs4.v
theories/StubProofs5.v
theories/StubProps.v
theories/ProxyModel.v
theories/ProxySpec.v
theories/ProxyProofs.v
theories/ProxyProofs2.v
theories/ProxyProofs3.v
theories/ProxyProofs4.v
theories/ProxyProps.v
theories/WaitModel.v
theories/WaitSpec.v
theories/WaitProofs.v
theories/WaitProps.v
theories/SyncModel.v
theories/SyncSpec.v
theories/SyncProofs.v
theories/SyncProofs2.v
theories/SyncProofs3.v
theories/SyncProps.v
theories/FacModel.v
theories/FacSpec.v
theories/FacProofs.v
theories/FacProofs2.v
theories/FacProofs3.v
theories/FacProofs4.v
theories/FacProofs5.v
theories/FacProofs6.v
theories/FacProps.v
theories/FutModel.v
theories/FutSpec.v
theories/FutProofs.v
theories/FutProofs2.v
theories/FutProofs3.v
theories/FutProofs4.v
theories/FutProofs5.v
theories/FutProofs6.v
theories/FutProps.v
theories/ExecModel.v
theories/ExecSpec.v
theories/ExecProofs.v
theories/ExecProofs2.v
theories/ExecProofs3.v
theories/ExecProofs4.v
theories/ExecProofs5.v
theories/ExecProps.v
theories/AsyncModel.v
theories/AsyncSpec.v
theories/AsyncProofs.v
theories/AsyncProofs2.v
theories/AsyncProofs3.v
theories/AsyncProofs4.v
theories/AsyncProofs5.v
theories/AsyncProofs6.v
theories/AsyncProofs7.v
theories/AsyncProps.v
theories/ChainModel.v
theories/ChainSpec.v
theories/ChainProps.v
