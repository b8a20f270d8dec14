-Q theories Verif
theories/Bytes.v
theories/DataModel.v
theories/CodecModel.v
theories/CodecProofs.v
theories/CodecInv.v
theories/CodecProps.v
theories/GnsCodecModel.v
theories/GnsCodecProofs.v
theories/GnsCodecProps.v
theories/HeaderModel.v
theories/HeaderProofs.v
theories/HeaderProps.v
theories/CrcModel.v
theories/CrcProofs.v
theories/WriterModel.v
theories/WriterProofs.v
theories/WriterProps.v
theories/JournalModel.v
theories/JournalProofs.v
theories/JournalLog.v
theories/JournalProps.v
theories/NumModel.v
theories/NumProofs.v
theories/NetModel.v
theories/NetProofs.v
theories/NetProps.v
theories/AMap.v
theories/DictModel.v
theories/DictProofs.v
theories/DictProps.v
theories/TypeModel.v
theories/TypeProofs.v
theories/TypeProps.v
theories/GnsModel.v
theories/GnsProofs.v
theories/GnsHist.v
theories/GnsProps.v
theories/RowModel.v
theories/RowSpec.v
theories/RowProofs.v
theories/RowTable.v
theories/RowUpd.v
theories/RowAlter.v
theories/RowLemmas.v
theories/RowProps.v
theories/BatchModel.v
theories/BatchProofs.v
theories/BatchTable.v
theories/BatchCrash.v
theories/BatchProps.v
theories/LexModel.v
theories/LexSpec.v
theories/LexProofs.v
theories/LexProps.v
theories/ParseModel.v
theories/ParseSpec.v
theories/ParseProofs.v
theories/ParseSel.v
theories/ParseIns.v
theories/ParseProps.v
theories/DdlModel.v
theories/DdlSpec.v
theories/DdlProofs.v
theories/DdlStmt.v
theories/DdlAll.v
theories/DdlProps.v
theories/ExecModel.v
theories/ExecProps.v
theories/InspectModel.v
theories/JsonSpec.v
theories/InspectProofs.v
theories/InspectReach.v
theories/InspectProps.v
theories/PathModel.v
theories/PathProps.v
theories/HealthModel.v
theories/HealthProps.v
theories/LockModel.v
theories/LockProofs.v
theories/LockProps.v
theories/StordModel.v
theories/StordSpec.v
theories/StordProofs.v
theories/StordProps.v
theories/QueueModel.v
theories/QueueSpec.v
theories/QueueProofs.v
theories/QueueLive.v
theories/QueueProps.v
theories/MtModel.v
theories/MtSpec.v
theories/MtProofs.v
theories/MtProps.v
theories/EffSpec.v
theories/EffProofs.v
theories/EffProps.v
theories/ChtModel.v
theories/ChtSpec.v
theories/ChtHeap.v
theories/ChtMap.v
theories/ChtRel.v
theories/ChtSim.v
theories/ChtSteps.v
theories/ChtScan.v
theories/ChtCount.v
theories/ChtProps.v
theories/BatchCodec.v
theories/Utf8.v
theories/BatchLog.v
theories/BatchLogProps.v
theories/ConfigModel.v
theories/ConfigSpec.v
theories/ConfigProofs.v
theories/ConfigProps.v
theories/V1Model.v
theories/V1Spec.v
theories/V1LogProofs.v
theories/V1LogProps.v
theories/V1FileProofs.v
theories/UpgradeModel.v
theories/UpgradeSpec.v
theories/UpgradeProofs.v
theories/UpgradeNs.v
theories/V1FileProps.v
theories/UpgradeLoad.v
theories/UpgradeSteps.v
theories/UpgradeNew.v
theories/UpgradeLater.v
theories/UpgradeProps.v
theories/ShellModel.v
theories/ShellSpec.v
theories/ShellProofs.v
theories/ShellProps.v
theories/PrintModel.v
theories/PrintSpec.v
theories/PrintProofs.v
theories/PrintProps.v
theories/KeyModel.v
theories/KeySpec.v
theories/KeyProofs.v
theories/KeyProps.v
theories/CostModel.v
theories/CostProofs.v
theories/CostProps.v
theories/VecModel.v
theories/VecSpec.v
theories/VecProofs.v
theories/VecProps.v
theories/RcModel.v
theories/RcProofs.v
theories/RcProps.v
theories/NameModel.v
theories/NameSpec.v
theories/NameProofs.v
theories/NameLoad.v
theories/NameOwn.v
theories/NameProps.v
theories/OwnModel.v
theories/OwnSpec.v
theories/OwnProofs.v
theories/OwnSteps.v
theories/OwnProps.v
theories/UbSpec.v
theories/UbProofs.v
theories/UbProps.v
theories/ShutModel.v
theories/ShutSpec.v
theories/ShutProofs.v
theories/ShutProps.v
theories/ReplayProps.v
theories/TimerModel.v
theories/TimerSpec.v
theories/TimerProofs.v
theories/TimerProps.v
theories/PidModel.v
theories/PidProps.v
theories/ListenModel.v
theories/ListenProps.v
theories/FixedModel.v
theories/FixedProps.v
theories/BenchModel.v
theories/BenchSpec.v
theories/BenchProofs.v
theories/BenchProps.v
theories/ArgsModel.v
theories/ArgsProps.v
theories/WholeModel.v
theories/WholeSpec.v
theories/WholeProofs.v
theories/WholeSteps.v
theories/WholeInv.v
theories/WholeDdl.v
theories/WholeHist.v
theories/WholeFrame.v
theories/WholeProps.v
theories/WireModel.v
theories/WireSpec.v
theories/WireProofs.v
theories/WirePerform.v
theories/WireLogin.v
theories/WireProps.v
theories/WireBack.v
theories/WireBackProps.v
theories/TightProps.v
theories/WireInspect.v
theories/WireInspectProps.v
theories/WireTableProps.v
theories/CrashProps.v
theories/WirePathProps.v
theories/PendModel.v
theories/PendProps.v
theories/ConcModel.v
theories/ConcSpec.v
theories/ConcProofs.v
theories/ConcScan.v
theories/ConcDisk.v
theories/ConcFile.v
theories/ConcProps.v
theories/WireStayProps.v
theories/ConcLiveProps.v
theories/ReplModel.v
theories/ReplProofs.v
theories/ReplProps.v
theories/BenchArgsModel.v
theories/BenchArgsProps.v
theories/BenchRunModel.v
theories/BenchRunProps.v
theories/BenchReportModel.v
theories/BenchReportProps.v
theories/StartMsgModel.v
theories/StartMsgProps.v
theories/CfgMsgModel.v
theories/CfgMsgProps.v
