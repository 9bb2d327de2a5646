-Q theories Verif
theories/Base.v
theories/BitSpec.v
theories/BitmapModel.v
theories/BitmapProofs.v
theories/BitmapProps.v
theories/IdModel.v
theories/IdProofs.v
theories/IdProps.v
theories/WireModel.v
theories/WireSpec.v
theories/WireProofs.v
theories/WireProps.v
theories/LinkModel.v
theories/LinkSpec.v
theories/LinkProps.v
theories/Assoc.v
theories/PendingModel.v
theories/PendingSpec.v
theories/PendingProofs.v
theories/PendingProps.v
theories/DuplicateProps.v
theories/ArrivalProps.v
theories/RequestSpec.v
theories/RequestProps.v
theories/PeersModel.v
theories/PeersSpec.v
theories/PeersProofs.v
theories/PeersProps.v
theories/PeersHistoryProps.v
theories/ManagerModel.v
theories/ManagerSpec.v
theories/ManagerProofs.v
theories/ManagerProofs2.v
theories/ManagerProps.v
theories/ManagerHistoryProps.v
theories/AvailabilityProps.v
theories/FsModel.v
theories/FsSpec.v
theories/FsProofs.v
theories/FsProps.v
theories/CacheModel.v
theories/CacheProps.v
theories/FileModel.v
theories/FileSpec.v
theories/FileProofs.v
theories/FileProps.v
theories/DirsModel.v
theories/DirsProps.v
theories/EscapeProps.v
theories/TableModel.v
theories/TableSpec.v
theories/TableProofs.v
theories/TableProofs2.v
theories/TableProps.v
theories/LookupProps.v
theories/StoreProps.v
theories/BencodeModel.v
theories/BencodeSpec.v
theories/BencodeProofs.v
theories/BencodeProps.v
theories/KrpcModel.v
theories/Utf8Spec.v
theories/Utf8Proofs.v
theories/KrpcSpec.v
theories/KrpcProofs.v
theories/KrpcProps.v
theories/DhtModel.v
theories/DhtSpec.v
theories/DhtProps.v
theories/CrashSpec.v
theories/CrashProps.v
theories/DhtMgrModel.v
theories/DhtMgrSpec.v
theories/DhtMgrProps.v
theories/FetchModel.v
theories/FetchSpec.v
theories/FetchProps.v
theories/TaskModel.v
theories/TaskProps.v
theories/TrackerModel.v
theories/TrackerSpec.v
theories/AnnounceProps.v
theories/DictProofs.v
theories/ResponseProps.v
theories/SessionProps.v
theories/RateSpec.v
theories/RateProps.v
theories/MetainfoModel.v
theories/MetainfoSpec.v
theories/MetainfoProps.v
theories/ConsistencyProps.v
theories/ShutdownModel.v
theories/ShutdownSpec.v
theories/ShutdownProps.v
theories/IntervalModel.v
theories/IntervalSpec.v
theories/IntervalProps.v
theories/ConnModel.v
theories/ConnSpec.v
theories/ConnProps.v
theories/DhtSysModel.v
theories/DhtSysSpec.v
theories/DhtSysProps.v
theories/HoldUpProps.v
theories/ReplyProps.v
theories/DhtRouteSpec.v
theories/DhtRouteProps.v
theories/DhtAskSpec.v
theories/DhtAskProps.v
theories/DhtEndProps.v
theories/ClientModel.v
theories/ClientSpec.v
theories/ClientProps.v
theories/ClientInvProps.v
theories/ClientOriginProps.v
theories/ClientSlotProps.v
theories/ClientEndProps.v
theories/StartModel.v
theories/ReportSpec.v
theories/ReportProps.v
theories/TorrentModel.v
theories/TorrentSpec.v
theories/TorrentProps.v
theories/TorrentExactProps.v
theories/SpareModel.v
theories/SpareProps.v
theories/WholeProps.v
theories/FatalProps.v
theories/RecvProps.v
theories/EdgeProps.v
theories/UrlProps.v
theories/AnswerProps.v
theories/ReadSpec.v
theories/ReadProps.v
theories/LoadProps.v
theories/BufferProps.v
theories/ForgetProps.v
theories/ExactProps.v
theories/MemModel.v
theories/MemProps.v
theories/DiagModel.v
theories/DiagProps.v
theories/CleanModel.v
theories/CleanProps.v
theories/TakeProps.v
theories/SpreadProps.v
theories/RoundProps.v
theories/NetModel.v
theories/NetSpec.v
theories/NetProofs.v
theories/NetProps.v
theories/SaidProps.v
theories/CancelProps.v
theories/NetSafeProps.v
theories/DhtLifeProps.v
theories/PingFirstProps.v
theories/NetMeetProps.v
theories/NetFindProps.v
theories/NetBootProps.v
theories/NetWalkProps.v
theories/SpareExactProps.v
theories/ClientPickProps.v
theories/RequestExactProps.v
theories/NetTalkProps.v
theories/ClientDhtProps.v
theories/ConnEndProps.v
theories/ClientFatalProps.v
theories/BlockExactProps.v
theories/ServedProps.v
theories/SearchLockProps.v
theories/HoldUpExactProps.v
theories/BusyProps.v
theories/EventProps.v
theories/TurnProps.v
theories/ExampleProps.v
theories/TickProps.v
theories/QueueProps.v
theories/OpenProps.v
theories/LiftProps.v
theories/OnceProps.v
