-Q theories Verif
theories/GoBase.v
theories/Strconv.v
theories/BencTypes.v
theories/BencFields.v
theories/BencEncode.v
theories/BencDecode.v
theories/BencSpec.v
theories/GoBaseProofs.v
theories/StrconvProofs.v
theories/Bitfield.v
theories/BitfieldSpec.v
theories/BitfieldProofs.v
theories/PropBitfield.v
theories/BencSpecProofs.v
theories/BencConsumeProofs.v
theories/BencDecodeEqs.v
theories/BencDecodeProofs.v
theories/BencFieldSpec.v
theories/BencFieldsProofs.v
theories/BencResolveProofs.v
theories/BencFuelProofs.v
theories/BencEncSpec.v
theories/BencEncodeProofs.v
theories/BencDepthProofs.v
theories/BencFrameProofs.v
theories/BencApiProofs.v
theories/PropBencode.v
theories/BencRoundSpec.v
theories/BencRoundProofs.v
theories/BencRoundTrip.v
theories/BencPanicSpec.v
theories/BencPanicProofs.v
theories/BencReuseSpec.v
theories/BencReuseProofs.v
theories/PropRound.v
theories/PeerWire.v
theories/PeerWireSpec.v
theories/PeerWireProofs.v
theories/PropPeer.v
theories/Metainfo.v
theories/MetainfoSpec.v
theories/MetainfoProofs.v
theories/PropMetainfo.v
theories/Url.v
theories/Magnet.v
theories/NetIP.v
theories/Tracker.v
theories/UrlSpec.v
theories/UrlProofs.v
theories/TrackerSpec.v
theories/NetIPProofs.v
theories/TrackerProofs.v
theories/Multitracker.v
theories/MultitrackerSpec.v
theories/MultitrackerProofs.v
theories/MagnetSpec.v
theories/MagnetProofs.v
theories/PropTracker.v
theories/Pex.v
theories/PexSpec.v
theories/PexProofs.v
theories/PropPex.v
theories/Fs.v
theories/Storage.v
theories/StorageSys.v
theories/StorageSpec.v
theories/StorageSysSpec.v
theories/FsProofs.v
theories/StorageFsProofs.v
theories/StorageMemSpec.v
theories/StorageIoProofs.v
theories/StorageCoalesceProofs.v
theories/StorageProofs.v
theories/StorageGetProofs.v
theories/StorageLoadProofs.v
theories/StorageSysProofs.v
theories/Requests.v
theories/StorageClaimProofs.v
theories/Future.v
theories/FutureProofs.v
theories/PropStorage.v
theories/Announce.v
theories/PropAnnounce.v
theories/GoMap.v
theories/P2PPeer.v
theories/P2PServer.v
theories/P2PServerSpec.v
theories/P2PServerProofs.v
theories/P2PSortProofs.v
theories/P2PAnnounceProofs.v
theories/P2PRegistryProofs.v
theories/P2PLockProofs.v
theories/P2PUsefulProofs.v
theories/P2POriginProofs.v
theories/P2PSoloProofs.v
theories/P2PServerThms.v
theories/PropServer.v
theories/P2PConn.v
theories/P2PConnSpec.v
theories/P2PConnProofs.v
theories/P2PAskProofs.v
theories/PropConn.v
theories/Node.v
theories/NodeSpec.v
theories/StorageMoreProofs.v
theories/NodeServerProofs.v
theories/NodeProofs.v
theories/NodeThms.v
theories/PropNode.v
theories/StorageWaitSpec.v
theories/StorageWaitProofs.v
theories/PropWait.v
theories/StorageAcceptSpec.v
theories/StorageAcceptProofs.v
theories/PropAccept.v
theories/SwarmSpec.v
theories/SwarmProofs.v
theories/PropSwarm.v
theories/StorageHealthSpec.v
theories/StorageHealthProofs.v
theories/StorageHealthSysProofs.v
theories/StorageHonestProofs.v
theories/StorageRightProofs.v
theories/PropHealth.v
theories/P2PEndSpec.v
theories/P2PEndProofs.v
theories/P2PNameProofs.v
theories/NodeErrorProofs.v
theories/PropEnd.v
theories/P2PHaveSpec.v
theories/P2PHaveProofs.v
theories/NodeWaitProofs.v
theories/PropShare.v
theories/P2PRaceSpec.v
theories/P2PRaceProofs.v
theories/P2PUnchokeSpec.v
theories/P2PUnchokeProofs.v
theories/PropRace.v
theories/StorageCountSpec.v
theories/StorageCountProofs.v
theories/NodeCount.v
theories/NodeCountSpec.v
theories/NodeCountProofs.v
theories/PropCount.v
theories/Client.v
theories/ClientSpec.v
theories/ClientProofs.v
theories/ClientPullProofs.v
theories/ClientServerProofs.v
theories/ClientAskProofs.v
theories/ClientThms.v
theories/ClientWantProofs.v
theories/PropClient.v
theories/ClientConnProofs.v
theories/ClientWireProofs.v
theories/ClientWireThms.v
theories/ClientOwnProofs.v
theories/ClientFreeProofs.v
theories/ProgressSpec.v
theories/ClientFreeThms.v
theories/ClientBytesProofs.v
theories/PropWire.v
theories/PeersSpec.v
theories/PeersProofs.v
theories/PropPeers.v
theories/PropProgress.v
theories/LazyReader.v
theories/LazyReaderSpec.v
theories/LazyReaderProofs.v
theories/LazyReaderThms.v
theories/PropReader.v
theories/StorageReloadProofs.v
theories/Lifecycle.v
theories/LifecycleSpec.v
theories/LifecycleProofs.v
theories/LifecycleThms.v
theories/PropLifecycle.v
theories/P2PAddrSpec.v
theories/P2PAddrProofs.v
theories/PropAddr.v
theories/BencStrictSpec.v
theories/BencStrictProofs.v
theories/PropStrict.v
theories/DownloadSpec.v
theories/DownloadStoreProofs.v
theories/PairSpec.v
theories/DownloadProofs.v
theories/DownloadMainProofs.v
theories/ServeProofs.v
theories/PairProofs.v
theories/PropDownload.v
theories/PropPair.v
theories/StorageTidyProofs.v
theories/PropTidy.v
theories/BencIgnoreSpec.v
theories/BencIgnoreProofs.v
theories/PropIgnore.v
theories/P2PMemProofs.v
theories/P2PLostProofs.v
theories/PropLong.v
theories/MetainfoTextSpec.v
theories/MetainfoTextProofs.v
theories/PropText.v
theories/BencPartsSpec.v
theories/BencPartsProofs.v
theories/BencWholeProofs.v
theories/PropParts.v
theories/TrackerUrl.v
theories/TrackerUrlSpec.v
theories/TrackerUrlProofs.v
theories/PropUrl.v
theories/P2POnceProofs.v
theories/ClientOnceProofs.v
theories/PropOnce.v
theories/TrackerShare.v
theories/TrackerShareSpec.v
theories/TrackerShareProofs.v
theories/PropOverlap.v
theories/PexIdSpec.v
theories/PexIdProofs.v
theories/PropIds.v
theories/P2PInterestSpec.v
theories/P2PInterestProofs.v
theories/PropInterest.v
theories/P2PTurnSpec.v
theories/P2PTurnProofs.v
theories/PropTurn.v
theories/StorageRetrySpec.v
theories/StorageRetryProofs.v
theories/PropRetry.v
theories/P2PIdleSpec.v
theories/P2PIdleProofs.v
theories/PropIdle.v
theories/PexMemSpec.v
theories/PexMemProofs.v
theories/PropForget.v
theories/StorageShare.v
theories/StorageShareSpec.v
theories/StorageShareProofs.v
theories/PropBeside.v
theories/StorageFoundSpec.v
theories/StorageFoundProofs.v
theories/PropFound.v
theories/StorageReadProofs.v
theories/PropRead.v
