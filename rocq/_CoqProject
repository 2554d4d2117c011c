-Q theories Verif
theories/Prog.v
theories/ProgProofs.v
theories/HashRing.v
theories/HashRingSpec.v
theories/HashRingProofs.v
theories/HashRingConc.v
theories/HashRingProps.v
theories/Types.v
theories/Codec.v
theories/CodecSpec.v
theories/CodecProofs.v
theories/CodecProps.v
theories/CodecValid.v
theories/Mailbox.v
theories/MailboxSpec.v
theories/MailboxProofs.v
theories/MailboxProps.v
theories/World.v
theories/ProcApi.v
theories/NodeApi.v
theories/Api.v
theories/ProgInv.v
theories/Steps.v
theories/Hist.v
theories/SchedSpec.v
theories/Msum.v
theories/SchedProofs.v
theories/DownProofs.v
theories/AliasProofs.v
theories/RecvProofs.v
theories/Labels.v
theories/ProcSpec.v
theories/ProcProofs.v
theories/ProcInv.v
theories/FreshProofs.v
theories/MonProofs.v
theories/MonLife.v
theories/LinkProofs.v
theories/Play.v
theories/SchedProps.v
theories/RegProofs.v
theories/RegLife.v
theories/NameProofs.v
theories/LiveProofs.v
theories/LifeProps.v
theories/ProcProps.v
theories/SendSpec.v
theories/SendProofs.v
theories/SendProps.v
theories/TimerSpec.v
theories/TimerProofs.v
theories/TimerProps.v
theories/NetSpec.v
theories/NetProofs.v
theories/NetExit.v
theories/NetFrames.v
theories/RMonProofs.v
theories/NetLife.v
theories/Persist.v
theories/ConnProofs.v
theories/ConnLasts.v
theories/AllocProofs.v
theories/ConnProps.v
theories/RaceProps.v
theories/RemoteProps.v
theories/Wire.v
theories/WireProps.v
theories/Sha.v
theories/Hello.v
theories/HelloProofs.v
theories/AddrProofs.v
theories/HelloProps.v
theories/Super.v
theories/SuperSpec.v
theories/SuperProofs.v
theories/SuperTerm.v
theories/SuperHandle.v
theories/SuperMoves.v
theories/SuperProps.v
theories/SuperLife.v
theories/SuperLifeProps.v
theories/Registry.v
theories/RegistrySpec.v
theories/RegistryProofs.v
theories/RegistryInv.v
theories/RegistryProps.v
theories/GenServer.v
theories/GenServerSpec.v
theories/GenServerProps.v
theories/GenStartProps.v
theories/Loop.v
theories/Application.v
theories/AppSpec.v
theories/AppProps.v
theories/Options.v
theories/OptionsProps.v
theories/Misc.v
theories/MiscProps.v
theories/Semaphore.v
theories/SemaphoreProps.v
theories/Websocket.v
theories/WebsocketSpec.v
theories/WebsocketProps.v
theories/Client.v
theories/ClientSpec.v
theories/ClientStep.v
theories/ClientRun.v
theories/ClientNode.v
theories/ClientFlush.v
theories/ClientMail.v
theories/ClientCall.v
theories/ClientTalk.v
theories/ClientGen.v
theories/ClientProps.v
theories/Path.v
theories/TruthSpec.v
theories/TruthProofs.v
theories/OriginSpec.v
theories/OriginProofs.v
theories/TruthProps.v
theories/Own.v
theories/OrderSpec.v
theories/OrderProofs.v
theories/OrderProps.v
theories/Once.v
theories/NoticeSpec.v
theories/NoticeProofs.v
theories/NoticeProps.v
theories/LateSpec.v
theories/LateProofs.v
theories/LateProps.v
theories/Heart.v
theories/HeartSpec.v
theories/HeartProofs.v
theories/HeartTime.v
theories/HeartProps.v
theories/FifoSpec.v
theories/FifoProofs.v
theories/FifoFrames.v
theories/FifoProps.v
theories/Debt.v
theories/TieSpec.v
theories/TieProofs.v
theories/TieProps.v
theories/WatchProofs.v
theories/WatchProps.v
theories/LocalSend.v
theories/LocalSendProps.v
theories/RWatchProofs.v
theories/OwnerProofs.v
theories/RWatchProps.v
theories/LinkOwner.v
theories/RLinkProofs.v
theories/RLinkProps.v
theories/Kernel.v
theories/KernelProps.v
theories/Macros.v
theories/MacrosProps.v
theories/Locks.v
theories/LocksProofs.v
theories/LocksProps.v
theories/NodeText.v
theories/NodeTextProps.v
theories/CodecStream.v
theories/MsgPack.v
theories/MsgPackSpec.v
theories/MsgPackProofs.v
theories/MsgPackProps.v
theories/ReasonText.v
theories/ReasonTextProps.v
theories/ClientAlias.v
theories/ClientAliasProps.v
theories/MsgPackRead.v
theories/MsgPackFormat.v
theories/MsgPackForward.v
theories/MsgPackSerde.v
theories/KeepSpec.v
theories/KeepProofs.v
theories/KeepProps.v
theories/AliasGone.v
theories/AliasOnce.v
