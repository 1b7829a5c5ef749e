-Q theories Verif
theories/GoInt.v
theories/GoFloat.v
theories/GoVal.v
theories/CodecModel.v
theories/CodecSpec.v
theories/CodecApi.v
theories/CodecProof.v
theories/CodecProof2.v
theories/CodecProof3.v
theories/CodecProof4.v
theories/CodecProof5.v
theories/CodecProof6.v
theories/CodecProof7.v
theories/CodecProof8.v
theories/CodecProof9.v
theories/CodecProps.v
theories/ProtoModel.v
theories/PeerRecvModel.v
theories/ProtoSpec.v
theories/ProtoProof.v
theories/RecvProof.v
theories/ProtoProps.v
theories/Lts.v
theories/PeerSendModel.v
theories/PeerSendSpec.v
theories/PeerSendProof.v
theories/PeerLifeModel.v
theories/PeerLifeProof.v
theories/PeerProps.v
theories/ChanModel.v
theories/ChanSpec.v
theories/ChanProof.v
theories/ChanProof2.v
theories/ChanProof3.v
theories/ChanProof4.v
theories/ChanProps.v
theories/ChanLiveSpec.v
theories/ChanLiveProof.v
theories/ChanLiveProps.v
theories/MetaModel.v
theories/MetaSpec.v
theories/MetaProof.v
theories/MetaProof2.v
theories/MetaProps.v
theories/Tables.v
theories/HubModel.v
theories/HubSpec.v
theories/HubProof.v
theories/HubProof2.v
theories/HubProof3.v
theories/HubProof4.v
theories/HubProps.v
theories/DockModel.v
theories/DockSpec.v
theories/DockProof.v
theories/DockProof2.v
theories/DockProof3.v
theories/DockProof4.v
theories/DockProof5.v
theories/DockProof6.v
theories/DockProof7.v
theories/DockProof8.v
theories/DockProof9.v
theories/DockProof10.v
theories/DockSpec2.v
theories/DockProof11.v
theories/DockProof12.v
theories/DockProps.v
theories/DockProps2.v
theories/MiscModel.v
theories/MiscSpec.v
theories/MiscProof.v
theories/MiscProof2.v
theories/MiscProps.v
theories/CallModel.v
theories/CallSpec.v
theories/CallProof.v
theories/CallProps.v
theories/FloatSpec.v
theories/FloatProof.v
theories/FloatProof2.v
theories/FloatProps.v
theories/GenModel.v
theories/GenSpec.v
theories/GenProof.v
theories/GenProof2.v
theories/GenProps.v
theories/MockModel.v
theories/MockSpec.v
theories/MockProof.v
theories/MockProof2.v
theories/MockProof3.v
theories/MockProps.v
theories/SysModel.v
theories/SysSpec.v
theories/SysProof.v
theories/SysProof2.v
theories/SysProof3.v
theories/SysProof4.v
theories/SysCodec.v
theories/SysProps.v
theories/ConnModel.v
theories/ConnSpec.v
theories/ConnProof.v
theories/ConnProps.v
theories/FullModel.v
theories/FullSpec.v
theories/FullProof.v
theories/FullProof2.v
theories/FullProof3.v
theories/FullProof4.v
theories/FullProps.v
theories/NestModel.v
theories/NestSpec.v
theories/NestProof.v
theories/NestProof2.v
theories/NestProof3.v
theories/NestProps.v
theories/RaceModel.v
theories/RaceSpec.v
theories/RaceProof.v
theories/RaceProof2.v
theories/RaceProps.v
theories/MockPeerSpec.v
theories/MockPeerProof.v
theories/MockPeerProps.v
theories/NetModel.v
theories/NetSpec.v
theories/NetProof.v
theories/NetProps.v
theories/WorldModel.v
theories/WorldSpec.v
theories/WorldProof.v
theories/WorldProof2.v
theories/WorldProof3.v
theories/WorldProof4.v
theories/WorldProof5.v
theories/WorldProof6.v
theories/WorldProof7.v
theories/WorldProps.v
theories/ByteModel.v
theories/ByteSpec.v
theories/ByteProof.v
theories/ByteProof2.v
theories/ByteProof3.v
theories/ByteProof4.v
theories/ByteProps.v
theories/FleetModel.v
theories/FleetSpec.v
theories/FleetProof.v
theories/FleetProof2.v
theories/FleetProps.v
theories/LiveSpec.v
theories/LiveProof.v
theories/LiveProof2.v
theories/LiveProof3.v
theories/LiveProof4.v
theories/LiveProof5.v
theories/LiveProof6.v
theories/LiveProps.v
theories/FleetLiveSpec.v
theories/FleetLiveProof.v
theories/FleetLiveProof2.v
theories/FleetLiveProof3.v
theories/FleetLiveProof4.v
theories/FleetLiveProof5.v
theories/FleetLiveProps.v
theories/DialSpec.v
theories/DialProof.v
theories/DialProof2.v
theories/DialProof3.v
theories/DialProps.v
theories/HarborModel.v
theories/HarborSpec.v
theories/HarborProof.v
theories/HarborProof2.v
theories/HarborProof3.v
theories/HarborProof4.v
theories/HarborProof5.v
theories/HarborProof6.v
theories/HarborProof7.v
theories/HarborProps.v
theories/HarborEndProps.v
theories/HarborHubProps.v
theories/TableProps.v
theories/IsleSpec.v
theories/IsleProof.v
theories/IsleProof2.v
theories/IsleProps.v
theories/SlotModel.v
theories/SlotSpec.v
theories/SlotProof.v
theories/SlotProof2.v
theories/SlotProps.v
theories/HookModel.v
theories/HookSpec.v
theories/HookProof.v
theories/HookProps.v
theories/HookProof2.v
theories/HookProps2.v
