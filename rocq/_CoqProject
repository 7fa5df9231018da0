-Q theories Verif
theories/Base/AMap.v
theories/Base/Bytes.v
theories/Base/Decimal.v
theories/Base/Prelude.v
theories/Base/Str.v
theories/Model/Action.v
theories/Model/ActionClient.v
theories/Model/BlackBox.v
theories/Model/Both.v
theories/Model/Broadcast.v
theories/Model/Builder.v
theories/Model/Debugger.v
theories/Model/DepGraph.v
theories/Model/Discovery.v
theories/Model/EncodingSwap.v
theories/Model/Estop.v
theories/Model/ExecLoop.v
theories/Model/FailurePolicy.v
theories/Model/Fanout.v
theories/Model/FlowControl.v
theories/Model/Fragment.v
theories/Model/Gateway.v
theories/Model/Grid.v
theories/Model/Guard.v
theories/Model/Heartbeat.v
theories/Model/ImageTopic.v
theories/Model/Launch.v
theories/Model/Layout.v
theories/Model/Lockfile.v
theories/Model/LogBuffer.v
theories/Model/LogEntry.v
theories/Model/LogNet.v
theories/Model/Mac.v
theories/Model/Messages.v
theories/Model/Migrate.v
theories/Model/NetFilter.v
theories/Model/NetPath.v
theories/Model/NodeTable.v
theories/Model/Optimize.v
theories/Model/Params.v
theories/Model/Pixels.v
theories/Model/Presence.v
theories/Model/Recording.v
theories/Model/Registry.v
theories/Model/Reliability.v
theories/Model/Replicator.v
theories/Model/Resolver.v
theories/Model/Resync.v
theories/Model/Ring.v
theories/Model/RingMem.v
theories/Model/Safety.v
theories/Model/Seqlock.v
theories/Model/Service.v
theories/Model/ShmFiles.v
theories/Model/Spmc.v
theories/Model/Suppress.v
theories/Model/TensorPool.v
theories/Model/TensorView.v
theories/Model/Timer.v
theories/Model/TopicFile.v
theories/Model/Topology.v
theories/Model/Treiber.v
theories/Model/VirtualTime.v
theories/Model/Wire.v
theories/Spec/ActionClientSpec.v
theories/Spec/ActionSpec.v
theories/Spec/BlackBoxSpec.v
theories/Spec/BothSpec.v
theories/Spec/BroadcastSpec.v
theories/Spec/BuilderSpec.v
theories/Spec/DebuggerSpec.v
theories/Spec/DepGraphSpec.v
theories/Spec/DiscoverySpec.v
theories/Spec/EncodingSpec.v
theories/Spec/EstopSpec.v
theories/Spec/ExecLoopSpec.v
theories/Spec/FailurePolicySpec.v
theories/Spec/FanoutSpec.v
theories/Spec/FlowSpec.v
theories/Spec/FragmentSpec.v
theories/Spec/GatewaySpec.v
theories/Spec/GridSpec.v
theories/Spec/GuardSpec.v
theories/Spec/HeartbeatSpec.v
theories/Spec/ImageTopicSpec.v
theories/Spec/LaunchSpec.v
theories/Spec/LayoutSpec.v
theories/Spec/LockfileSpec.v
theories/Spec/LogBufferSpec.v
theories/Spec/LogNetSpec.v
theories/Spec/MacSpec.v
theories/Spec/MessagesSpec.v
theories/Spec/MigrateSpec.v
theories/Spec/NetFilterSpec.v
theories/Spec/NodeTableSpec.v
theories/Spec/OptimizeSpec.v
theories/Spec/ParamsSpec.v
theories/Spec/PixelsSpec.v
theories/Spec/PresenceSpec.v
theories/Spec/RecordingSpec.v
theories/Spec/RegistrySpec.v
theories/Spec/ReliabilitySpec.v
theories/Spec/ReplicatorSpec.v
theories/Spec/ResolverSpec.v
theories/Spec/ResyncSpec.v
theories/Spec/RingSpec.v
theories/Spec/SafetySpec.v
theories/Spec/SeqlockSpec.v
theories/Spec/ServiceSpec.v
theories/Spec/ShmFilesSpec.v
theories/Spec/SpmcSpec.v
theories/Spec/SuppressSpec.v
theories/Spec/TensorPoolSpec.v
theories/Spec/TensorViewSpec.v
theories/Spec/TimerSpec.v
theories/Spec/TopicFileSpec.v
theories/Spec/TopologySpec.v
theories/Spec/TreiberSpec.v
theories/Spec/VirtualTimeSpec.v
theories/Spec/WireSpec.v
theories/Proofs/ActionClientProofs.v
theories/Proofs/ActionOrder.v
theories/Proofs/ActionProofs.v
theories/Proofs/BlackBoxProofs.v
theories/Proofs/BothProofs.v
theories/Proofs/BroadcastDrain.v
theories/Proofs/BroadcastProofs.v
theories/Proofs/BuilderProofs.v
theories/Proofs/DebuggerProofs.v
theories/Proofs/DepGraphProofs.v
theories/Proofs/DiscoveryProofs.v
theories/Proofs/EncodingProofs.v
theories/Proofs/EstopProofs.v
theories/Proofs/ExecLoopProofs.v
theories/Proofs/FailurePolicyProofs.v
theories/Proofs/FanoutDelivery.v
theories/Proofs/FanoutProofs.v
theories/Proofs/FlowProofs.v
theories/Proofs/FragmentProofs.v
theories/Proofs/GatewayProofs.v
theories/Proofs/GridProofs.v
theories/Proofs/GuardProofs.v
theories/Proofs/HeartbeatProofs.v
theories/Proofs/ImageTopicProofs.v
theories/Proofs/LaunchProofs.v
theories/Proofs/LayoutProofs.v
theories/Proofs/LockfileProofs.v
theories/Proofs/LogBufferProofs.v
theories/Proofs/LogEntryProofs.v
theories/Proofs/LogNetProofs.v
theories/Proofs/MacProofs.v
theories/Proofs/MessagesProofs.v
theories/Proofs/MigrateProofs.v
theories/Proofs/NetFilterProofs.v
theories/Proofs/NetPathProofs.v
theories/Proofs/NodeTableProofs.v
theories/Proofs/OptimizeProofs.v
theories/Proofs/ParamsProofs.v
theories/Proofs/PixelsProofs.v
theories/Proofs/PresenceProofs.v
theories/Proofs/RecordingProofs.v
theories/Proofs/RegistryProofs.v
theories/Proofs/ReliabilityProofs.v
theories/Proofs/ReplicatorPathProofs.v
theories/Proofs/ReplicatorProofs.v
theories/Proofs/ResolverProofs.v
theories/Proofs/ResyncProofs.v
theories/Proofs/RingMemProofs.v
theories/Proofs/RingProofs.v
theories/Proofs/SafetyProofs.v
theories/Proofs/SeqlockProofs.v
theories/Proofs/ServiceProofs.v
theories/Proofs/ShmFilesProofs.v
theories/Proofs/SpmcProofs.v
theories/Proofs/SuppressProofs.v
theories/Proofs/TensorPoolProofs.v
theories/Proofs/TensorViewProofs.v
theories/Proofs/TimerProofs.v
theories/Proofs/TopicFileProofs.v
theories/Proofs/TopologyProofs.v
theories/Proofs/TreiberProofs.v
theories/Proofs/VirtualTimeProofs.v
theories/Proofs/WireProofs.v
theories/Props/ActionClientProps.v
theories/Props/ActionProps.v
theories/Props/BlackBoxProps.v
theories/Props/BothProps.v
theories/Props/BroadcastProps.v
theories/Props/BuilderProps.v
theories/Props/DebuggerProps.v
theories/Props/DepGraphProps.v
theories/Props/DiscoveryProps.v
theories/Props/EncodingProps.v
theories/Props/ExecLoopProps.v
theories/Props/FailurePolicyProps.v
theories/Props/FanoutProps.v
theories/Props/FragmentProps.v
theories/Props/GatewayProps.v
theories/Props/GridProps.v
theories/Props/GuardProps.v
theories/Props/ImageTopicProps.v
theories/Props/LaunchProps.v
theories/Props/LayoutProps.v
theories/Props/LockfileProps.v
theories/Props/LogBufferProps.v
theories/Props/LogNetProps.v
theories/Props/MessagesProps.v
theories/Props/MigrateProps.v
theories/Props/NetFilterProps.v
theories/Props/NodeTableProps.v
theories/Props/OptimizeProps.v
theories/Props/ParamsProps.v
theories/Props/PixelsProps.v
theories/Props/PresenceProps.v
theories/Props/RecordingProps.v
theories/Props/ReliabilityProps.v
theories/Props/ReplicatorProps.v
theories/Props/ResolverProps.v
theories/Props/ResyncProps.v
theories/Props/RingProps.v
theories/Props/SafetyNetProps.v
theories/Props/SafetyProps.v
theories/Props/SeqlockProps.v
theories/Props/ServiceProps.v
theories/Props/ShmFilesProps.v
theories/Props/SpmcProps.v
theories/Props/SuppressProps.v
theories/Props/TensorPoolProps.v
theories/Props/TensorViewProps.v
theories/Props/TimerProps.v
theories/Props/TopicFileProps.v
theories/Props/TopologyProps.v
theories/Props/TreiberProps.v
theories/Props/VirtualTimeProps.v
theories/Props/WireProps.v
