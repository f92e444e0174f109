-Q theories Verif

theories/Base.v
theories/BufferModel.v
theories/BufferSpec.v
theories/BufferProofs.v
theories/BufferProps.v
theories/RosterModel.v
theories/InputModel.v
theories/InputSpec.v
theories/InputProofs.v
theories/InputProps.v
theories/GateModel.v
theories/GateSpec.v
theories/GateProofs.v
theories/GateProps.v
theories/JoinModel.v
theories/JoinSpec.v
theories/JoinProofs.v
theories/JoinProps.v
theories/OpsModel.v
theories/OpsSpec.v
theories/OpsProofs.v
theories/OpsProps.v
theories/ReachModel.v
theories/ReachSpec.v
theories/ReachProofs.v
theories/ReachProps.v
theories/DeliveryModel.v
theories/DeliverySpec.v
theories/DeliveryProofs.v
theories/DeliveryProofs2.v
theories/DeliveryProps.v
theories/ContinuousModel.v
theories/ContinuousSpec.v
theories/ContinuousProofs.v
theories/ContinuousProps.v
theories/ScopeModel.v
theories/ScopeSpec.v
theories/ScopeProofs.v
theories/ScopeProofs2.v
theories/ScopeProofs3.v
theories/ScopeProps.v
theories/PromiseModel.v
theories/PromiseSpec.v
theories/PromiseProofs.v
theories/PromiseProps.v
theories/FlattenModel.v
theories/FlattenSpec.v
theories/FlattenProofs.v
theories/FlattenProofs2.v
theories/FlattenProps.v
theories/FlushModel.v
theories/FlushSpec.v
theories/FlushProofs.v
theories/FlushProofs2.v
theories/FlushProofs3.v
theories/FlushProofs4.v
theories/FlushProps.v
theories/SeriesModel.v
theories/SeriesSpec.v
theories/SeriesProofs.v
theories/SeriesProofs2.v
theories/SeriesProofs3.v
theories/SeriesProps.v
theories/TrimModel.v
theories/TrimSpec.v
theories/TrimProofs.v
theories/TrimProofs2.v
theories/TrimProofs3.v
theories/TrimProps.v
theories/StreamModel.v
theories/StreamSpec.v
theories/StreamProofs.v
theories/StreamProofs2.v
theories/StreamProps.v
theories/ExecModel.v
theories/ExecSpec.v
theories/ExecProofs.v
theories/ExecProofs2.v
theories/ExecProofs3.v
theories/ExecProofs4.v
theories/ExecProofs5.v
theories/ExecProofs6.v
theories/ExecProofs7.v
theories/ExecProofs8.v
theories/ExecProps.v
theories/ConnectModel.v
theories/ConnectSpec.v
theories/ConnectProofs.v
theories/ConnectProofs2.v
theories/ConnectProofs3.v
theories/ConnectProofs4.v
theories/ConnectProofs5.v
theories/ConnectProps.v
theories/DiagramModel.v
theories/DiagramSpec.v
theories/DiagramProofs.v
theories/DiagramProofs2.v
theories/DiagramProofs3.v
theories/DiagramProofs4.v
theories/DiagramProofs5.v
theories/DiagramProofs6.v
theories/DiagramProofs7.v
theories/DiagramProofs8.v
theories/DiagramProps.v
theories/DiagramSpec2.v
theories/DiagramProofs9.v
theories/DiagramProofs10.v
theories/DiagramProofs11.v
theories/DiagramProofs12.v
theories/DiagramProofs13.v
theories/Diagram2Props.v
theories/DiagramSpec3.v
theories/DiagramProofs14.v
theories/DiagramProofs15.v
theories/DiagramProofs16.v
theories/Diagram3Props.v
theories/ErasedModel.v
theories/ErasedSpec.v
theories/ErasedProofs.v
theories/ErasedProps.v
theories/LayoutModel.v
theories/LayoutSpec.v
theories/LayoutProofs.v
theories/LayoutProofs2.v
theories/LayoutProps.v
theories/RequestModel.v
theories/RequestSpec.v
theories/RequestProofs.v
theories/RequestProofs2.v
theories/RequestProofs3.v
theories/RequestProofs4.v
theories/RequestProps.v
theories/CallbackModel.v
theories/CallbackSpec.v
theories/CallbackProofs.v
theories/CallbackProps.v
theories/InjectionModel.v
theories/InjectionSpec.v
theories/InjectionProofs.v
theories/InjectionProofs2.v
theories/InjectionProofs3.v
theories/InjectionProofs4.v
theories/InjectionProps.v
theories/KeyModel.v
theories/KeySpec.v
theories/KeyProofs.v
theories/KeyProofs2.v
theories/KeyProps.v
theories/WorkflowModel.v
theories/WorkflowSpec.v
theories/WorkflowProofs.v
theories/WorkflowProofs2.v
theories/WorkflowProofs3.v
theories/WorkflowProofs4.v
theories/WorkflowProps.v
theories/RestProofs.v
theories/RestProofs2.v
theories/ExecProofs9.v
theories/ExecProofs10.v
theories/BrokenProps.v
theories/RestProps.v
theories/ChainModel.v
theories/ChainSpec.v
theories/ChainProofs.v
theories/ChainProofs2.v
theories/ChainProofs3.v
theories/ChainProps.v
theories/RegistryModel.v
theories/RegistrySpec.v
theories/RegistryProofs.v
theories/RegistryProofs2.v
theories/RegistryProofs3.v
theories/RegistryProps.v
theories/DiagramProofs17.v
theories/DiagramProofs18.v
theories/DiagramRunModel.v
theories/DiagramRunSpec.v
theories/DiagramRunProofs.v
theories/DiagramRunProps.v
theories/TraceModel.v
theories/TraceSpec.v
theories/TraceProofs.v
theories/TraceProps.v
theories/PollModel.v
theories/PollSpec.v
theories/PollProofs.v
theories/PollProps.v
