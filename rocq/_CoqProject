-Q theories Verif
theories/Errors.v
theories/Errors_spec.v
theories/Dyn.v
theories/Errors_proofs.v
theories/P_Errors.v
theories/Lifecycle.v
theories/Lifecycle_spec.v
theories/Lifecycle_proofs.v
theories/Lifecycle_order_proofs.v
theories/Lifecycle_proto_proofs.v
theories/Lifecycle_hooks_proofs.v
theories/Lifecycle_fifo_proofs.v
theories/Lifecycle_stop_proofs.v
theories/Lifecycle_wait_proofs.v
theories/Lifecycle_later_proofs.v
theories/Lifecycle_count_spec.v
theories/Lifecycle_count_proofs.v
theories/Lifecycle_prio_proofs.v
theories/Lifecycle_term_proofs.v
theories/Lifecycle_final_proofs.v
theories/Lifecycle_signals_spec.v
theories/Lifecycle_signals_proofs.v
theories/Lifecycle_room_spec.v
theories/Lifecycle_room_proofs.v
theories/Lifecycle_examples.v
theories/P_Lifecycle.v
theories/Reply.v
theories/Reply_spec.v
theories/Reply_proofs.v
theories/P_Reply.v
theories/Requests.v
theories/Requests_spec.v
theories/Requests_proofs.v
theories/Requests_examples.v
theories/P_Requests.v
theories/ActorId.v
theories/ActorId_spec.v
theories/ActorId_proofs.v
theories/ActorId_text_proofs.v
theories/ActorId_examples.v
theories/P_ActorId.v
theories/Registry.v
theories/Registry_spec.v
theories/Registry_proofs.v
theories/P_Registry.v
theories/System.v
theories/System_spec.v
theories/System_proofs.v
theories/System_link_proofs.v
theories/System_examples.v
theories/P_System.v
theories/LinkLocks.v
theories/LinkLocks_spec.v
theories/LinkLocks_proofs.v
theories/LinkLocks_examples.v
theories/P_LinkLocks.v
theories/Stream.v
theories/Stream_spec.v
theories/Stream_proofs.v
theories/P_Stream.v
theories/Pool.v
theories/Pool_spec.v
theories/Pool_proofs.v
theories/Pool_more_proofs.v
theories/Pool_send_proofs.v
theories/Pool_line_proofs.v
theories/Pool_reply.v
theories/Pool_reply_proofs.v
theories/Pool_examples.v
theories/P_Pool.v
theories/Delivery.v
theories/Broker.v
theories/MessageBus.v
theories/Delivery_spec.v
theories/Delivery_proofs.v
theories/Delivery_line_proofs.v
theories/Broker_proofs.v
theories/Broker_examples.v
theories/P_Delivery.v
theories/P_Broker.v
theories/P_MessageBus.v
theories/PubSub.v
theories/PubSub_spec.v
theories/PubSub_proofs.v
theories/PubSub_line_proofs.v
theories/Delivery_room_spec.v
theories/Delivery_room_proofs.v
theories/PubSub_examples.v
theories/P_PubSub.v
theories/RemoteDispatch.v
theories/RemoteDispatch_spec.v
theories/RemoteDispatch_proofs.v
theories/RemoteDispatch_examples.v
theories/P_RemoteDispatch.v
theories/Swarm.v
theories/Swarm_spec.v
theories/Swarm_proofs.v
theories/Swarm_examples.v
theories/P_Swarm.v
theories/RemoteRefs.v
theories/RemoteRefs_spec.v
theories/RemoteRefs_proofs.v
theories/RemoteRefs_examples.v
theories/P_RemoteRefs.v
theories/PeerLoss.v
theories/PeerLoss_spec.v
theories/PeerLoss_proofs.v
theories/PeerLoss_examples.v
theories/P_PeerLoss.v
theories/RemoteLinks.v
theories/RemoteLinks_spec.v
theories/RemoteLinks_proofs.v
theories/RemoteLinks_line_proofs.v
theories/RemoteLinks_more_proofs.v
theories/RemoteLinks_examples.v
theories/P_RemoteLinks.v
theories/ErrorHook.v
theories/ErrorHook_spec.v
theories/ErrorHook_proofs.v
theories/ErrorHook_examples.v
theories/P_ErrorHook.v
theories/Timeouts.v
theories/Timeouts_spec.v
theories/Timeouts_examples.v
theories/Timeouts_proofs.v
theories/P_Timeouts.v
theories/Refs.v
theories/Refs_spec.v
theories/Refs_proofs.v
theories/Refs_examples.v
theories/P_Refs.v
theories/Macros.v
theories/Macros_spec.v
theories/Macros_examples.v
theories/Macros_proofs.v
theories/Macros_line_proofs.v
theories/P_Macros.v
theories/Derives.v
theories/Derives_spec.v
theories/Derives_examples.v
theories/Derives_proofs.v
theories/P_Derives.v
theories/Cluster.v
theories/Cluster_spec.v
theories/Cluster_proofs.v
theories/Cluster_examples.v
theories/P_Cluster.v
theories/RemoteCalls.v
theories/RemoteCalls_spec.v
theories/RemoteCalls_proofs.v
theories/RemoteCalls_examples.v
theories/P_RemoteCalls.v
theories/Bootstrap.v
theories/Bootstrap_spec.v
theories/Bootstrap_proofs.v
theories/Bootstrap_examples.v
theories/P_Bootstrap.v
theories/Loop.v
theories/Loop_spec.v
theories/Loop_proofs.v
theories/Loop_examples.v
theories/P_Loop.v
theories/LoopDefault_spec.v
theories/LoopDefault_proofs.v
theories/LoopDefault_examples.v
theories/P_LoopDefault.v
theories/Mailbox.v
theories/Mailbox_spec.v
theories/Mailbox_proofs.v
theories/Mailbox_examples.v
theories/P_Mailbox.v
theories/MailboxView_spec.v
theories/MailboxView_proofs.v
theories/MailboxView_examples.v
theories/P_MailboxView.v
theories/MailboxActor_spec.v
theories/MailboxActor_proofs.v
theories/MailboxActor_own_proofs.v
theories/MailboxActor_examples.v
theories/P_MailboxActor.v
theories/Texts.v
theories/Texts_spec.v
theories/Texts_proofs.v
theories/Texts_examples.v
theories/P_Texts.v
theories/PanicLock.v
theories/PanicLock_spec.v
theories/PanicLock_proofs.v
theories/PanicLock_examples.v
theories/P_PanicLock.v
theories/Waiting.v
theories/Waiting_spec.v
theories/Waiting_proofs.v
theories/Waiting_more_proofs.v
theories/Waiting_served_proofs.v
theories/Waiting_examples.v
theories/P_Waiting.v
theories/Cancel.v
theories/Cancel_spec.v
theories/Cancel_proofs.v
theories/Cancel_when_proofs.v
theories/Cancel_examples.v
theories/P_Cancel.v
theories/Network.v
theories/Network_spec.v
theories/Network_proofs.v
theories/Network_examples.v
theories/P_Network.v
