{"id": "C01", "title": "Messages are handled in acceptance order", "statement": "If two messages sent from outside the actor are both handled, the one accepted by the mailbox first is handled first; once startup is finished, the sequence of handled messages plus those still queued is exactly the sequence of accepted ones as long as no stop, kill or failure has intervened. From then on messages and notifications that a linked actor died share one order: the calls of handlers and of on_link_died, in the order in which they begin, are an initial part of the sequence in which messages and notifications were accepted, and without stop, kill or failure the remainder is exactly what is still queued. Notifications among themselves keep the order of acceptance from the very start, but while the actor starts a notification may overtake a message accepted before it.", "quantifier": "every actor (arbitrary hook and handler outcomes), every mailbox capacity, every interleaving of senders, kills, stops, reference drops and actor steps, every length of history", "why_tests_cant": "A test observes a few interleavings of senders with the receive loop; the order claim has to hold for every interleaving including messages buffered during startup.", "anchors": ["src/actor/spawn.rs: recv_mailbox_loop, abortable_actor_loop", "src/actor/kind.rs: ActorBehaviour::handle_message, handle_startup_finished", "src/mailbox.rs: MailboxSender::send, MailboxReceiver::recv", "src/actor/kind.rs: ActorBehaviour::handle_link_died"]}
{"id": "C02", "title": "Handled at most once, never invented, never concurrent", "statement": "Every handler invocation is for a message that was accepted by the mailbox; no accepted message is handled twice; a handler (or lifecycle hook) begins only after the previous handler or hook of that actor has ended.", "quantifier": "every execution of an actor with arbitrary environment behaviour", "why_tests_cant": "Duplicate or overlapping delivery would only show on particular schedules (for example around the startup buffer being drained while a stop is processed).", "anchors": ["src/actor/spawn.rs: recv_mailbox_loop", "src/actor/kind.rs: handle_startup_finished, handle_message, handle_stop", "src/message.rs: DynMessage::handle_dyn"]}
{"id": "C03", "title": "on_start runs first and gates message handling", "statement": "on_start is invoked exactly once, before any other hook or handler; no message handler, on_link_died or mailbox-driven stop is executed until on_start has returned Ok, and none at all if it failed or panicked.", "quantifier": "every execution of every actor", "why_tests_cant": "Needs every schedule of sends racing with a slow on_start, and all three on_start outcomes.", "anchors": ["src/actor/spawn.rs: run_actor_lifecycle", "src/actor.rs: Actor::on_start"]}
{"id": "C04", "title": "Self-sent messages of on_start go first", "statement": "When the startup marker could be queued (mailbox not full when on_start returned) every message the actor sent to itself during on_start that gets handled is handled before any message sent from outside; the guarantee is lost exactly when the mailbox was full, or when the actor was run through PreparedActor::run outside its task scope.", "quantifier": "every interleaving of internal and external sends during on_start, all capacities", "why_tests_cant": "The interleavings are unbounded, and the guarantee silently depends on the mailbox not being full at one instant.", "anchors": ["src/actor/spawn.rs: run_actor_lifecycle, abortable_actor_loop, PreparedActor::run, PreparedActor::spawn", "src/actor/kind.rs: handle_message", "src/actor/actor_ref.rs: ActorRef::is_current", "src/actor.rs: Actor::on_start docs"]}
{"id": "C05", "title": "Graceful stop processes exactly what was queued before it", "statement": "If an actor stops because of stop_gracefully and no kill, failure or link death intervened, then every message accepted before the stop signal has been handled and no message accepted after it is ever handled; the stop reason is Normal.", "quantifier": "every position of the stop signal in the mailbox, with startup finished or still pending, every schedule", "why_tests_cant": "Exhausting the positions of the stop signal relative to messages and to the startup marker is not possible with tests.", "anchors": ["src/actor/actor_ref.rs: ActorRef::stop_gracefully", "src/actor/kind.rs: handle_stop, handle_startup_finished", "src/actor/spawn.rs: recv_mailbox_loop"]}
{"id": "C06", "title": "Dropping every reference drains the mailbox, then stops normally", "statement": "While any strong reference to the actor, or any queued message, exists the actor does not stop by reference exhaustion; once all strong references are gone it handles every accepted message and stops with Normal. Weak references and links never keep it alive. An actor spawned in its own thread never stops this way.", "quantifier": "every pattern of cloning, dropping, upgrading and sending, every schedule", "why_tests_cant": "Reference counts are shared between user code, queued messages and the runtime; tests only check that some actor stopped.", "anchors": ["src/mailbox.rs: Signal::Message actor_ref, MailboxReceiver::recv", "src/actor/spawn.rs: run_actor_lifecycle (downgrade), PreparedActor::spawn_in_thread", "src/actor/actor_ref.rs: WeakActorRef::upgrade"]}
{"id": "C07", "title": "kill takes effect at the next suspension point and reports Killed", "statement": "After kill, an actor that is suspended runs no further handler or loop hook: its next action is to leave the loop with reason Killed and run on_stop. A running handler is interrupted only where it awaits. kill during on_start has no effect until on_start finishes, and none if on_start fails.", "quantifier": "every point of the lifecycle at which kill may be called", "why_tests_cant": "The moment of the kill relative to polls of the actor task cannot be controlled from a test.", "anchors": ["src/actor/actor_ref.rs: ActorRef::kill", "src/actor/spawn.rs: run_actor_lifecycle (Abortable), abortable_actor_loop"]}
{"id": "C08", "title": "on_stop runs exactly once, last, with the reported reason", "statement": "Every lifecycle that terminates without a hook panic invokes on_stop exactly once, after every handler and other hook, with the same reason that is reported to links and returned by the task. A panic inside on_panic or on_stop is not caught: the task dies, links are not notified.", "quantifier": "every terminating execution: failed start, graceful stop, kill, panic, link death, reference exhaustion", "why_tests_cant": "Requires all exit paths combined with all schedules.", "anchors": ["src/actor/spawn.rs: run_actor_lifecycle", "src/actor/kind.rs: on_shutdown, shutdown"]}
{"id": "C09", "title": "Failure policy: on_panic decides", "statement": "Each handler panic, handler error of a tell, error or panic of on_link_died leads to exactly one on_panic call with that error; the actor goes on receiving iff on_panic returns Continue; otherwise it stops with the reason given by on_panic, or Panicked with on_panic's own error. Non-panic reasons never reach on_panic. After a failed on_start the actor stops even if on_panic returns Continue.", "quantifier": "every sequence of failures and every on_panic decision", "why_tests_cant": "Unbounded failure/recovery histories.", "anchors": ["src/actor/kind.rs: handle_message, handle_link_died, on_shutdown", "src/actor/spawn.rs: abortable_actor_loop, run_actor_lifecycle", "src/actor.rs: Actor::on_panic"]}
{"id": "C10", "title": "Recovering from a failure loses no queued message after startup", "statement": "When on_panic returns Continue after startup has finished, every message that was queued at the time of the failure is still handled later unless the actor is stopped; the only lost messages are startup-buffered ones behind a failing buffered message.", "quantifier": "every history of failures and recoveries, every queue content", "why_tests_cant": "The loss only happens for failures while the startup buffer is drained, a schedule-dependent situation.", "anchors": ["src/actor/kind.rs: handle_startup_finished (drain with ?)", "src/actor/spawn.rs: abortable_actor_loop"]}
{"id": "C11", "title": "Startup waiters: what wait_for_startup means", "statement": "wait_for_startup can only return after on_start has finished, and wait_for_startup_result then always finds the startup result recorded. It is guaranteed to return if the startup marker is received or on_start failed; it never returns if the mailbox was full when on_start returned, or the actor is stopped or killed before receiving the marker.", "quantifier": "every schedule and capacity", "why_tests_cant": "A hanging waiter depends on the mailbox being full at one instant or on a kill racing with the marker.", "anchors": ["src/actor/actor_ref.rs: wait_for_startup, wait_for_startup_result", "src/actor/spawn.rs: run_actor_lifecycle, recv_mailbox_loop"]}
{"id": "C12", "title": "Shutdown waiters: closed means finished", "statement": "is_alive becomes false and wait_for_shutdown returns only after on_stop has completed and (unless on_start failed) every link was notified; if any strong reference exists then the shutdown result is recorded by then, so wait_for_shutdown_result does not panic unless a hook panicked.", "quantifier": "every terminating execution and every strong/weak reference pattern", "why_tests_cant": "Requires the ordering of the last lifecycle steps under all schedules, including upgrades racing with the final check.", "anchors": ["src/actor/actor_ref.rs: is_alive, wait_for_shutdown, wait_for_shutdown_result", "src/actor/spawn.rs: run_actor_lifecycle"]}
{"id": "C13", "title": "Every ask is answered exactly once or fails", "statement": "An accepted ask receives at most one answer. If the handler finishes without giving its reply sender away, the asker gets exactly the handler's value; if the message is dropped unhandled (stop, kill, failure, lost buffer) or its handler panics or is interrupted, the asker gets ActorStopped. When the actor has terminated no ask whose reply sender it still owned is pending.", "quantifier": "every execution, any number of outstanding asks", "why_tests_cant": "An asker hanging forever would need one particular schedule out of unboundedly many.", "anchors": ["src/message.rs: handle_dyn, Context::reply, reply_sender", "src/request/ask.rs: AskRequest::send", "src/actor/spawn.rs: run_actor_lifecycle"]}
{"id": "C14", "title": "Handler errors: answered on ask, failure on tell", "statement": "A handler error for an ask whose reply sender was not taken goes to the asker as HandlerError and does not affect the actor; for a tell it is treated as a failure of the actor and passed to on_panic with the same error value. An error returned after the reply sender was taken also counts as an actor failure.", "quantifier": "every handler outcome and request kind in every execution", "why_tests_cant": "Combines reply ownership with all histories.", "anchors": ["src/message.rs: handle_dyn", "src/actor/kind.rs: handle_message", "src/reply.rs: ReplySender::send, Reply::into_any_err"]}
{"id": "C15", "title": "Bounded mailboxes never exceed their capacity", "statement": "The number of queued signals never exceeds the capacity of a bounded mailbox, in any execution, whatever mix of messages, stops, link deaths and startup markers is sent. A message, stop or link death can be accepted if and only if the receiver is open, a reference allows the call, and, with a bounded mailbox, the signals waiting and the places reserved are fewer than the capacity; an unbounded mailbox is never full. The actor's own code can send to it from any hook or handler that has been entered and not left, while its task is being polled.", "quantifier": "all capacities and all interleavings", "why_tests_cant": "Capacity is a global invariant over all senders.", "anchors": ["src/mailbox.rs: bounded, MailboxSender::send", "src/actor/spawn.rs: run_actor_lifecycle"]}
{"id": "C16", "title": "Failed sends return the very message, with the right error", "statement": "tell (send, try_send, blocking_send) and ask (send, try_send, blocking_send): the result is ActorNotRunning(msg) iff the receiver is gone, MailboxFull(msg) only from try_* on a full bounded mailbox, Timeout(Some(msg)) only when a mailbox timeout elapsed on a bounded mailbox; the message handed back is the one passed in, and a failed send never enqueues anything.", "quantifier": "all messages, mailbox states, capacities, timeouts and timer outcomes", "why_tests_cant": "The cross product of request kinds, mailbox kinds and timings is large and values are arbitrary.", "anchors": ["src/request/tell.rs: TellRequest::send, try_send, blocking_send", "src/request/ask.rs: AskRequest::send, try_send, blocking_send", "src/error.rs: From<mpsc::error::*> for SendError"]}
{"id": "C17", "title": "Successful sends enqueue exactly once", "statement": "tell returning Ok has appended exactly one message signal at the back of the mailbox and changed nothing else; ask appends exactly one signal carrying a fresh reply channel.", "quantifier": "all mailbox states and request kinds", "why_tests_cant": "Universally quantified over mailbox contents.", "anchors": ["src/request/tell.rs: TellRequest::send", "src/request/ask.rs: AskRequest::send", "src/mailbox.rs: MailboxSender::send"]}
{"id": "C18", "title": "Timeouts: mailbox versus reply", "statement": "A mailbox timeout is honoured on bounded mailboxes only and hands the message back; a reply timeout never hands the message back and does not cancel handling; on an unbounded mailbox the mailbox timeout has no effect.", "quantifier": "all combinations of timeout settings, mailbox kinds and timer outcomes", "why_tests_cant": "Timer races.", "anchors": ["src/request/ask.rs: AskRequest::send", "src/request/tell.rs: TellRequest::send", "src/error.rs: From<SendTimeoutError>, From<Elapsed>", "src/request.rs"]}
{"id": "C19", "title": "stop_gracefully on a stopped actor", "statement": "stop_gracefully returns Ok iff the stop signal was enqueued; on an actor whose mailbox is closed the documented error result is not produced: the call panics.", "quantifier": "all mailbox states", "why_tests_cant": "A reachable panic for a whole class of states.", "anchors": ["src/actor/actor_ref.rs: ActorRef::stop_gracefully", "src/mailbox.rs: Signal::downcast_message", "src/error.rs: From<mpsc::error::SendError>"]}
{"id": "C20", "title": "enqueue and forward report failures instead of panicking", "statement": "AskRequest::enqueue/try_enqueue/blocking_enqueue and forward/try_forward/blocking_forward return an error when the message could not be queued. (False for every message type other than (): they panic in the error conversion.)", "quantifier": "all message types, mailbox states and request variants", "why_tests_cant": "Depends on the dynamic type of the message, which is universally quantified.", "anchors": ["src/request/ask.rs: enqueue, try_enqueue, blocking_enqueue, forward, try_forward, blocking_forward", "src/error.rs: From<mpsc::error::*>", "src/mailbox.rs: downcast_message"]}
{"id": "C21", "title": "Forwarded replies arrive with the right type", "statement": "A reply forwarded over one hop is received by the asker as the value or HandlerError(HandlerError(e)) of the final handler. Over two or more forwarding hops an error value cannot be downcast and the asker panics.", "quantifier": "all reply types, handler results and forwarding chains of every length", "why_tests_cant": "Dynamic downcasts over an unbounded family of types and chain lengths.", "anchors": ["src/message.rs: Context::forward", "src/reply.rs: ForwardedReply::downcast_err, ReplySender::cast", "src/error.rs: BoxSendError::try_downcast"]}
{"id": "C22", "title": "Reply values are never downcast to the wrong type", "statement": "For handlers replying with plain values, Results and delegated replies, the asker's downcast of the boxed reply always succeeds and yields exactly the value the handler produced.", "quantifier": "all reply types of the supported family (closed under nesting) and all values", "why_tests_cant": "Type-indexed universal statement; tests pick single types.", "anchors": ["src/reply.rs: Reply impls, ReplySender::send", "src/request/ask.rs: AskRequest::send (downcast_ok/downcast_err)"]}
{"id": "C23", "title": "SendError algebra", "statement": "map_msg and map_err are functorial and commute, flatten is a monad join for the error component (unit and associativity laws), and boxing followed by downcasting to the same types is the identity, while downcasting to different types fails and returns the box unchanged.", "quantifier": "all error values and all mapping functions, all types", "why_tests_cant": "Equational laws over all values.", "anchors": ["src/error.rs: SendError::map_msg, map_err, boxed, flatten, BoxSendError::downcast, try_downcast"]}
{"id": "C24", "title": "RemoteSendError algebra and conversion", "statement": "map_err is functorial, flatten satisfies the join laws, converting a local SendError to a RemoteSendError preserves the error class except that every timeout (also a mailbox timeout) becomes ReplyTimeout, and conversion commutes with map_err and flatten.", "quantifier": "all error values", "why_tests_cant": "Equational laws over 19 constructors and arbitrary payloads.", "anchors": ["src/error.rs: RemoteSendError::map_err, flatten, From<SendError> for RemoteSendError"]}
{"id": "C25", "title": "Panic payloads survive", "statement": "The error delivered to on_panic exposes str/String panic payloads as that string and handler errors as their own type. Serialising a PanicError keeps only its printed form: each hop prepends \"panicked: \" and other payload types are lost.", "quantifier": "all payload values and any number of network hops", "why_tests_cant": "Unbounded hops and arbitrary payloads.", "anchors": ["src/error.rs: PanicError::new_from_panic_any, with_str, downcast, Serialize, Deserialize"]}
{"id": "C26", "title": "Actor ids are unique", "statement": "Ids generated in one process are pairwise distinct until 2^64 ids have been generated.", "quantifier": "every number of generated ids and every interleaving of generators", "why_tests_cant": "The bound 2^64 is out of reach of tests.", "anchors": ["src/actor/id.rs: ActorID::generate"]}
{"id": "C27", "title": "Actor id bytes round-trip", "statement": "from_bytes(to_bytes(id)) yields an id equal to the original, in the same bootstrap state, for local and remote ids; ids serialised after bootstrap denote the same actor on every node. from_bytes panics on fewer than 8 bytes; an id serialised before bootstrap is read as the receiver's local actor.", "quantifier": "all ids, all peer ids, all byte strings", "why_tests_cant": "All inputs.", "anchors": ["src/actor/id.rs: ActorID::to_bytes, from_bytes, PeerIdKind"]}
{"id": "C28", "title": "Equal ids hash equally", "statement": "ActorID equality is an equivalence relation and equal ids feed identical bytes to the hasher, in any fixed bootstrap state. Bootstrapping changes the hash of local ids, so an entry stored before bootstrap under a local id may become unfindable.", "quantifier": "all pairs/triples of ids and all bootstrap states", "why_tests_cant": "All pairs of ids.", "anchors": ["src/actor/id.rs: PartialEq/Hash for PeerIdKind, ActorID derive(PartialEq, Eq, Hash)"]}
{"id": "C29", "title": "Registration records round-trip", "statement": "The record written for a registered actor decodes to the same actor id and remote id on any node; decoding panics on every malformed record, also if the remote id is not UTF-8, in particular on the empty record written by unregister.", "quantifier": "all actor ids, remote ids and byte strings", "why_tests_cant": "All inputs.", "anchors": ["src/remote/swarm.rs: ActorRegistration::into_bytes, from_bytes, Unregister, lookup_local"]}
{"id": "C30", "title": "The local registry is a typed map", "statement": "After any sequence of register/remove/clear operations, looking a name up yields the last actor registered under it and not removed since; asking for it at another actor type gives BadActorType and never a wrongly typed reference; insert and remove report whether an entry existed.", "quantifier": "every operation sequence over all names, actors and actor types", "why_tests_cant": "All histories.", "anchors": ["src/registry.rs: ActorRegistry::get, insert, remove, clear, contains_name, len", "src/actor/actor_ref.rs: register, lookup"]}
{"id": "C31", "title": "Links are symmetric, irreflexive and idempotent", "statement": "After any sequence of completed link/unlink calls between running actors, a is linked to b iff b is linked to a iff the last call involving the pair was a link; no actor is linked to itself; repeated link or unlink has no further effect.", "quantifier": "every sequence of link and unlink operations over any number of actors", "why_tests_cant": "All histories over any number of actors.", "anchors": ["src/actor/actor_ref.rs: link, unlink, blocking_link, blocking_unlink"]}
{"id": "C32", "title": "Every link is told about a death exactly once", "statement": "When an actor leaves its loop, each actor then linked to it that is still referenced and running, or still starting (referenced or not), gets exactly one LinkDied signal with the dead actor's id and its stop reason, and this happens before the dead actor's mailbox closes. Actors not linked get none.", "quantifier": "every execution of any number of actors with any link graph", "why_tests_cant": "Global property over schedules and link graphs.", "anchors": ["src/actor/spawn.rs: run_actor_lifecycle (link notification)", "src/mailbox.rs: SignalMailbox::signal_link_died", "src/actor/kind.rs: handle_link_died"]}
{"id": "C33", "title": "A failed on_start notifies nobody", "statement": "If on_start fails or panics, linked actors are never notified although the actor stops with Panicked; with spawn_link the parent keeps a stale link and never learns about the death.", "quantifier": "every execution in which on_start fails", "why_tests_cant": "Absence of an event over all schedules.", "anchors": ["src/actor/spawn.rs: run_actor_lifecycle (start failure path), spawn_link"]}
{"id": "C34", "title": "Default link policy propagates abnormal deaths only", "statement": "With the default on_link_died, a linked actor that receives LinkDied keeps running iff the reason was Normal; otherwise it stops with LinkDied naming the dead actor (PeerDisconnected for lost peers), so an abnormal death reaches every actor of a connected component that keeps running its loop. Not true if one of them has ended normally before, or panics in on_stop: the actors behind it are not told.", "quantifier": "every link graph, death order and schedule", "why_tests_cant": "All graphs and orders.", "anchors": ["src/actor.rs: Actor::on_link_died default", "src/actor/kind.rs: handle_link_died, on_shutdown", "src/actor/spawn.rs: run_actor_lifecycle"]}
{"id": "C35", "title": "Linking takes two locks without deadlock", "statement": "Concurrent link/unlink calls always complete. (False: two concurrent calls on the same pair in opposite directions can wait for each other forever; true when calls acquire the pair in one global order.)", "quantifier": "all interleavings of any number of link/unlink calls", "why_tests_cant": "Needs one particular interleaving between two lock acquisitions.", "anchors": ["src/actor/actor_ref.rs: link, unlink, blocking_link, blocking_unlink"]}
{"id": "C36", "title": "Termination always completes", "statement": "An actor that left its loop reaches termination if its hooks return. (False: two linked actors with full bounded mailboxes that stop at the same time wait for each other forever; true if every linked mailbox is unbounded, gets drained or closes.)", "quantifier": "all link graphs, capacities and schedules", "why_tests_cant": "Needs simultaneous deaths with full mailboxes.", "anchors": ["src/actor/spawn.rs: run_actor_lifecycle (await of link notifications)", "src/mailbox.rs: signal_link_died"]}
{"id": "C37", "title": "Weak references", "statement": "WeakActorRef::upgrade succeeds iff a strong reference (including one in a queued message) exists; an upgraded reference denotes the same actor and mailbox; links only hold weak references. The number of strong references is that of the references the caller, clones, upgrades and on_start were given less those dropped, plus one for every message accepted and neither discarded nor done being handled, one for the actor's task until its start is over, one for the registry while the actor is in it and one for the thread of an actor spawned in a thread of its own until the task ends.", "quantifier": "every history of clone, drop, downgrade, upgrade, send, receive", "why_tests_cant": "All histories.", "anchors": ["src/actor/actor_ref.rs: WeakActorRef::upgrade, ActorRef::downgrade", "src/mailbox.rs: WeakMailboxSender::upgrade"]}
{"id": "C38", "title": "Attached streams are delivered in order with markers", "statement": "attach_stream delivers Started first, then the stream's items in stream order without loss or duplication, then Finished iff the stream ended while the actor was alive; a failed send returns the undelivered item; on shutdown the stream is handed back. A task given a stopped actor takes nothing from the stream and returns Started.", "quantifier": "all finite and infinite streams, all interleavings with shutdown", "why_tests_cant": "Unbounded streams and shutdown at any point.", "anchors": ["src/actor/actor_ref.rs: attach_stream"]}
{"id": "C39", "title": "Pool picks a least loaded worker", "statement": "Dispatch goes to a worker with the minimum number of outstanding messages, the first of them on ties, and adds one to that worker's load until the message has been processed. Each worker handles what it is sent in that order.", "quantifier": "all pool sizes and load vectors", "why_tests_cant": "All load vectors.", "anchors": ["actors/src/pool.rs: ActorPool::next_worker, Dispatch"]}
{"id": "C40", "title": "Pool size and worker slots are stable", "statement": "A pool always has exactly the configured number of workers; when a worker dies exactly its slot is replaced by a fresh idle linked worker and all other slots keep worker and load.", "quantifier": "every sequence of worker deaths and dispatches", "why_tests_cant": "All histories.", "anchors": ["actors/src/pool.rs: ActorPool::on_link_died, new"]}
{"id": "C41", "title": "Pool dispatch reaches a live worker if there is one", "statement": "Telling a Dispatch succeeds whenever some worker is alive. (False: the retry picks the same dead least-loaded worker again and again; true if the dead workers are not the least loaded.) Failures hand the message back. A pool that runs handles the messages it accepted in that order and stops only where a dispatch fails or a handler panics; what a worker finishes for an asker is answered to that asker, and nobody else is answered.", "quantifier": "all pool states", "why_tests_cant": "Depends on load ties and dead workers.", "anchors": ["actors/src/pool.rs: Message<Dispatch>::handle, next_worker"]}
{"id": "C42", "title": "Pool broadcast reaches every worker once", "statement": "Broadcast sends one copy to every worker and returns one result per worker in worker order.", "quantifier": "all pool sizes and worker states", "why_tests_cant": "All sizes.", "anchors": ["actors/src/pool.rs: Message<Broadcast>::handle"]}
{"id": "C43", "title": "PubSub delivers to exactly the matching subscribers", "statement": "A publish delivers one copy to every current subscriber whose latest filter accepts the message, to nobody else; subscribing again replaces the filter; subscribers found stopped are removed, all others are kept. A PubSub that runs handles the messages it accepted in that order, and stops only when it is stopped or a filter panics. It accepts a message if and only if it has not stopped and, with a bounded mailbox, fewer than its capacity of accepted messages are waiting.", "quantifier": "every history of subscribe, publish and subscriber deaths, all filters", "why_tests_cant": "All histories and arbitrary filters.", "anchors": ["actors/src/pubsub.rs: PubSub::publish, subscribe, subscribe_filter"]}
{"id": "C44", "title": "Broker delivers by topic pattern", "statement": "A publish delivers one copy per subscription whose pattern matches the topic; only recipients found not running are unsubscribed, and from every pattern they subscribed; unsubscribe removes all of a recipient's subscriptions of a pattern (or of all patterns). An actor that runs one accepts a request if and only if it has not stopped and, with a bounded mailbox, fewer than its capacity of accepted requests and reported deaths are waiting.", "quantifier": "every history of subscribe, unsubscribe, publish and deaths; every matching relation", "why_tests_cant": "All histories.", "anchors": ["actors/src/broker.rs: Broker::unsubscribe, Subscribe, Unsubscribe, Publish"]}
{"id": "C45", "title": "Message bus delivers by message type", "statement": "A publish of type T delivers one copy per registration for T and none to registrations of other types; unregister and dead-recipient removal affect only the given type and actor. An actor that runs one accepts a request if and only if it has not stopped and, with a bounded mailbox, fewer than its capacity of accepted requests and reported deaths are waiting.", "quantifier": "every history of register, unregister, publish and deaths", "why_tests_cant": "All histories.", "anchors": ["actors/src/message_bus.rs: Register, Unregister, Publish, MessageBus::unsubscribe"]}
{"id": "C46", "title": "Delivery strategies differ only in waiting", "statement": "For every strategy the set of attempted recipients is the same; BestEffort never blocks and drops only for full mailboxes, Guaranteed waits, TimedDelivery gives up after its timeout, Spawned variants remove dead recipients only through a later message; a full or timed-out recipient is never unsubscribed. Broker and bus handle what they accepted in that order and stop only when they are stopped or killed. A recipient's mailbox is full exactly when the copies and other messages accepted and not yet read, with the places other senders have reserved, reach its capacity.", "quantifier": "all strategies and recipient states", "why_tests_cant": "All combinations over unbounded recipient lists.", "anchors": ["actors/src/lib.rs: DeliveryStrategy", "actors/src/broker.rs: Publish", "actors/src/message_bus.rs: Publish"]}
{"id": "C47", "title": "Remote dispatch classifies failures correctly", "statement": "A remote request reaches the handler iff the actor id is registered, its remote type matches and the message id and payload decode; otherwise the documented error for the first failing check is returned and nothing is enqueued; handler results and errors come back as serialised by the handler's types. The response is of the kind of the request, and its error is never one of the network's, which serde could not write.", "quantifier": "all requests and node states", "why_tests_cant": "All combinations of registry contents and payloads.", "anchors": ["src/remote/_internal.rs: ask, try_ask, tell, try_tell, link, unlink, signal_link_died", "src/remote.rs: ask, tell, link, unlink, signal_link_died"]}
{"id": "C48", "title": "Each swarm request is completed once, by its own answer", "statement": "Every pending request, lookup or registration is completed at most once, with a result for its own id, whatever the order and content of network events; no event completes another caller's request.", "quantifier": "every sequence of commands and network events", "why_tests_cant": "All event orders.", "anchors": ["src/remote/swarm.rs: ActorSwarmHandler::handle_command, handle_event"]}
{"id": "C49", "title": "Registered names are looked up with type checks", "statement": "lookup_local returns the registered actor for a name iff its record is present, its remote id matches the requested type and the actor is still in the node's table; a mismatching type yields BadActorType, a missing record None. After unregister with peers the unregistering node finds None, while an emptied (or otherwise unparsable) record held by a node makes its local lookup panic; a name registered and unregistered without peers is still found.", "quantifier": "every history of register, unregister and lookup", "why_tests_cant": "All histories.", "anchors": ["src/remote/swarm.rs: lookup_local, lookup, register, unregister, handle_command"]}
{"id": "C50", "title": "Peer loss is signalled to exactly the affected actors", "statement": "When a connection to a peer closes, an actor in the node's table gets a link death with PeerDisconnected for each of its links on that peer and for no other link. This happens even if other connections to the peer remain. No actor can be put into the table or taken out of it while the links are being read, and only then.", "quantifier": "all node states and link sets", "why_tests_cant": "All link sets.", "anchors": ["src/remote/swarm.rs: handle_event (ConnectionClosed)"]}
{"id": "C51", "title": "Remote links keep actors alive", "statement": "link_remote inserts a strong reference into the node's table before anything can fail and unlink_remote never removes it, so a remotely linked actor does not stop by reference exhaustion even after unlink or a failed link. A call whose future is dropped does nothing more, and a call returns at most once.", "quantifier": "every history of link_remote/unlink_remote and reference drops", "why_tests_cant": "All histories.", "anchors": ["src/actor/actor_ref.rs: link_remote, unlink_remote", "src/remote.rs: REMOTE_REGISTRY"]}
{"id": "C52", "title": "Spawn-link leaves no gap", "statement": "With spawn_link the two actors are linked before the child's on_start can run, so any later death of the child after a successful start is reported to the parent.", "quantifier": "every schedule of parent and child", "why_tests_cant": "Race between link and early death.", "anchors": ["src/actor/spawn.rs: spawn_link, spawn_link_with_mailbox"]}
{"id": "C53", "title": "Publications reach each recipient in order", "statement": "With PubSub, and with the broker and message bus under the strategies that do not spawn tasks, every recipient is sent the publications in the order in which they were published, and reads exactly what was sent, in that order, until it ends; with the spawning strategies what is read is still what was sent, but the order may differ.", "quantifier": "every history, every capacity, every interleaving with other senders", "why_tests_cant": "The order depends on the interleaving of publisher, tasks and recipients; a test sees one.", "anchors": ["actors/src/pubsub.rs: PubSub::publish", "actors/src/broker.rs: Publish", "actors/src/message_bus.rs: Publish"]}
{"id": "C54", "title": "Remote links are made and removed on both sides", "statement": "When link_remote returns Ok the two actors have each been linked to the other, first on the caller's side, then on the sibling's, and both keep the link until it is unlinked, its death is handled or its holder stops; the caller's actor can be found by remote requests until it leaves the table. When unlink_remote returns Ok both have lost the link until they are linked again. Both hold as well for link_remote and unlink_remote of a reference to a remote actor, which ask both nodes at once. A refused call of a local actor has changed only the caller's own side, for a reason that held when the request was looked up and a refused request to a node has changed no links there; a network error says nothing about the sibling's side. A call that is neither dropped nor returned never gets stuck: it returns if its own future and the node serving it go on, with Ok if the caller's swarm is bootstrapped and the sibling is in its node's table with the type of the reference. Linking an actor with itself returns Ok at once and changes nothing. An actor is in its node's table exactly if it was registered or began to link itself to another actor and has not left since; a call can be dropped until it returns.", "quantifier": "every number of nodes, actors and calls, every interleaving of their pieces, every loss or failure of requests, every cancellation", "why_tests_cant": "The two sides are changed by different tasks on different nodes, with failures possible between any two steps.", "anchors": ["src/actor/actor_ref.rs: ActorRef::link_remote, ActorRef::unlink_remote, RemoteActorRef::link_remote, RemoteActorRef::unlink_remote", "src/remote/_internal.rs: link, unlink", "src/remote/swarm.rs: SwarmCommand::Link, SwarmCommand::Unlink"]}
{"id": "C55", "title": "A stopping actor tells its remote siblings", "statement": "The death of an actor is sent to an actor of another node only if it had a link to it when it stopped, with the reason it stopped for, and at most once. If it stops with a link to a running actor that is in its node's table, and the link was made with that actor's type, its notification is never refused and is either delivered or still can be, unless its on_stop panics or its node believes to have no peers. What becomes of a notification is decided by the state when it is looked up and when it is put into the mailbox; an actor handles the deaths it accepted in the order they came and can handle the next as long as it runs; an actor that has stopped gets through its end as soon as its notifications end. An actor that stops takes its links out, leaves the table once all its notifications are over, and is gone, unless its on_stop panics; it can always take the next of these steps.", "quantifier": "every number of nodes, actors, links and notifications, every interleaving of their pieces", "why_tests_cant": "The notification races with link and unlink calls, with the sibling's own end and with the network.", "anchors": ["src/actor/spawn.rs: run_actor_lifecycle", "src/remote/swarm.rs: ActorSwarm::signal_link_died", "src/remote/_internal.rs: signal_link_died"]}
{"id": "C56", "title": "The error hook reports every lifecycle failure once", "statement": "For every actor whose on_start returns an error or panics, or whose on_stop returns an error, the actor error hook is called exactly once with that error, in the order of the failures, before anybody waiting for the start or the end of that actor is given the error, and at the latest when its task returns. The hook called is the one that set_actor_error_hook set last at some moment between the failure and the call (the default one if none was set). Nothing else calls the hook, and as long as hooks return they do not change what actors do.", "quantifier": "every number of actors, every interleaving of their lifecycles and of set_actor_error_hook, every result of on_start and on_stop, every hook", "why_tests_cant": "The hook is a global shared by all actors and threads; the claim is about every moment at which it may be replaced and every order of failures, waiters and calls.", "anchors": ["src/error.rs: set_actor_error_hook, invoke_actor_error_hook", "src/actor/spawn.rs: run_actor_lifecycle"]}
{"id": "C57", "title": "Timeouts of requests run out when they should", "statement": "A request of a local actor, a recipient or a remote actor uses the mailbox and reply timeouts set last by its builder calls, and none if none was set; remote requests carry both to the actor's node. A request gives up for want of a place in the mailbox only if a mailbox timeout was set and has passed since the request was first polled, and then the message was never enqueued; it gives up waiting for the reply only if a reply timeout was set and has passed since the message was enqueued (for enqueue and try_enqueue: since the pending reply was first polled). Conversely a poll after the timeout, up to the resolution of the timer, finds the request sent or over, respectively over. With a timer that is never late the first poll at the time of the timeout does.", "quantifier": "every chain of builder calls, every sending method, every interleaving of polls with the passing of time, changes of the mailbox and the reply, every lateness of the timer up to its resolution", "why_tests_cant": "Tests use a few fixed delays with a free or a full mailbox; they do not vary the moments of the polls or compare what each way of sending does with each of the timeouts.", "anchors": ["src/request.rs: WithoutRequestTimeout, WithRequestTimeout, MaybeRequestTimeout", "src/request/ask.rs: AskRequest::mailbox_timeout, AskRequest::reply_timeout, AskRequest::send, AskRequest::enqueue, RemoteAskRequest", "src/request/tell.rs: TellRequest, RecipientTellRequest, RemoteTellRequest", "src/remote/_internal.rs: ask, try_ask, tell, try_tell"]}
{"id": "C58", "title": "Every handle belongs to one actor and the counts count them", "statement": "An ActorRef, Recipient, MailboxSender, WeakActorRef or link mailbox obtained from a reference in any number of steps (clone, downgrade, upgrade, recipient, taking the reference of a context, taking the sender) acts on that reference's actor in every respect: it reports its id, stops, kills, links and waits for that actor and reads that actor's startup and shutdown results, and no other actor shares any of that. Upgrading succeeds if and only if something strong of the actor is still held; strong_count and weak_count return how many strong and weak handles of the actor are held, messages in the mailbox and contexts included among the strong ones and links among the weak ones; two senders are of the same channel if and only if they belong to the same actor.", "quantifier": "every number of actors and handles, every sequence of operations on them", "why_tests_cant": "Tests look at a reference or its first clone; a handle some steps away that mixes the parts of two actors, or of startup and shutdown, shows only when that very part is used.", "anchors": ["src/actor/actor_ref.rs: ActorRef::clone, ActorRef::downgrade, ActorRef::recipient, Recipient, WeakActorRef::upgrade, WeakActorRef::clone, WeakRecipient", "src/mailbox.rs: MailboxSender, WeakMailboxSender", "src/actor/spawn.rs: PreparedActor::new", "src/message.rs: Context::actor_ref"]}
{"id": "C59", "title": "#[messages] turns each marked method into a message that calls it", "statement": "For each method of the block marked #[message] that takes self and named arguments of types a field can have, #[messages] generates one struct, in the block's order: it is named after the method, has the method's visibility and its documentation and the attributes given in the mark, and has one field per argument with the argument's name and type, in order. Handling a message of that struct calls the method with the message's fields as arguments, in the method's order whatever the order in which the fields were given, awaits it if it is async, and replies with what it returns. Methods that are not marked generate nothing. A compile error is generated if and only if a marked method cannot be made into a message. The block itself is kept as written, but for the marks and the documentation of arguments. If the block is for a type with a name, the macro panics if and only if some marked method uses a parameter of the block in its arguments or result and its message would have both a lifetime and a type parameter. Which errors they are is determined by the methods: unreadable brackets, each parameter whose type is impl Trait, inferred or a reference, a missing self, a parameter that is no name.", "quantifier": "every impl block of any methods with any attributes, arguments, types and generic parameters; every naming scheme; every behaviour of the methods", "why_tests_cant": "A macro's inputs are programs: tests expand the handful of blocks in the examples, while argument order, attributes, error cases and combinations of generics are unbounded.", "anchors": ["macros/src/messages.rs: Messages::parse, extract_messages, Message::try_from, expand_msgs, expand_msg_impls, validate_param", "macros/src/lib.rs: messages"]}
{"id": "C60", "title": "Which blocks with type parameters #[messages] can expand", "statement": "A struct generated for a method with arguments declares exactly the method's own type parameters and those of the block's type parameters that are, on their own, the type of an argument or of the result, or occur so inside tuples, references, arrays or the like but not inside the angle brackets of another type. The struct compiles and is named with the right parameters by its handler if and only if every parameter it declares occurs in an argument, every block parameter in an argument is found that way, and no parameter is found twice apart from its first occurrence. The handlers are for the type written after impl if that is a plain name applied to exactly the block's parameters. It declares the method's own lifetimes and those of the block's lifetimes that its arguments or result name in a reference or a trait object, outside angle brackets.", "quantifier": "every impl block with any type parameters, bounds and methods", "why_tests_cant": "The examples use one block parameter in one or two positions; where a parameter occurs inside a nested type, and in which order, is unbounded.", "anchors": ["macros/src/messages.rs: extract_messages, expand_msgs, expand_msg_impls, contains_generic_in_param"]}
{"id": "C61", "title": "The derive macros name actors as written and each remote handler is found under its ids", "statement": "#[derive(Actor)] gives the actor the name in #[actor(name = \"...\")], or the type's name if none is given, and is a compile error for any other content or a second attribute. #[derive(RemoteActor)] gives the id in #[remote_actor(id = \"...\")] or else the type's module path and name, so that default ids of differently placed or named types differ. A program's remote actors and #[remote_message(\"...\")] impls compile if and only if every attribute has such an id and no type or block has type parameters. Then, in whatever order registrations are collected, looking up a pair of an actor id and a message id finds the functions of precisely the impl registered with these ids, and using the table panics if and only if two impls have the same pair; likewise an actor id finds the type with that id, and using that table panics if and only if two types have the same id. Each wrong attribute and block has its own error.", "quantifier": "every program of remote actors and remote message impls with any attributes, every order of registration", "why_tests_cant": "Tests register a few actors of one crate; clashes, attribute variants and the order in which the linker collects registrations are unbounded and out of the tests' hands.", "anchors": ["macros/src/derive_actor.rs: DeriveActor, DeriveActorAttrs", "macros/src/derive_remote_actor.rs: DeriveRemoteActor, DeriveRemoteActorAttrs", "macros/src/remote_message.rs: RemoteMessage, RemoteMessageAttrs", "src/remote.rs: REMOTE_ACTORS_MAP, REMOTE_MESSAGES_MAP"]}
{"id": "C62", "title": "A call between nodes is served at most once and answered with its own result", "statement": "Whatever the interleaving of the nodes and the order in which requests and responses between them arrive, a remote call (ask, tell, link, unlink or death notice) is served by at most one task, on the node it is for or, while no peer is connected, on the caller's node; a task serves exactly one call, with the caller's request, and ends at most once. A result the caller gets is the result of that task and of the call's kind; a network error the caller gets was reported for its own request. A call made after another's result arrived is served after the other's task ended. A request on its way to a live node can be delivered, served and answered. Neither of these holds: that calls of one node to one actor are served in the order they were made, and that a call that failed with a network error was not served.", "quantifier": "any number of nodes, calls and connections, every interleaving, every order of delivery, losses and failure reports at any time", "why_tests_cant": "Tests run two nodes on one machine, where requests arrive in order and no failure is reported for a served request; the orders of delivery across nodes are unbounded.", "anchors": ["src/remote/swarm.rs: ActorSwarmHandler::run, handle_command, handle_event", "src/remote/swarm.rs: SwarmBehaviour for ActorSwarmBehaviour"]}
{"id": "C63", "title": "A remote ask or tell enqueues its message at most once, and its result says what happened to it", "statement": "Over any number of nodes that run one program: serving a remote ask or tell enqueues at most one message on all nodes together; it is the message of the request, in the mailbox of the actor that the serving node's table had under the request's actor id, with a reply channel exactly for an ask; nothing else enqueues messages for remote callers. If the message type is handled and survives serialisation, an ask or tell that returns no network error was served by one node and returns ActorNotRunning or BadActorType if that node's table had no such actor or one of another type, with nothing enqueued, and otherwise what the same ask or tell on the serving node returns. A tell that returns Ok has its message enqueued once; one that returns another than a network error has nothing enqueued. An ask that returns a value had its message enqueued once and the value is the reply to it. A call made after another's result arrived is enqueued after the other's. If every node's table holds only its own actors, the message is enqueued on the node the actor id names. A tell or ask on its way to a live node where the actor is registered and has room can be enqueued and answered. Neither of these holds: that two unawaited tells of one caller to one actor are enqueued in the order they were made, and that a tell that failed with a network error has nothing enqueued.", "quantifier": "any number of nodes, calls, programs and serialisers; every interleaving of nodes, serving tasks, network and other users of the tables and mailboxes", "why_tests_cant": "The claim joins caller, two swarm tasks, the network and the serving task; a test runs one order of their steps on one machine, and never changes the table or the mailbox between the steps of a serving task.", "anchors": ["src/remote.rs: ask, tell", "src/remote/swarm.rs: ActorSwarmHandler::handle_command, handle_request, ActorSwarm::send_swarm_command", "src/remote/_internal.rs: ask, tell", "src/request/ask.rs: RemoteAskRequest", "src/request/tell.rs: RemoteTellRequest"]}
{"id": "C64", "title": "A process has one swarm: the first bootstrap to insert it wins, everyone sees the same one, and it is never replaced", "statement": "Of any number of calls of bootstrap, bootstrap_with_identity, bootstrap_with_behaviour, bootstrap_with_swarm and bootstrap_manual, from any threads, at most one succeeds. It returns a swarm with its own peer id. Every other result, AlreadyBootstrapped included, and every later ActorSwarm::get shows that same swarm, and after anyone has been shown it get never returns none. bootstrap_with_swarm gives a losing caller its libp2p swarm back; bootstrap_manual returns none. A call that goes on undisturbed ends, and succeeds if there was no swarm. Commands sent through the swarm are taken by its handler in order, each once; those left when the handler is dropped are lost with it. Once the handler is gone, no command is accepted, no bootstrap succeeds, and get still returns that swarm. None of these holds: that commands can be sent through the swarm get returns, or through one a call has returned with success, and that a bootstrap made when there is a swarm always says so.", "quantifier": "any number of calls of each function, every interleaving of their pieces with get, commands and the loss of the handler; every failure of libp2p's constructors; calls inside and outside a runtime", "why_tests_cant": "The swarm is a static that can be filled once per process, so a test process sees a single race; the window between the check and the insertion, and between the insertion and the spawn, cannot be hit on purpose.", "anchors": ["src/remote/swarm.rs: ACTOR_SWARM, ActorSwarm::bootstrap, bootstrap_with_identity, bootstrap_with_behaviour, bootstrap_with_swarm, bootstrap_manual, get", "src/remote/swarm.rs: SwarmSender, SwarmFuture"]}
{"id": "C65", "title": "Whatever an overridden Actor::next gives, hooks run one at a time in a fixed order, every message is handled or dropped, and on_stop runs last", "statement": "Let Actor::next be overridden in any way: it may give the signals of the mailbox in any order, drop some, make up its own, give none, wait, or panic. The task calls one of on_start, next, message handlers, on_link_died, on_panic and on_stop at a time, and which one it calls next is determined by how the earlier ones ended. A message given by next is handled at most once, and never after it was dropped; it is handled at once if it was sent within the actor or the startup is over, else after the startup signal or a stop; messages of others are handled in the order given, and so are those sent within. Messages are dropped only after a failed handler, a kill, a panic of next, or an on_link_died or on_panic that ends the actor. Whenever next is called, every message given earlier has been handled or dropped, except those of others before the startup is over; when on_stop is called and when the task is over, none is left. After next gave a stop it is called again only if a handler failed and on_panic let the actor go on. A kill cuts whatever runs except on_start, on_stop and the on_panic of a failed start, and on_stop(Killed) follows. After on_stop nothing of the actor is called; the linked actors are told the reason after on_stop unless the start failed, and the task returns that reason; if it panics nobody is told. wait_for_startup is let go when next gives the startup signal or on_start fails, by nothing else. None of these holds: that on_stop is always called (not if next panics), and that messages of others are handled at all (not if next drops the startup signal). An actor that does not override next runs as one whose next gives the signals in the order the mailbox took them in, each once, gives none only when no reference is left, and never panics: the same user code is called in the same order with the same results, and the task ends in the same way.", "quantifier": "all sequences of answers and panics of next, all results of every hook and handler, kills at every point where the task waits, a mailbox with or without room for the startup signal", "why_tests_cant": "An overridden next can give signals in any order and make up its own, so the task can be in any of its states at any signal; a test fixes one next and one order.", "anchors": ["src/actor.rs: Actor::next", "src/actor/spawn.rs: run_actor_lifecycle, abortable_actor_loop, recv_mailbox_loop", "src/actor/kind.rs: ActorBehaviour", "src/mailbox.rs: MailboxReceiver::recv"]}
{"id": "C66", "title": "A mailbox of either kind hands over each signal that entered it once and in order, and what every call returns follows from the calls before it", "statement": "Let any calls be made on the handles of a mailbox, in any order: send (polled at any time, or dropped while it waits), the non-waiting send of the startup signal, closed, clone, drop, downgrade, upgrade and the counts on the senders; recv, recv_many, try_recv, close, is_closed, is_empty, len and drop on the receiver. What each returns is determined by the calls before it and their results. The signals taken, then those dropped with the receiver, then those still inside are in order exactly the signals whose send returned Ok; a bounded mailbox never holds more than its capacity. Every signal offered to a send entered, was given back, waits, or was dropped with its send. A send on an open mailbox enters at once exactly if there is room for it and for all sends that wait; one that waits enters when polled once the signals inside and the sends that began to wait before it are fewer than the capacity. After close, or when the receiver was dropped, every send gives its signal back; what is inside can still be received after close. recv returns None exactly if nothing is inside and either no sender is left, or the mailbox is closed and every send that had a place when it was closed has been polled or dropped; from then on it always does, and nothing enters. recv_many with a limit takes what as many recv would. The strong count is the number of senders outside of signals and one for each message inside or waiting; upgrade succeeds exactly if it is not zero. To one sender the answer to each of its calls is told by how many signals are inside, how many places were handed to waiting sends of others, and whether the mailbox is closed; nothing else about the other handles matters to it. The mailbox of a running actor is one of these: whatever others call on their handles, the actor afterwards finds the same signals, as many references and the same room; and each step of the actor, from its start to the end of its task, makes only receives, one attempt to send the startup signal, clones and drops, and goes on with what they returned. Bounded and unbounded mailboxes cannot be told apart while no send has to wait or is turned away. Not true: that sends enter in the order they began, and that recv on a closed and empty mailbox is at once None.", "quantifier": "all sequences of calls on one mailbox, all capacities of a bounded mailbox and the unbounded kind, all signals, all moments at which waiting sends are polled or dropped", "why_tests_cant": "The interesting cases need a send that was given room and has not been polled, at the moment of a close, a drop or another send; the runtime polls it at once in a test. Order, capacity and conservation are claims about all interleavings of any number of handles.", "anchors": ["src/mailbox.rs: bounded, unbounded, MailboxSender, WeakMailboxSender, MailboxReceiver, Signal", "src/actor.rs: Actor::next"]}
{"id": "C67", "title": "The text of an actor id names exactly one actor, and an id goes through serde unchanged with formats that lend their bytes", "statement": "On one node two ids have the same Display text exactly if they are equal, and the same for Debug; the texts of two ids on two nodes are the same exactly if the ids denote the same actor there, so the text of an id with a node is the same everywhere. Serialising an id and deserialising it with a format that lends its bytes gives an equal id, and, from a bootstrapped node, one that denotes the same actor wherever it is read. Not true: that the text of a generated id stays the same when the node is bootstrapped (it always changes), and that ids survive formats that do not lend their bytes (they never do). Deserialising fewer than eight bytes panics; the length error is never given.", "quantifier": "all ids, all types of peer ids with injective base-58 texts, all nodes bootstrapped or not, all bytes, all ways a format hands bytes over", "why_tests_cant": "Injectivity is a claim about all pairs of ids and peers, and the text of one id depends on the state of the process. Tests use the one or two formats at hand.", "anchors": ["src/actor/id.rs: Display for ActorID, Debug for ActorID, Serialize for ActorID, Deserialize for ActorID"]}
{"id": "C68", "title": "The text of a stop reason or of an error tells what it says it tells, and converting, flattening or sending it keeps the text", "statement": "Two stop reasons have the same Display text exactly if they are of the same kind, carry the same words if they are panics, and name the same actor if they are deaths of links; they have the same Debug text exactly if the whole chain of links and the kind at its end are the same. Sent from a bootstrapped node, a stop reason keeps its chain and its text on every node, except that a panic's text gets another \"panicked: \" in front; with a format that does not lend its bytes the reader refuses exactly the deaths of links. The text of a local send error that is not the handler's tells its kind and nothing of the message; mapping, flattening and turning it into a remote error keep the text. Remote send errors with the library's own text are the same if the texts are, strings included, up to those about unknown messages, whose text tells both ids if the message's contains no quote. The text of a registry error tells all of it. Not true: that the text of an unknown message's error always tells the ids, and that a handler's error cannot look like one of the library's.", "quantifier": "all stop reasons of any depth, all errors with all messages, strings and handler errors, all ways handler errors are printed, all nodes", "why_tests_cant": "Chains have any depth, strings any content; that two different values never look the same is a claim about all pairs.", "anchors": ["src/error.rs: Display for SendError, Debug for SendError, Display for RemoteSendError, Display for RegistryError, ActorStopReason, Display for PanicError, SendError::flatten, SendError::map_msg, RemoteSendError::map_err"]}
{"id": "C69", "title": "A panic error shared by many threads shows each of them the value it was made with, to one closure at a time, and reading it deadlocks exactly when the readers wait for each other", "statement": "Let any threads make panic errors, clone them, and read them with with, with_str and with_downcast_ref, also inside of the closures of other reads, with closures that return or panic. What each read gives is told by the calls and closures before it: a closure is called with the error, its text, or its value of the type asked for, as the error was made, whichever clone it is read through; if it has no text or not that type the call returns None without calling the closure. At most one closure runs for an error and all of its clones. A read goes on exactly if no closure for the error is running; a closure can always return unless it waits for a read of its own. A closure that panics leaves everything as one that returns: later reads of the error give the same. A read inside of a closure for the same error, or a clone of it, never returns; nor do reads of threads each of which waits for an error that another of them is in a closure for. If reads inside of closures follow one order of the errors, then while any read waits, some waiting read can go on or some closure can return. Not true: that this is so without such an order.", "quantifier": "all numbers of threads, errors and clones, all values, all interleavings of calls, closures, returns and panics, all nestings", "why_tests_cant": "The claims are about all interleavings and nestings of readers; a deadlock appears in a test as a test that hangs, and only under the one schedule that produces it. Poisoning needs a panic inside of a closure.", "anchors": ["src/error.rs: PanicError, PanicError::with, PanicError::with_str, PanicError::with_downcast_ref, PanicError::downcast, Display for PanicError, Debug for PanicError"]}
{"id": "C70", "title": "An awaited request waits for ever exactly when the actors wait for each other in a circle; one timeout frees them; kills in on_start do not; the debug warning knows of self-requests only", "statement": "Let the code of any actors (on_start, handlers, on_stop) await ask and tell requests to any actors, themselves included, and other things, while messages come from outside, timeouts run out, reply senders are handed on, and actors stop or are killed at any time. An actor's wait can end without a timeout, or a kill of a running actor, among those it waits for, directly or over others, exactly if the chain of actors it waits for does not come to one that waits for itself. If it does not, the actors only have to go on with what is in their mailboxes for the wait to end. If it does, each of them waits for the same actor for ever, whatever else happens: stop signals are messages and are not read, and a kill while on_start or on_stop runs ends nothing. Only an awaited request makes such a circle. One timeout of one of them, or a kill of one whose loop runs, frees all that wait over it. If actors await requests only to actors of lower rank in some order, none is ever in a circle. An ask awaited in the actor itself is one always, a tell exactly if the mailbox is bounded and full; a tell waits exactly if the mailbox is full and the actor has not ended. An awaited ask waits for the actor it was sent to, first for room if there is none, until its message has been handled, its reply handed on, or the actor has ended; a tell that waits does so until it is its turn for a free place. An actor that does not wait and was neither stopped nor killed can be stopped whatever it does, once. Debug builds warn of exactly the asks of an actor to itself and the tells to itself with a bounded mailbox, in tasks that spawn made; a warned ask waits for ever, a warned tell exactly if the mailbox is full. Not true: that every circle is warned of.", "quantifier": "all numbers of actors, all capacities of at least one, bounded or unbounded, all interleavings of requests, replies, handed-on replies, timeouts, stops and kills", "why_tests_cant": "A deadlock is a test that hangs under one schedule; that a wait never ends, or that an order of the actors excludes deadlocks, is about all continuations and all schedules.", "anchors": ["src/request/ask.rs: AskRequest::send, warn_deadlock", "src/request/tell.rs: TellRequest::send, warn_deadlock", "src/actor/spawn.rs: run_actor_lifecycle, recv_mailbox_loop", "src/actor/actor_ref.rs: ActorRef::is_current, ActorRef::kill", "src/mailbox.rs: bounded, unbounded"]}
{"id": "C71", "title": "A dropped task closes the mailbox and fails every asker, but calls no hook, tells no linked actor and leaves waits for its startup and result without an answer", "statement": "Let the task of an actor be dropped instead of stopped, at any moment of its life: JoinHandle::abort on what PreparedActor::spawn returned, the future of PreparedActor::run dropped, a PreparedActor never run, or the runtime shut down. The task can be dropped before it is polled first, in every piece of user code, at an await, whenever its loop gave control back, and from the end of the loop until the registry has been told; not while it is being polled, and never if it runs in a thread of its own. From then on the mailbox is closed: no tell, ask or stop is accepted, and wait_for_shutdown returns. Every message accepted before has been handled once or is dropped unhandled, and every asker gets its reply or an error, once, unless user code had been given the reply sender. No code of the actor begins or returns any more: on_stop and on_panic are not called, and the handler or hook that runs is cut off. The strong references left are those held outside the actor and the registry's. Linked actors are told only if on_stop had returned before, and none after the drop. wait_for_startup returns afterwards exactly if it could have returned right before. wait_for_shutdown_result finds no result and panics. An actor registered for remote use keeps its registry entry, and with it a strong reference, for ever. Not true: that linked actors are told of the end of every actor that has started; that wait_for_startup returns if on_start has succeeded.", "quantifier": "all mailbox capacities, all runs of the actor and its environment before the drop, all moments of the drop at which the task is not being polled, all continuations of the environment", "why_tests_cant": "A test aborts a task at one await; the claims are about every await of the lifecycle, every content of mailbox, startup buffer and links, and, for the waits that never return, about every continuation.", "anchors": ["src/actor/spawn.rs: PreparedActor::run, PreparedActor::spawn, run_actor_lifecycle, abortable_actor_loop", "src/actor/actor_ref.rs: ActorRef::wait_for_startup, ActorRef::wait_for_shutdown_result", "src/actor/kind.rs: ActorBehaviour"]}
{"id": "C72", "title": "listen_on, dial, add_peer_address and disconnect_peer_id are carried out in call order whatever becomes of their futures, each future returns its own result once, and a node never stops being a server or forgets an address", "statement": "Consider any number of calls of ActorSwarm::listen_on, dial, add_peer_address and disconnect_peer_id on a node, with any results of libp2p, and mDNS finding and losing addresses in between. libp2p is given each call's request at most once and in the order of the calls, and while the swarm's handler exists the oldest request not yet carried out can always be carried out next. The future of listen_on or dial is pending until its own request is carried out and then returns libp2p's result for that request, once; it panics only if the handler was dropped before that. Polling, dropping or ignoring futures changes nothing of what is carried out: a dial whose future is dropped unpolled still takes place. The node serves Kademlia queries from the moment a listen_on was carried out, whether or not it succeeded, and never ceases to. Kademlia is given exactly the addresses mDNS finds and none is taken back. After the handler is dropped every call panics and nothing more is carried out or learned. Not true: that a node in server mode has listened successfully; that an address that mDNS reports as expired is forgotten.", "quantifier": "all sequences and interleavings of calls, polls and drops of futures, steps of the handler, results of libp2p, and mDNS events; any moment of the handler's end", "why_tests_cant": "A test makes a few calls against one network; the claims are about every order of calls, answers and dropped futures, about results libp2p rarely gives, and about what never happens afterwards.", "anchors": ["src/remote/swarm.rs: ActorSwarm::listen_on, ActorSwarm::dial, ActorSwarm::add_peer_address, ActorSwarm::disconnect_peer_id", "src/remote/swarm.rs: ActorSwarmHandler::handle_command, ActorSwarmHandler::handle_event", "src/remote/swarm.rs: SwarmSender::send_with_reply, SwarmFuture"]}
