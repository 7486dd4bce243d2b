# Formal model of kameo (v0.16.0) in Rocq

All line numbers refer to the pinned source in `/repo`. The code is read as
text; it is never built or run. The tie between model and code is the reading,
so every definition of the model carries a comment with the file and lines it
models and says where it simplifies.

## 1. Layout

```
rocq/theories/
  <Area>.v            executable model of one area of the code (no proofs)
  <Area>_spec.v       small specification vocabulary, independent of the model's helpers
  <Area>_proofs.v     invariants, lemmas (also <Area>_more_proofs.v, <Area>_line_proofs.v)
  P_<Area>.v          property theorems only, each closed by `exact lemma`,
                      with an Example (non-vacuity) and Print Assumptions
```

Areas: `Lifecycle` (one actor and an arbitrary environment), `System` (any
number of actors with links), `LinkLocks`, `Requests` (tell/ask and error
conversions), `Dyn` (run-time types and downcasts), `Reply`, `Errors`,
`ActorId`, `Registry`, `Stream`, `Pool`, `PubSub`, `Delivery` (what `Broker` and
`MessageBus` have in common), `Broker`, `MessageBus`,
`RemoteDispatch`, `Swarm`, `RemoteRefs`, `PeerLoss`, `RemoteLinks`, `ErrorHook`,
`Timeouts`, `Refs`, `Macros`, `Derives`, `Cluster`, `RemoteCalls` (both together: `Cluster`
nodes whose tasks run `RemoteDispatch`), `Bootstrap` (how a process gets its swarm), `Loop` (one
actor's task with an overridden `next`), `Mailbox` (the mailbox API that such a `next` is given),
`MailboxView` (what one sender sees of a mailbox), `MailboxActor` (the mailbox an actor owns), `Texts` (what ids, errors and stop reasons look
like, and what of them survives serde), `PanicLock` (reading a shared panic error from many threads),
`Waiting` (actors whose code awaits requests to each other), `Cancel` (actors whose task is dropped),
`Network` (listening, dialling and known addresses of a node).

## 2. Modelling decisions

* **User code is the environment.** Hooks and handlers are arbitrary Rust code.
  The lifecycle model is a labelled transition system
  `step : state -> event -> option (state * list obs)`; the result of a hook or
  handler (Ok / Err e / panic) is part of the *event*, so a theorem over all
  event sequences is a theorem over all actors, all schedules and all crash
  points. `None` means the event is not enabled in that state.
* **Traces.** Properties are stated over the observations (`obs`) the run
  emits - message accepted, handler begun/ended, hook called, mailbox closed,
  reply delivered - not over internal state.
* **Atomicity.** One event is one atomic effect on shared state (one channel
  push or pop, one `OnceLock::set`, one lock-protected map update). Everything
  between two such effects is interleaved with every other party.
* **tokio, std and futures are trusted**, and modelled by their documented
  contracts: mpsc channel (FIFO, bounded by permits, closed when the receiver
  is dropped, `recv` returns `None` iff empty and no strong sender), oneshot
  (dropping the sender wakes the receiver with an error), `Semaphore`,
  `OnceLock`, `Mutex`, `Abortable` (checks the flag before polling and after
  the inner poll returned pending), `HashMap` (finite map, iteration order
  arbitrary), `Any::downcast` (succeeds iff the dynamic types are equal).
* **Panics** are explicit outcomes, never defaulted away.
* **64-bit wrap-around** is written as `mod 2^64` where the code relies on it
  (`ActorID::generate`, little-endian encoding).
* `cfg(feature = "remote")` code is modelled as such; where the feature changes
  behaviour the model has both.

## 3. Plan per property

| id | modelled by | proof |
|----|-------------|-------|
| C01 | `Lifecycle` trace: accepted / handler-begin observations | invariant: handled ++ in-flight ++ buffer ++ queue is a subsequence of accepted (equality without losses), induction over events; `Lifecycle_signals_spec` for messages and notifications together |
| C02 | same | same invariant + NoDup of message ids; "open call" automaton over traces |
| C03 | same | invariant linking phases with the trace |
| C04 | same; `inside` flag computed from task scope | invariant on queue split at the startup marker; refutations with a full mailbox and with unscoped `run` |
| C05 | same; stop signal position in the accepted sequence | exactness invariant; refutation: stop lost when a buffered message fails and on_panic continues |
| C06 | strong count = external + queued + in-flight + runtime | invariant; refutation for `spawn_in_thread` |
| C07 | `aborted` flag, `polled` flag, Abortable contract | step inversion + invariant over traces |
| C08 | hooks in trace | invariant; crash states refute "links notified" |
| C09 | hooks in trace | local automaton over traces |
| C10 | exactness invariant restricted to runs without buffer loss | induction; refutation witness for buffer loss |
| C11 | permits, startup_error cells, waiter enabledness | invariant; refutation by closed set of states (hang is permanent) |
| C12 | closed flag, shutdown_error cell | invariant |
| C13 | reply ownership map | invariant over ask ids |
| C14 | handler outcome x reply ownership | step lemma lifted to traces |
| C15 | queue length + reserved permits, `Lifecycle_room_spec`: permits given and back by history | invariant; acceptance exactly when |
| C16-C20 | `Requests`: every request variant as a function of channel state and timer oracle | case analysis over all states, universally over types and values |
| C21, C22 | `Dyn`/`Reply`: universe of run-time types closed under SendError/pair nesting | induction over chain length; refutation for chains >= 2 |
| C23, C24 | `Errors` | equational |
| C25 | `Dyn` payloads | equational, induction over hops |
| C26-C28 | `ActorId` over N with explicit wrap | arithmetic, induction over generators |
| C29 | `Swarm` registration codec over byte lists | list reasoning with the PeerId codec as section variable |
| C30 | `Registry` | refinement to a name -> (type, actor) function |
| C31-C34 | `System` link maps | invariant over op sequences / traces |
| C35, C31 | `LinkLocks`: lock acquisition machine | no-deadlock proofs by the rank of the locks and by the order of the requests; refutations by a closed set of states; linearizability by an invariant with a ghost order |
| C36 | `System` | deadlock witness (no event of either actor enabled); progress lemma otherwise |
| C37 | `Lifecycle` ref events, `Lifecycle_count_spec` | invariant |
| C38 | `Stream` task machine | invariant over item prefix |
| C39-C42 | `Pool` | induction over workers |
| C43 | `PubSub`: filters with state, the futures of one publication | invariant tying the map and the sends to the history |
| C44-C46, C53 | `Delivery`: one machine for both, over any table key and recipient; `Broker`, `MessageBus` are its instances | invariant; counts of attempts; refutations by witness runs |
| C47 | `RemoteDispatch` | classification by the first failing check; refinement to a local request; round trip |
| C48 | `Swarm`: the command channel, the handler's maps, its tasks, libp2p as an arbitrary source of events | counting invariant: each reply sender is in exactly one place |
| C49 | `Swarm` record store, node table | verdict by cases, histories of records |
| C50 | `PeerLoss`: the tasks of closed connections beside changes of the table and the links | invariant on each task, termination measure |
| C51 | `RemoteRefs`: any number of link_remote/unlink_remote calls beside one `Lifecycle` actor | projection to lifecycle runs; invariant on the table's reference |
| C52 | `System` | trace ordering |
| C54, C55 | `RemoteLinks`: any number of nodes, actors, link/unlink calls and notifications, their pieces interleaved arbitrarily; the network may lose requests and report failures at any time | link maps as a fold over the history; invariants on calls and notifications; a notification on its way stays on its way |
| C56 | `ErrorHook`: any number of `Lifecycle` actors sharing one hook, which is loaded and called in two steps and may panic | invariant; projection to lifecycle runs and back |
| C57 | `Timeouts`: the builders of requests as functions; a `Requests` request whose timers are run by a clock, each at most `gran` late | induction on builder calls; invariant relating the trace of polls to the deadlines |
| C58 | `Refs`: programs over any number of handles of any number of actors, handles as records of shared parts, tokio's sender counts as counters | invariant relating handles and counters to a book kept from the history |
| C59, C60 | `Macros`: `#[messages]` as a function from syntax trees to syntax trees, and the run of a generated handler | induction on the block's items and on types; case analysis on fields |
| C61 | `Derives`: the two derives and `#[remote_message]` as functions of attributes, programs of any number of them, the two tables | induction on attributes, tokens and registrations |
| C62 | `Cluster`: any number of `Swarm` nodes; requests and responses on their way as bags delivered in any order | projection to each node's run; invariants tying channels, requests and tasks |
| C63 | `RemoteCalls`: the cluster of C62 whose serving tasks are runs of the dispatch code of C47; tables and mailboxes change freely between their steps | projection to a cluster run and to each task's dispatch run; C62 and the dispatch theorems joined |
| C64 | `Bootstrap`: any number of calls of the bootstrap functions, piece by piece, the static they fill, `get`, the channel of commands | invariant on the static, the calls and the channel, induction on events |
| C65 | `Loop`: one actor's task with an arbitrary `next`, all hooks and kills, no mailbox; `Lifecycle` for the default `next` | invariant on state and history, induction on events; forward simulation |
| C66 | `Mailbox`: any calls on a mailbox of either kind, tokio's channel with its semaphore, waiting sends polled and dropped at any time | the model is equivalent to a function of the calls made so far (C66_exact), the rest follows from that; `MailboxView`: the small mailbox of `Requests` (used for C16-C20 and C57) is what one sender sees of this one (C66_seen_*); `MailboxActor`: the mailbox inside `Lifecycle` (used for the properties of one actor) is this one: calls of others are sends, references and permits there, and each step of the actor is a receive, the startup signal, clones or drops here (C66_calls_of_others, C66_calls_of_actor, C66_actor_waits, C66_actor_starts) |
| C67 | `Texts` over `ActorId`: `Display`, `Debug` and serde of ids; the base-58 text of a peer and the way a serde format hands bytes to a visitor are arbitrary | cutting texts at characters that cannot occur in a number or in base 58 |
| C68 | `Texts` over `Errors` and `Dyn`: texts of send, remote, registry errors and of stop reasons, derived serde of stop reasons | case analysis; induction over the chain of links for `Debug` and the hop |
| C69 | `PanicLock`: any number of panic errors, clones and threads, closures nested at will, returning or panicking | the mutexes of the model are equivalent to a function of the calls and closures so far (C69_exact); deadlocks are closed sets of waiting threads, progress by induction on an order of the errors |
| C70 | `Waiting`: any number of actors, each with a mailbox, sends that wait for room, and what its code awaits; on_start, handlers and on_stop apart | a request awaited by an actor is in one place (invariant); closed sets of waiting actors stay; by induction along the chain of waits the others can be served; only requests add waits, so ranks exclude cycles |
| C71 | `Cancel`: the actor of `Lifecycle` and the drop of its future at an await point | the conservation and ask invariants of `Lifecycle` up to the drop; what a task that is gone can still show, by induction over the continuation |
| C72 | `Network`: the channel of the handler, the commands for listening, dialling, addresses and disconnecting, the futures of the calls, mDNS; libp2p's results are arbitrary | invariant relating channel, mode, addresses and each future to the calls and observations so far; simulation up to futures (C72_unnoticed) |

## 4. Not modelled

* The token text the macros print and parse (`syn`, `quote`), tracing output, the alternate format
  `{:#?}`, the `Debug` of `PanicError` and the texts of `BootstrapError` (other crates' texts). `Texts`
  assumes of libp2p's `PeerId` that its text is base 58 and different for different peers, and of
  serde that `&[u8]` accepts bytes and text borrowed from the input and nothing else.
* libp2p itself (Kademlia, mDNS, transport, dialling), rmp-serde: oracles.
  What `Swarm` assumes of libp2p: query and request ids are not reused; Kademlia's
  `put_record` stores the record with the local peer as publisher and `remove_record`
  removes only records with that publisher; everything else it may do (answers in any
  order, for any id, repeated or never, records appearing and vanishing) is arbitrary.
  `Cluster` also assumes that a request or response is delivered at most once, unchanged and
  only to the node it is for, and that response channels are distinct. `RemoteCalls` also
  assumes that all nodes run one program. Actor ids travel unchanged: a remote reference's id
  names its peer (src/remote/swarm.rs 340-345), and such ids are serialised whole
  (src/actor/id.rs 110-127, C27).
  Of listening, dialling and mDNS, `Network` has what kameo's handler does and not what libp2p does
  (a connection made or closed is an event of `Swarm` and `PeerLoss`). The behaviour's configuration
  and forwarding (swarm.rs 1020-1720 where no area cites them) are not modelled. `Bootstrap` takes
  each call of libp2p while bootstrapping as one step that goes well or not; a panic there ends
  the call with nothing changed and is not an event.
* Real time, except in `Timeouts`: elsewhere a timer is an oracle that may or may not fire.
* Memory safety, performance, tokio fairness. `Mailbox` contains tokio's channels as far as their
  results can be seen (src/mailbox.rs only forwards to them): the fair semaphore of a bounded
  channel, permits assigned to sends not yet polled, what is left when it is closed. Wakers are not
  modelled, so it says what a poll returns and not that a task is woken. What `try_recv` says of a
  closed and empty channel depends on the version of tokio and is left open.
* The default `next` (src/actor.rs
  259) is what `Lifecycle` uses; `Loop` takes any `next`, but says nothing about the
  mailbox, references and replies. Every run of `Lifecycle` is a run of `Loop` with the same
  calls of user code (C65_default); what reply channels and links get is only in `Lifecycle`.
* `Actor::on_message`: it is documented as a hook but nothing in the library
  calls it (finding 7).

## 5. Trusted base

* Coq 8.16.1's kernel (and `vm_compute`, used for examples and witnesses).
* `Print Assumptions` under every property theorem reports
  "Closed under the global context": no axiom at all, neither of the standard
  library nor of ours.
* `coqchk` additionally lists seven names of `Coq.ssr.ssrunder.Under_rel`, a sealed
  module of the standard library that `lia` loads. No theorem depends on them.
* The reading of the source recorded in the comments of the model files, and
  the contracts of tokio/std/futures listed in section 2.
* Termination theorems (C05, C06) are about one actor: they assume that its
  link map's lock is eventually granted and that the notifications it sends are
  eventually accepted. When that fails is the subject of C35 and C36.

## 6. Findings (behaviour that contradicts the documentation or is surprising)

Those with a theorem are machine checked; the others are from the reading.

1. A mailbox that is full when `on_start` returns makes the startup marker get
   lost: `wait_for_startup` hangs forever (C11_never_if_full) and the actor's own
   messages lose their priority (C04_full_mailbox_refuted).
2. Stop or kill before the marker is received: `wait_for_startup` never
   completes (C11_never_if_left_early).
3. A failure among the messages buffered during startup drops the remaining
   buffered messages although `on_panic` continues (C10_buffered_lost_refuted).
4. A stop accepted before the marker is lost when a buffered message fails and
   `on_panic` continues (C05_stop_lost_refuted).
5. A failed `on_start` stops the actor even if `on_panic` returns Continue
   (C09_failed_start), and tells no link (C03_failed_start, C08).
6. `kill` during `on_start` has no effect until it finishes, and none if it fails
   (C07).
7. `Actor::on_message` is never invoked.
8. `PreparedActor::run` is not run in the task scope, so self-sent messages get
   no priority (C04_unscoped_refuted).
9. A panic in `on_panic` or `on_stop` is not caught: links are never notified
   and `wait_for_shutdown_result` panics (C08_crash, C12_crashed).
10. An actor spawned in its own thread keeps a strong reference to itself and
    never stops by reference exhaustion (C06_referenced).
11. An error returned after the reply sender was taken counts as an actor
    failure (C14_outcomes).
12. A timed out request does not survive `RemoteSendError` conversions with its
    kind (C24_timeout_kind_kept_refuted); `PanicError` does not survive a serde
    round trip (C25_serde_roundtrip_refuted).
13. An error reply that crosses two or more `ForwardedReply` hops makes the asker
    panic in `downcast_err` (C21_error_more_hops_refuted).
14. `stop_gracefully` on a stopped actor panics instead of returning its
    documented error (C19_error_refuted).
15. The enqueue family panics on every failed send unless the message type is
    `()`; the forward family and `Context::forward` (with a reply sender) panic
    on every failed send (C20_failure_reported_refuted, C20_ctx_forward_asked).
16. `ActorID::from_bytes` panics on fewer than 8 bytes; its documented error
    `MissingSequenceID` is never returned (C27_short_panics,
    C27_missing_sequence_refuted).
17. An id serialised before bootstrap is read as the reader's own actor
    (C27_unbootstrapped_refuted); bootstrapping changes the hash of every local id
    and makes it equal to ids it differed from (C28_*_refuted).
18. `unregister` stores an empty record on other nodes; `lookup_local` there panics
    inside the swarm task when decoding it (C29_unregistered_refuted).
19. A delegated-reply marker that is returned without a reply sender having been
    taken makes the call panic (C22_stale_marker_refuted).
20. Linking to an actor that has already taken down its links succeeds but is never
    followed by a report (C32_late_link, C32_every_link_told_refuted).
21. `unlink` does not recall a `LinkDied` already in the mailbox: the actor still
    reacts to it (C31_unlink_recalls_report_refuted).
22. An actor whose `on_start` fails tells no link, and whoever is linked to it keeps
    the link for ever (C33_tells_nobody, C33_stale_link).
23. Two linked actors with full bounded mailboxes that stop at the same time wait for
    each other for ever (C36_bounded_mailboxes_refuted).
24. An actor that is killed while handling a `LinkDied` still has the dead actor in
    its links when it takes them down (System.v, `EKill a true`).
25. Two tasks that call `a.link(&b)` at the same time on a multi-threaded runtime can
    wait for each other for ever, even in the same direction: `tokio::join!` requests
    the second lock while the first is taken. Neither actor can then finish shutting
    down (C35_same_direction_refuted). `blocking_link` in opposite directions likewise
    (C35_opposite_refuted).
26. `attach_stream` drops the stream when the actor stops while an item is being sent;
    only that item is returned (C38_handed_back_refuted).
27. The deprecated `wait_for_stop` waits for startup instead (src/actor/actor_ref.rs
    351-353).
28. A pool worker that ends before the pool has linked it, in `on_start` or in
    `on_link_died`, is never replaced (C40_replaced_refuted).
29. The retry of `Dispatch` picks the same dead least loaded worker each time, and the
    final error, which counts as unhandled, stops the pool while other workers live
    (C41_live_worker_refuted, C41_dead_least_told).
30. `Dispatch` for an asker panics in `forward` when the chosen worker has ended, and the
    pool stops; the retry is never reached (C41_dead_least_asked, follows from C20).
31. The pool waits for room at a worker that has left its loop, while the worker waits for
    room in the pool's mailbox to report its end: a deadlock (C41_completes_refuted).
32. Asking a `Dispatch` panics in the asker whenever the handler returns an error or the
    inner actor has stopped (C41_answer_error_refuted).
33. A told `Dispatch` or `Broadcast` whose handler returns an error ends the worker, and
    what was in its mailbox is lost (modelled in `EFinish`).
34. `bounded(tx.capacity())` panics when the inner actor's mailbox is full at that moment
    (C41_panicked).
35. A recipient that the broker finds not running is removed only under the patterns that
    matched the topic; under its other patterns it stays, with its strong reference,
    until one of them matches (C44_every_pattern_refuted).
36. With `Guaranteed` one recipient whose mailbox stays full stops the whole broker or
    bus (C46_guaranteed_blocks); `PubSub` always behaves so, although the sends of one
    publication do not delay one another (C43_blocked, C43_not_delayed).
37. With `Spawned` and `SpawnedWithTimeout` two publications may reach a recipient in the
    opposite order (C53_spawned_order_refuted).
38. Subscribing twice to the broker or registering twice with the bus gives two copies of
    each publication; `PubSub` replaces (C44_copies, C45_copies, C43_copies).
39. A filter that panics stops the `PubSub` before any copy of that message is sent, also
    to the subscribers whose filters were called before it (C43_panic).
40. `PubSub` is documented to let actors unsubscribe; there is no message or method for it
    (actors/src/pubsub.rs 14, 67-208). `publish` clones the message also for subscribers
    whose filter rejects it, because `then_some` is eager (104-107).
41. A remote request whose mailbox timeout elapses reports `ReplyTimeout`, the error of a
    reply that did not come, so the caller of an ask cannot tell whether the message was
    enqueued (C47_reply_timeout_refuted).
42. `remote_ask` reports a reply it cannot decode as `DeserializeMessage`, the error of a
    message that never reached the actor (C47_bad_reply_refuted).
43. The futures of remote requests panic when the reply sender is dropped, as when the task
    serving the request in the same node panics (C47_ask_panics, C47_tell_panics; a task
    panics on a reply that does not downcast, C47_served and finding on C21).
44. `unregister` with no connected peer answers Ok and removes nothing when the name was
    registered while there were no peers either: the name is found ever after
    (C49_unregister_alone_refuted). With peers the unregistering node removes its record, and
    an empty record is sent to the others.
45. An empty or unparsable record in the local store, which any peer can put there, makes
    `lookup_local` panic inside the swarm task; from then on every call of the node panics
    (C49_garbage_kills, C48_dead_forever).
46. The swarm task also panics when the local store refuses a record, as when it is full or
    the record too large, during `register` or `unregister` without peers
    (C48_handler_panics).
47. A peer that answers a request with a response of another kind makes the caller's
    future panic (C48_wrong_kind_refuted).
48. `unregister` leaves the actor in the node's table, with a strong reference
    (C49_unregister_keeps_table); the actor stays reachable by its id and alive.
49. While no peer is connected, a request to an actor of another node is served by the
    local node, which reports that the actor is unknown or not running; while some peer is
    connected, a request to an actor of the own node is given to the network
    (C48_started_once and `outgoing` in Swarm.v).
50. A `link_remote` that returns an error, or is cancelled, has already put a strong
    reference to the actor into the node's table and recorded the link (C51_failed_link_refuted,
    C51_pinned); nothing but the end of the actor takes the reference out.
51. A reference put into the table after the actor's task removed its entry, or left there by
    a task that panicked, stays for ever (C51_kept_forever): the entry leaks and the actor's
    weak references keep upgrading.
52. A closed connection counts as the loss of its peer even if others to the same peer
    remain, and every connection that closes reports the same links again
    (C50_any_connection, C50_twice_refuted).
53. The task of a closed connection reads the link maps one after the other while it holds
    the lock of the node's table; a link map that stays locked blocks every lookup,
    registration and remote request of the node.
54. `link_remote` and `unlink_remote` change the caller's own links before they ask for the
    swarm and for the sibling: every error they return leaves this half done, and a network
    error may leave the link recorded on both sides (C54_refused, C54_failed_link_refuted).
55. `link_remote` may return Ok although the sibling has already taken out its links to notify
    them; it is then recorded on both sides, yet the sibling's end is never reported
    (C55_late_link_refuted).
56. The notifications of remote links are built when the actor stops but only sent after
    `on_stop` has returned: if it panics none is sent (C55_panic_silent, C55_panic_refuted), and
    an actor whose `on_start` fails sends none either (C55_start_silent).
57. `RemoteActorRef::link_remote` sends its two requests at once and returns the first error
    (`actor_ref.rs` 1148-1155). The other request is not taken back: one actor may be left with
    a link the other does not have (C54_remote_onesided_refuted).
58. The error hook is documented to be called immediately when `on_stop` returns an error. It
    is called only after every link has been told, so a link with a full mailbox delays it for
    ever (C56_waits_for_links). An `on_stop` that panics is not reported at all, while an
    `on_start` that panics is (C56_stop_panic_silent, C56_each_once).
59. An error hook that panics over a failed `on_start` ends the task before the startup
    semaphore is opened: `wait_for_startup` hangs for ever (C56_panic_on_start). Over a failed
    `on_stop` it leaves `wait_for_shutdown_result` without a result, which panics
    (C56_panic_on_stop).
60. `Recipient::downgrade` is a `todo!()` (`actor_ref.rs` 1414-1416): it always panics.
61. The reply timeout of `enqueue` and `try_enqueue` counts from the first poll of the pending
    reply they return, not from when the message was enqueued (`ask.rs` 215-219, 416-420): a
    caller that polls it late waits that much longer (C57_enqueue_refuted).
62. `strong_count` is not the number of `ActorRef` handles: every message in the mailbox and
    every context holds a reference that counts (C58_strong_count_refuted). `weak_count` is not
    the number of `WeakActorRef` handles: the links of siblings and the actor's own task count
    (C58_weak_count_refuted).
63. `WeakRecipient<M>` is `Clone` only if the *message* type `M` is an `Actor`
    (`actor_ref.rs` 1336); since `Recipient::downgrade` panics (60) no `WeakRecipient` exists.
64. `#[messages]` panics instead of reporting an error when a message has both lifetime and
    type parameters: they are printed without a comma between them and parsed again
    (`messages.rs` 190). A marked method with a lifetime parameter of its own in a generic
    block is enough (C59_no_panic_refuted).
65. `#[messages]` looks for the block's type parameters in the arguments but not inside angle
    brackets: `impl<T> Store<T> { #[message] fn extend(&mut self, v: Vec<T>) }` gives a struct
    that uses a parameter it does not declare (C60_compiles_refuted).
66. It removes a parameter found twice only when the two are neighbours (`dedup` without a
    sort): arguments of types `T, U, T` declare `T` twice (C60_compiles_refuted).
67. A block parameter that a method only returns is declared by a struct that does not use it,
    or, without arguments, given to a struct that declares none (C60_compiles_refuted).
68. Handlers are implemented for the last segment of the block's type applied to the block's
    own parameters, not for the type as written: `impl Store<u32>` gives handlers for `Store`
    (C60_actor_refuted).
69. The documentation of `#[derive(Actor)]` shows `#[actor(name = "..", mailbox = bounded(256))]`
    (`macros/src/lib.rs` 87, 100); the macro rejects every option but `name`
    (C61_options_refuted).
70. A generic actor cannot be remote: `#[derive(RemoteActor)]` names the type's parameters in a
    `static`, and `#[remote_message]` writes them once more after the type
    (`remote_message.rs` 52, 67) (C61_generic_refuted, C61_compiles).
71. The default remote id is module path and name: two types of one name declared in functions
    of one module share it, and whatever looks up a remote actor's functions (links, unlinks,
    deaths of remote links) then panics
    (C61_actors_clash_case).
72. Remote tells and asks of one sender to one actor are not delivered in order unless each is
    awaited: every inbound request is served by a task of its own, and libp2p opens a stream
    per request (C62_order_refuted, C63_order_refuted). Local messages of one sender are delivered in order.
73. A network error (`NetworkTimeout`, `ConnectionClosed`, ...) does not tell whether the call was
    served (C62_failed_unserved_refuted, C63_failed_unenqueued_refuted): repeating the call may handle the message twice.
74. The bootstrap functions fill the process's only cell for a swarm before they spawn the task
    that serves it. Outside a tokio runtime `tokio::spawn` panics, and when the runtime of the
    first bootstrap ends (one runtime per test, say) the task is dropped. From then on
    `ActorSwarm::get` returns the dead swarm, every use of it panics, a new bootstrap only says
    `AlreadyBootstrapped`, and nothing can replace it (C64_gone, C64_usable_refuted,
    C64_started_usable_refuted).
75. `bootstrap` and `bootstrap_with_identity` make a behaviour before they look whether there is
    a swarm: a second call may fail with `BehaviourError` instead of `AlreadyBootstrapped`
    (C64_already_refuted). `bootstrap_with_behaviour` does not give back the behaviour it was
    passed (C64_already).
76. A panic in an overridden `next` is not caught, unlike one in a handler or `on_link_died`: neither
    `on_panic` nor `on_stop` is called, the linked actors are not told, and the shutdown result is
    never set (C65_stopped_refuted).
77. `finished_startup` is set by the startup signal, a stop, or a full mailbox only. An overridden
    `next` that reads the mailbox and does not hand on the startup signal leaves every message of
    others in a buffer until a stop, which an asker sees as a request never answered, and
    `wait_for_startup` never returns (C65_served_refuted). The documentation of `next` does not say
    so.
78. A message in a mailbox contains a strong reference to its actor, and so does one whose `tell` or
    `ask` waits to enter it (C66_message_counts). An actor whose references are all dropped is kept
    running by its queued messages (as C06 needs), its weak references can be upgraded, and
    `strong_count` counts the queue. The documentation of `strong_count` speaks of handles only.
79. A send that waits for room can be overtaken by one that begins later: it is given its place when
    one gets free but enters when it is polled (C66_in_turn_refuted). And a mailbox that was closed
    and is empty may not be over for `recv` while a send that had such a place was not polled again
    (C66_closed_empty_refuted).
80. `ActorID::deserialize` asks for `&[u8]`, which serde accepts only if the format lends bytes of its
    input. The formats kameo uses itself do; with one that does not (JSON, anything read from a
    stream) an id, and a stop reason with an id in it, can be written and not read back
    (C67_serde_refuted, C68_reason_hop_refuted). Fewer than eight bytes panic in the deserialiser
    where it means to give a length error; that error cannot occur (C67_short, C67_no_length_error).
81. The text of an id generated on a node changes when the node is bootstrapped (C67_fixed_refuted),
    so log lines from before and after do not match by text.
82. The text of `UnknownMessage` does not tell the two ids apart if the message's contains a quote
    (C68_unknown_message_refuted), as remote ids given in attributes may, and the text of a handler's
    error may be that of any error of the library (C68_handler_refuted).
83. `PanicError::with`, `with_str` and `with_downcast_ref` call the closure with the error's mutex
    locked, and so do `Display`, `Debug`, `downcast` and serialisation, which run the type's own
    `Debug` and `Clone`. Reading the same error, or any clone of it, inside of such a closure never
    returns (C69_inside), and two threads that read two errors inside of each other in different
    orders block each other for ever (C69_progress_refuted). Nothing in the documentation says so.
84. A request awaited in `on_start` to the actor itself, or over others back to it, waits for ever, and
    `kill` does not end it: only the loop can be aborted, so the task stays until the runtime is
    dropped (C70_forever, example C70_forever_start_ex). The same holds in `on_stop`, where the
    mailbox still takes messages that nobody reads. A stop signal to an actor in a deadlock is never
    read, so `stop_gracefully` does not end it either. The documentation of `kill` says that it stops
    the actor immediately.
85. The warning of debug builds knows of requests of an actor to itself only. A deadlock of two or
    more actors is not warned of (C70_all_warned_refuted), nor one of code run with
    `PreparedActor::run` outside of a spawned task. A `tell` is warned of even if it returns
    (C70_warned), and `ask(..).enqueue()` and `blocking_send` to the actor itself are not.
86. A task that is dropped (`JoinHandle::abort` on what `PreparedActor::spawn` returns, the future of
    `PreparedActor::run` dropped in a `select!`, a `PreparedActor` never run, the end of the runtime)
    is an end nobody is told of: `on_stop` is not called, linked actors get no `LinkDied`
    (C71_told_refuted), `wait_for_startup` may wait for ever though `on_start` has succeeded
    (C71_startup_refuted), `wait_for_shutdown_result` panics (C71_shutdown_result), and the entry of a
    registered actor stays in the remote registry (C71_registered). Askers get their error (C71_asks).
87. A panic in `on_stop` of one actor ends the spreading of a failure over linked actors: it was told of
    the death, leaves its loop and takes down its links, but those linked to it are not told and go on
    (C34_hook_panic_refuted).
88. `listen_on` puts Kademlia into server mode before it looks at what libp2p said
    (src/remote/swarm.rs 553-559): a node whose only `listen_on` failed is in server mode for good
    (C72_server, C72_failed_listen_refuted).
89. An address found by mDNS is given to Kademlia (818-826), but that it expired is ignored (994): the
    addresses known only grow (C72_known, C72_expired_refuted).
90. Messages that arrive before the end of startup are put aside (src/actor/kind.rs 104-113), the news that
    a linked actor died is not (128-150): it overtakes a message accepted before it
    (C01_startup_overtaken_refuted). Afterwards both share one order (C01_signals).
