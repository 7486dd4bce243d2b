{"claims": [
 {"property": "C01", "status": "proved", "theorems": ["C01_order", "C01_exact", "C01_signals", "C01_notifications", "C01_startup_overtaken_refuted"], "note": ""},
 {"property": "C02", "status": "proved", "theorems": ["C02_at_most_once", "C02_conserved", "C02_never_concurrent"], "note": ""},
 {"property": "C03", "status": "proved", "theorems": ["C03_first_and_once", "C03_failed_start"], "note": ""},
 {"property": "C04", "status": "proved", "theorems": ["C04_own_first", "C04_full_mailbox_refuted", "C04_stop_first_refuted", "C04_unscoped_refuted"], "note": "Holds when the startup marker was queued and no stop preceded it; the three ways to lose it are proved as _refuted witnesses."},
 {"property": "C05", "status": "proved", "theorems": ["C05_exactly_what_was_queued", "C05_in_order", "C05_reason", "C05_ends", "C05_ends_started", "C05_bounded_work", "C05_stop_lost_refuted"], "note": "Exactness and termination proved; the stop can be lost before the startup marker (C05_stop_lost_refuted). Termination assumes that the link map's lock and the linked mailboxes get served (see C35, C36)."},
 {"property": "C06", "status": "proved", "theorems": ["C06_referenced", "C06_unreferenced_ends", "C06_drained"], "note": "Termination under the same assumption as C05."},
 {"property": "C07", "status": "proved", "theorems": ["C07_next_is_killed", "C07_suspended", "C07_kill_sticks", "C07_only_kills"], "note": ""},
 {"property": "C08", "status": "proved", "theorems": ["C08_once_last_same_reason", "C08_done_means_on_stop_ran", "C08_crash"], "note": ""},
 {"property": "C09", "status": "proved", "theorems": ["C09_verdict", "C09_failed_start", "C09_only_failures", "C09_link_hook"], "note": ""},
 {"property": "C10", "status": "proved", "theorems": ["C10_nothing_lost", "C10_handled_later", "C10_buffered_lost_refuted"], "note": "Holds once startup is finished; C10_buffered_lost_refuted is the exception before it."},
 {"property": "C11", "status": "proved", "theorems": ["C11_after_on_start", "C11_released", "C11_never_if_full", "C11_never_if_left_early"], "note": ""},
 {"property": "C12", "status": "proved", "theorems": ["C12_closed", "C12_closed_after", "C12_result_recorded"], "note": ""},
 {"property": "C13", "status": "proved", "theorems": ["C13_once", "C13_dropped_unhandled", "C13_interrupted"], "note": ""},
 {"property": "C14", "status": "proved", "theorems": ["C14_outcomes"], "note": ""},
 {"property": "C15", "status": "proved", "theorems": ["C15_capacity", "C15_waiting", "C15_accepts"], "note": ""},
 {"property": "C16", "status": "proved", "theorems": ["C16_always_a_verdict", "C16_each_poll", "C16_failed_hands_back"], "note": ""},
 {"property": "C17", "status": "proved", "theorems": ["C17_enqueued_once", "C17_at_the_back"], "note": ""},
 {"property": "C18", "status": "proved", "theorems": ["C18_unbounded_ignores_mailbox_timeout", "C18_unset_mailbox_timeout", "C18_unset_reply_timeout", "C18_waiting_for_reply"], "note": ""},
 {"property": "C19", "status": "proved", "theorems": ["C19_ok_iff_queued", "C19_waits_while_full", "C19_error_refuted", "C19_never_an_error", "C19_signal_stop_reports"], "note": "C19_error_refuted: the documented error result is never produced; the call panics instead."},
 {"property": "C20", "status": "proved", "theorems": ["C20_failure_reported_refuted", "C20_closed_panics", "C20_enqueue_unit", "C20_ctx_forward_asked", "C20_ctx_forward_told"], "note": "The claim is false; refuted for every message type other than () (and for forward for every type): the error conversion panics."},
 {"property": "C21", "status": "proved", "theorems": ["C21_values_any_chain", "C21_error_one_hop", "C21_error_more_hops_refuted"], "note": "Values survive any chain and errors one hop; errors over two or more hops make the asker panic (C21_error_more_hops_refuted)."},
 {"property": "C22", "status": "proved", "theorems": ["C22_sent_is_received", "C22_sending_never_panics", "C22_returned_result", "C22_returned_plain", "C22_unasked", "C22_stale_marker_refuted"], "note": "C22_unasked: without an asker an error reply is a failure of the actor; C22_stale_marker_refuted: a reply marker returned although the reply sender was never taken makes the call panic."},
 {"property": "C23", "status": "proved", "theorems": ["C23_map_functor", "C23_map_payload", "C23_accessors", "C23_flatten_laws", "C23_downcast_exact", "C23_downcast_boxed"], "note": ""},
 {"property": "C24", "status": "proved", "theorems": ["C24_remote_laws", "C24_conversion", "C24_timeout_kind_kept_refuted"], "note": ""},
 {"property": "C25", "status": "proved", "theorems": ["C25_payload_kept", "C25_other_payload_hidden", "C25_hops", "C25_serde_roundtrip_refuted"], "note": ""},
 {"property": "C26", "status": "proved", "theorems": ["C26_distinct", "C26_never_panics", "C26_sequential", "C26_wraps"], "note": ""},
 {"property": "C27", "status": "proved", "theorems": ["C27_roundtrip", "C27_same_on_every_node", "C27_remote_id", "C27_unbootstrapped_refuted", "C27_injective", "C27_short_panics", "C27_parsed_is_u64", "C27_missing_sequence_refuted"], "note": "Relative to the stated contract of libp2p::PeerId's byte codec (a parameter, with an instance given)."},
 {"property": "C28", "status": "proved", "theorems": ["C28_equivalence", "C28_equality_is_denotation", "C28_hash_agrees", "C28_hash_stable_refuted", "C28_remote_hash_stable", "C28_equality_stable_refuted"], "note": "Hash stability across bootstrap is refuted for local ids."},
 {"property": "C29", "status": "proved", "theorems": ["C29_roundtrip", "C29_accepts_exactly", "C29_short_panics", "C29_unregistered_refuted"], "note": "Relative to the same peer id contract; UTF-8 validity is modelled concretely."},
 {"property": "C30", "status": "proved", "theorems": ["C30_answers", "C30_answers_all", "C30_contains", "C30_names", "C30_len"], "note": ""},
 {"property": "C31", "status": "proved", "theorems": ["C31_linearizable", "C31_links_exact", "C31_last_call", "C31_symmetric", "C31_irreflexive", "C31_self", "C31_link_idempotent", "C31_unlink_idempotent", "C31_unlink_recalls_report_refuted"], "note": "Exact characterisation of both link maps over every run; symmetric until one of the two leaves its loop. Unlinking does not recall a report already in the mailbox (C31_unlink_recalls_report_refuted). Overlapping calls are linearizable (C31_linearizable)."},
 {"property": "C32", "status": "proved", "theorems": ["C32_whom", "C32_at_most_once", "C32_report", "C32_all_told", "C32_link_told", "C32_starting_told", "C32_in_order", "C32_late_link", "C32_every_link_told_refuted"], "note": "Exactly once for every link made before the links are taken down, to a running and referenced peer; a link made later is never told (C32_every_link_told_refuted)."},
 {"property": "C33", "status": "proved", "theorems": ["C33_tells_nobody", "C33_stale_link"], "note": "Nobody is told and the link stays; stated as the behaviour of the code."},
 {"property": "C34", "status": "proved", "theorems": ["C34_default_policy", "C34_component", "C34_hook_panic_refuted", "C34_normal_refuted"], "note": "Component propagation at quiescence, under the stated conditions on the actors involved."},
 {"property": "C35", "status": "proved", "theorems": ["C35_few_steps", "C35_ordered", "C35_one_go", "C35_opposite_refuted", "C35_same_direction_refuted"], "note": "Complete when blocking calls take the locks in one global order or when both requests are made in one go; refuted for opposite blocking calls and, on several threads, for async calls even in the same direction. A call is assumed not to be cancelled half way."},
 {"property": "C36", "status": "proved", "theorems": ["C36_bounded", "C36_waits_for", "C36_unbounded", "C36_bounded_mailboxes_refuted"], "note": "Proved for unbounded mailboxes; with bounded ones a settled ending actor waits for a full mailbox whose owner is not in its loop (C36_waits_for), and two such actors deadlock (C36_bounded_mailboxes_refuted)."},
 {"property": "C37", "status": "proved", "theorems": ["C37_upgrade", "C37_dead_stays_dead", "C37_counted", "C37_upgrade_told"], "note": "Denotation of the upgraded reference is by construction of the model (one actor, one mailbox)."},
 {"property": "C38", "status": "proved", "theorems": ["C38_order", "C38_finished_after_end", "C38_all_delivered", "C38_returned", "C38_taken", "C38_ends_with_actor", "C38_not_stuck", "C38_closed", "C38_to_stopped", "C38_handed_back_refuted"], "note": "Order, completeness and return value for every stream and schedule. What is handed back when the actor stops: the stream after Finished or when the actor stopped between items, but only the one item when the actor stops during a send (C38_handed_back_refuted)."},
 {"property": "C39", "status": "proved", "theorems": ["C39_least_loaded", "C39_load", "C39_held", "C39_in_turn"], "note": "The counters are read at one moment."},
 {"property": "C40", "status": "proved", "theorems": ["C40_size", "C40_created", "C40_report", "C40_one_slot", "C40_linked", "C40_reported", "C40_unreported", "C40_replaced_refuted"], "note": "Proved for workers that the pool had linked; one that ends before it is linked is never replaced (C40_replaced_refuted, C40_unreported)."},
 {"property": "C41", "status": "proved", "theorems": ["C41_reaches_live", "C41_forwarded", "C41_failed", "C41_panicked", "C41_dead_least_told", "C41_dead_least_asked", "C41_live_worker_refuted", "C41_completes_refuted", "C41_answer_value", "C41_answer_error_refuted", "C41_accepts", "C41_queued", "C41_handled", "C41_stops", "C41_answered", "C41_answer_why"], "note": "The property as stated is refuted (C41_live_worker_refuted, C41_completes_refuted); C41_reaches_live, C41_forwarded, C41_failed, C41_panicked say what is true instead, C41_dead_least_* when it fails."},
 {"property": "C42", "status": "proved", "theorems": ["C42_results", "C42_goes_on"], "note": "A copy counts as sent when it is in the mailbox; a worker that then ends drops it."},
 {"property": "C43", "status": "proved", "theorems": ["C43_copies", "C43_table", "C43_effect", "C43_only_gone", "C43_result", "C43_panic", "C43_not_delayed", "C43_finishes", "C43_blocked", "C43_accepts", "C43_in_turn", "C43_taken", "C43_stops", "C43_room"], "note": "PubSub as a spawned actor. A copy counts as sent when it is in the mailbox. A publication interrupted by a stop or by a panicking filter does not end and may have reached only some or none (C43_panic)."},
 {"property": "C44", "status": "proved", "theorems": ["C44_copies", "C44_attempt", "C44_table", "C44_only_dead", "C44_accepts", "C44_no_panic", "C44_every_pattern_refuted"], "note": "Copies, table, removal and unsubscription for any patterns and matching relation. That a dead recipient is removed from every pattern is false: only from those that matched (C44_every_pattern_refuted). The glob crate is the arbitrary relation."},
 {"property": "C45", "status": "proved", "theorems": ["C45_copies", "C45_types", "C45_no_panic", "C45_table", "C45_only_dead", "C45_accepts", "C45_one_type"], "note": "Types are compared by TypeId; the downcast of the recipients is shown not to fail (C45_no_panic)."},
 {"property": "C46", "status": "proved", "theorems": ["C46_settled", "C46_result", "C46_timeout", "C46_waits", "C46_goes_on", "C46_never_blocks", "C46_guaranteed_blocks", "C46_effect", "C46_unsubscribed", "C46_in_turn", "C46_taken", "C46_stops", "C46_room", "C46_same_broker", "C46_same_bus"], "note": "The clock is an event; a timeout fires at the first poll after its duration."},
 {"property": "C47", "status": "proved", "theorems": ["C47_served", "C47_fits_wire", "C47_verdict_exists", "C47_verdict_unique", "C47_enqueued", "C47_poll_effect", "C47_accepted_enqueued", "C47_duplicate_ids_panic", "C47_ask_round_trip", "C47_tell_round_trip", "C47_reply_timeout_refuted", "C47_ask_panics", "C47_tell_panics", "C47_bad_reply_refuted", "C47_ask_ok", "C47_ask_handler_error", "C47_ask_bad_error", "C47_tell_ok"], "note": "For any codecs, message table and interleaving. Serving is a refinement of the local request of C16-C18. Finding: ReplyTimeout is also reported for a mailbox timeout (C47_reply_timeout_refuted)."},
 {"property": "C48", "status": "proved", "theorems": ["C48_at_most_once", "C48_own_answer", "C48_ids_unique", "C48_started_once", "C48_one_reply", "C48_answered", "C48_not_lost", "C48_in_order", "C48_numbers_in_order", "C48_dropped_because", "C48_handler_panics", "C48_dead_forever", "C48_wrong_kind_refuted"], "note": "Holds for every behaviour of libp2p that does not reuse ids; a response of the wrong kind makes the caller panic (C48_wrong_kind_refuted)."},
 {"property": "C49", "status": "proved", "theorems": ["C49_lookup_local", "C49_verdict_unique", "C49_record_after", "C49_registered_found", "C49_register_fills_table", "C49_unregister_keeps_table", "C49_unregister_alone_refuted", "C49_garbage_kills", "C49_lookup", "C49_lookup_unique", "C49_lookup_denotes"], "note": "Verdicts for every store content; unregister without peers keeps a name registered without peers (C49_unregister_alone_refuted)."},
 {"property": "C50", "status": "proved", "theorems": ["C50_exact", "C50_told", "C50_only_affected", "C50_once", "C50_table_free", "C50_exclusive", "C50_ends", "C50_any_connection", "C50_only_closed", "C50_twice_refuted"], "note": "Exact for every interleaving of the tasks with changes of the table and the links, relative to the links as each actor's map was read. Each closed connection signals again (C50_twice_refuted)."},
 {"property": "C51", "status": "proved", "theorems": ["C51_inserted_first", "C51_pinned", "C51_calls_keep", "C51_not_exhausted", "C51_result", "C51_dropped", "C51_once", "C51_answer_nothing", "C51_linked_locally", "C51_failed_link_refuted", "C51_kept_forever"], "note": "For every history of calls, answers and reference drops; a failed link leaves the link behind (C51_failed_link_refuted) and late insertions leak (C51_kept_forever)."},
 {"property": "C52", "status": "proved", "theorems": ["C52_no_gap", "C52_spawn_link"], "note": "Both directions of the link, for any later fate of either end."},
 {"property": "C53", "status": "proved", "theorems": ["C53_received", "C53_order", "C53_spawned_order_refuted", "C53_pubsub_received", "C53_pubsub_order"], "note": "For the spawning strategies the order is refuted (C53_spawned_order_refuted)."},
 {"property": "C54", "status": "proved", "theorems": ["C54_links_history", "C54_order", "C54_mutual", "C54_severed", "C54_in_table", "C54_refused", "C54_failed_link_refuted", "C54_remote_mutual", "C54_remote_severed", "C54_remote_refused", "C54_remote_onesided_refuted", "C54_returns", "C54_succeeds", "C54_self", "C54_booted", "C54_table", "C54_drop"], "note": "Calls between distinct actors; a call on itself returns Ok at once. Every error leaves the caller's own side changed (C54_refused), a network error may leave both (C54_failed_link_refuted). The calls of a RemoteActorRef are its two requests side by side (C54_remote_mutual, C54_remote_severed, C54_remote_refused); if one is refused the other may still be carried out (C54_remote_onesided_refuted)."},
 {"property": "C55", "status": "proved", "theorems": ["C55_sound", "C55_once", "C55_told", "C55_not_told", "C55_panic_silent", "C55_start_silent", "C55_late_link_refuted", "C55_panic_refuted", "C55_leaves_last", "C55_outcome", "C55_all_noted", "C55_mailbox", "C55_handles", "C55_handles_only", "C55_running", "C55_ends", "C55_end_steps"], "note": "Three ways in which a sibling is never told are proved as well: a link made after the links were taken out (C55_late_link_refuted), a panicking on_stop (C55_panic_silent, C55_panic_refuted), a failing on_start (C55_start_silent)."},
 {"property": "C56", "status": "proved", "theorems": ["C56_each_once", "C56_all_reported", "C56_before_waiters", "C56_which_hook", "C56_lifecycle", "C56_harmless", "C56_waits_for_links", "C56_panic_on_start", "C56_panic_on_stop", "C56_stop_panic_silent"], "note": "Also proved: an error of on_stop is not reported before all links are told (C56_waits_for_links), a panicking on_stop is not reported (C56_stop_panic_silent), and what a panicking hook does to waiters (C56_panic_on_start, C56_panic_on_stop)."},
 {"property": "C57", "status": "proved", "theorems": ["C57_plan", "C57_conversions", "C57_mailbox_not_early", "C57_mailbox_punctual", "C57_reply_not_early", "C57_reply_punctual", "C57_both_punctual", "C57_refines", "C57_enqueue_refuted", "C57_prompt_mailbox", "C57_prompt_reply", "C57_exact_refuted"], "note": "The clock, the builders and all the ways of sending are modelled; C57_refines carries the theorems about requests over. The claim that the reply timeout of enqueue counts from the enqueuing is refuted (C57_enqueue_refuted)."},
 {"property": "C58", "status": "proved", "theorems": ["C58_usable", "C58_available", "C58_acts", "C58_apart", "C58_strong_count", "C58_weak_count", "C58_upgrade", "C58_same_channel", "C58_compare", "C58_recipient_downgrade", "C58_strong_count_refuted", "C58_weak_count_refuted"], "note": "What the parts of a handle then do is the matter of the other areas. Refuted: the documented meaning of strong_count and weak_count. Recipient::downgrade always panics (C58_recipient_downgrade)."},
 {"property": "C59", "status": "proved", "theorems": ["C59_expands", "C59_errors", "C59_which_errors", "C59_errors_determined", "C59_block", "C59_refused", "C59_no_panic", "C59_no_panic_refuted", "C59_panics"], "note": "Syntax trees are syn's, spans and token spacing left out; camel-casing is an arbitrary function. Refuted: the macro never panics (C59_no_panic_refuted)."},
 {"property": "C60", "status": "proved", "theorems": ["C60_declares", "C60_lifetimes", "C60_compiles", "C60_compiles_refuted", "C60_actor", "C60_actor_name", "C60_actor_refuted"], "note": "Whether a struct compiles is Rust's rule on its parameters: each declared once, each used, none undeclared, as many as the handler names. Refuted: every block Rust accepts gives structs that compile (C60_compiles_refuted), and handlers are always for the block's type (C60_actor_refuted)."},
 {"property": "C61", "status": "proved", "theorems": ["C61_name", "C61_options_refuted", "C61_remote_id", "C61_name_error", "C61_remote_id_error", "C61_message_error", "C61_default_ids", "C61_compiles", "C61_generic_refuted", "C61_lookup", "C61_clash", "C61_actors", "C61_actors_clash"], "note": "Tokens of five kinds stand for syn's parsing of attributes. That Rust refuses statics with outer parameters and doubled parameters is built into what compiles. Refuted: the documented mailbox option (C61_options_refuted) and generic remote actors (C61_generic_refuted)."},
 {"property": "C62", "status": "proved", "theorems": ["C62_nodes_run", "C62_served_once", "C62_serves_one", "C62_serves_own", "C62_ended_once", "C62_ended_spawned", "C62_result_own", "C62_failure_own", "C62_right_kind", "C62_awaited", "C62_order_refuted", "C62_failed_unserved_refuted", "C62_round_trip"], "note": "Nodes run the Swarm model; the network is arbitrary but delivers each request and response at most once, unchanged and to the right node (trusted of libp2p). The order of calls and the meaning of network errors are refuted as such."},
 {"property": "C63", "status": "proved", "theorems": ["C63_cluster", "C63_enqueued", "C63_only_calls", "C63_once", "C63_ask", "C63_ask_ok", "C63_tell", "C63_awaited", "C63_right_node", "C63_tell_delivers", "C63_ask_delivers", "C63_order_refuted", "C63_failed_unenqueued_refuted"], "note": "Cluster nodes whose tasks for asks and tells run the RemoteDispatch model; the tables and mailboxes are arbitrary and change at any time. All nodes run one program, and requests travel unchanged. Order of unawaited tells and the meaning of network errors are refuted as such; the delivery theorems say that a successful continuation exists, not that every one succeeds."},
 {"property": "C64", "status": "proved", "theorems": ["C64_one_swarm", "C64_stays", "C64_ended", "C64_ends_once", "C64_one_wins", "C64_first_wins", "C64_already", "C64_commands", "C64_gone", "C64_usable_refuted", "C64_started_usable_refuted", "C64_already_refuted"], "note": "libp2p's constructors and the presence of a runtime are oracles; the handler's work on commands is in C48 and C49. That the swarm get returns, or one returned with success, can be used, and that a late bootstrap says AlreadyBootstrapped, are refuted as such."},
 {"property": "C65", "status": "proved", "theorems": ["C65_next_hook", "C65_one_at_a_time", "C65_goes_on", "C65_goes_on_alone", "C65_killed", "C65_aborted", "C65_cut_then", "C65_handled", "C65_dropped", "C65_accounted", "C65_over_accounted", "C65_over_last", "C65_stop_last", "C65_returned", "C65_crashed", "C65_took", "C65_took_then", "C65_told", "C65_crash_untold", "C65_stop_heeded", "C65_ready", "C65_ready_only", "C65_stopped_refuted", "C65_served_refuted", "C65_default"], "note": "Over all runs of the task with an arbitrary next (no mailbox: next is the environment). What must be called next is a function of the history alone (Loop_spec.expected). Two claims refuted: on_stop after a panic of next, and service of others' messages when the startup signal is dropped. C65_default: every run of the Lifecycle model (the default next, with its mailbox) is such a run."},
 {"property": "C66", "status": "proved", "theorems": ["C66_exists", "C66_exact", "C66_in_order", "C66_accounted", "C66_closed", "C66_over", "C66_alike", "C66_alike_back", "C66_recv_many", "C66_message_counts", "C66_line", "C66_no_panic", "C66_closed_empty_refuted", "C66_in_turn_refuted", "C66_calls_of_others", "C66_calls_of_actor", "C66_actor_waits", "C66_actor_starts", "C66_seen_try_send", "C66_seen_send", "C66_seen_poll"], "note": "C66_exact makes the model equivalent to a specification that is a function of the calls made and their results. tokio's channels are part of the model, since src/mailbox.rs only forwards to them. Two claims refuted: entry in the order of beginning, and recv on a closed and empty mailbox. The mailbox of the actor model (Lifecycle.v) is proved to be one of these (C66_calls_of_others, C66_calls_of_actor, C66_actor_waits, C66_actor_starts)."},
 {"property": "C67", "status": "proved", "theorems": ["C67_text", "C67_text_between_nodes", "C67_debug", "C67_fixed_refuted", "C67_serde", "C67_serde_everywhere", "C67_serde_refuted", "C67_short", "C67_no_length_error", "C67_refused"], "note": "The base-58 text of a peer is a parameter, assumed injective and over the base-58 alphabet; an example shows such a text. Two claims refuted: a generated id's text is fixed, and serde with formats that do not lend their bytes."},
 {"property": "C68", "status": "proved", "theorems": ["C68_reason_text", "C68_reason_debug", "C68_reason_hop", "C68_reason_hop_text", "C68_reason_hop_refuted", "C68_send_text", "C68_send_debug", "C68_map_msg", "C68_map_err", "C68_flatten", "C68_remote_of_local", "C68_remote_map_err", "C68_remote_flatten", "C68_remote_text", "C68_unknown_message", "C68_unknown_message_refuted", "C68_handler_refuted", "C68_registry_text"], "note": "The texts of handler errors and io errors are parameters. Plain {} and {:?} only. Refuted: unknown-message texts with quotes, and handler errors looking like the library's."},
 {"property": "C69", "status": "proved", "theorems": ["C69_exact", "C69_exclusive", "C69_again", "C69_inside", "C69_never", "C69_progress", "C69_progress_refuted"], "note": "std's mutex is modelled as a lock taken by any waiting thread when it is free; locking again in the same thread waits. Handles are never dropped. One claim refuted: progress without an order of the errors."},
 {"property": "C70", "status": "proved", "theorems": ["C70_forever", "C70_iff", "C70_settles", "C70_decided", "C70_ranked", "C70_closed_by_request", "C70_one_is_enough", "C70_self_ask", "C70_self_tell", "C70_tell_waits", "C70_ask_served", "C70_tell_served", "C70_stops", "C70_stops_once", "C70_warns_iff", "C70_warned", "C70_all_warned_refuted"], "note": "An actor's code awaits one thing at a time. A mailbox gives its places in the order of the waiting sends. Signals other than messages are messages from outside. Requests of blocking code and enqueued asks are outside. One claim refuted: every deadlock is warned of."},
 {"property": "C71", "status": "proved", "theorems": ["C71_closed", "C71_messages", "C71_asks", "C71_silent", "C71_told_before", "C71_told_refuted", "C71_startup", "C71_startup_refuted", "C71_shutdown_result", "C71_registered", "C71_anywhere", "C71_when", "C71_cuts", "C71_refs"], "note": "Over the actor of C01-C15 with one more event, the drop of its future at an await point. Refuted parts: linked actors need not be told, wait_for_startup need not return."},
 {"property": "C72", "status": "proved", "theorems": ["C72_in_order", "C72_next", "C72_poll", "C72_result", "C72_panic", "C72_once", "C72_unnoticed", "C72_server", "C72_failed_listen_refuted", "C72_known", "C72_expired_refuted", "C72_gone"], "note": "libp2p's results and mDNS events are arbitrary; the handler may be dropped at any moment. Kademlia's mode and addresses are those of the library's own behaviour. Two claims refuted: a failed listen_on leaves the node a server; expired addresses stay."}
]}
