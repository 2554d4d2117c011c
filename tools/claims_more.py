CLAIMS.update({
 "C26": ("partial", ["C26_select_partial", "C26_same_to_every_receiver_partial", "C26_receive_in_order", "C26_exactly_one_consumed", "C26_retyping_refuted"], "order/selection proved for every mailbox; 'none is lost' holds for receivers of the same type and, if no byte string encodes two types, of all types; otherwise violated by the code (a skipped serialised message is re-typed)"),
 "C27": ("partial", ["C27_abandoned_receive_partial", "C26_retyping_refuted"], "same proviso as C26"),
 "C28": ("proved", ["C28_remove"], ""),
})
CLAIMS.update({
 "C12": ("proved", ["C12_node_ids_unique", "C12_node_id_stable", "C12_node_id_never_reused", "C12_forgotten_pids_unreachable"], "every schedule of all modelled calls"),
 "C16": ("proved", ["C16_pids_unique", "C16_references_unique"], "every schedule; ids are unbounded in the model (the property excludes 2^64 allocations)"),
 "C22": ("partial", ["C22_down_at_most_once_partial", "C22_lost_refuted"], "'never duplicated' proved for every schedule; 'never lost' is violated by the code (the existence check releases its guard before the monitor is stored)"),
 "C24": ("proved", ["C24_one_shot_at_most_once", "C24_send_to_alias", "C24_unalias", "C24_alias_active"], "at-most-once in every schedule; the iff clauses for calls run alone"),
 "C56": ("partial", ["C22_down_at_most_once_partial"], "never two, in every schedule; the exact notices are not yet proved"),
})
CLAIMS.update({
 "C18": ("proved", ["C18_exit_table", "C18_exit_dead", "C18_terminated", "C18_exit_remote"], ""),
 "C19": ("proved", ["C19_links_propagate", "C19_link", "C19_link_noproc", "C19_link_lasts", "C19_only_link_links"], "effects of calls run alone, persistence of links in every schedule"),
 "C20": ("partial", ["C20_unlink_partial", "C20_unlink_refuted"], "violated by the code: only the caller's direction is removed (link.rs unlink)"),
 "C21": ("proved", ["C21_monitor_exactly_once", "C21_monitor_noproc", "C21_monitor_unknown_name"], ""),
 "C22": ("partial", ["C22_down_at_most_once_partial", "C22_received_at_most_once_partial", "C22_lost_refuted"], "'never duplicated' proved for every schedule; 'never lost' is violated by the code (the existence check releases its guard before the monitor is stored)"),
 "C23": ("partial", ["C23_demonitor_partial", "C23_demonitor_refuted"], "proved unless a receive has already looked at the notice; violated by the code then"),
})
CLAIMS.update({
 "C17": ("partial", ["C17_register", "C17_one_name_each", "C17_live_owner", "C17_whereis_lasts", "C17_free_after_unregister", "C17_unregister_unknown", "C17_free_after_exit", "C17_race_refuted"], "everything proved for histories, one name per process and 'the name stays' for every schedule; violated by the code under a race between the end of a process and the re-registration of its name"),
 "C25": ("partial", ["C25_exit_releases_partial", "C25_gone_for_good", "C25_alias_leak_refuted", "C25_link_leak_refuted", "C25_node_leak_refuted"], "exact account of what an exit releases; violated by the code for the alias of a monitor on a remote name, for one-sided links and for monitors on remote processes"),
 "C30": ("partial", ["C30_spawned", "C30_registered_partial", "C30_flags_refuted", "C30_alive_refuted"], "proved for histories; violated by the code in schedules where the new task runs before process_insert"),
 "C32": ("proved", ["C32_info", "C32_info_dead", "C32_flags_round_trip", "C32_flags_last"], ""),
})
CLAIMS.update({
 "C29": ("proved", ["C29_send_effect", "C29_once_per_mention", "C29_one_frame_per_node", "C29_nobody_there"], "exact effect of a send run alone on any state (the served order, one-shot aliases, node table, frames, nothing else)"),
 "C31": ("partial", ["C31_not_before", "C31_pending_then_sends", "C31_cancelled_is_never_delivered", "C31_once_fired_never_again", "C31_at_most_once", "C31_cancel_refuted", "C31_read_refuted"], "not-before, at-most-once and read_timer proved for every schedule, exactly-once and cancel for wake-ups/cancellations that do not overlap; violated by the code when they do (the task is past its sleep; or it ends before its table entry is made)"),
})
CLAIMS.update({
 "C51": ("partial", ["C51_frame_goes_last", "C51_where_frames_go", "C51_pending_first_in_order_partial", "C51_refuted"], "order proved in every schedule for a node dialled for the first time (or after a lost connection); violated by the code after disconnect + reconnect, where the old connection's sender is still on record"),
 "C52": ("proved", ["C52_connection_lost", "C52_link", "C52_process_monitor", "C52_node_monitor"], "whole effect for all tables; exactly-once from the call that makes the link/monitor, over every schedule in between"),
 "C53": ("partial", ["C53_forget_is_silent_partial", "C53_stop_is_silent_partial", "C53_forget_refuted", "C53_stop_refuted"], "violated by the code: neither notifies anybody"),
 "C54": ("proved", ["C54_accepts_iff_free", "C54_refused", "C54_accepted", "C54_only_connection", "C54_connect_twice", "C54_connect_dials", "C54_stale_end"], ""),
 "C55": ("partial", ["C55_outcome_partial", "C55_refuted"], "violated by the code: if each node's own dialler comes first, each refuses the other's connection and both die; never two survive, exactly one if the nodes agree on the order"),
 "C60": ("proved", ["C60_list", "C60_list_by_state", "C60_disconnect", "C60_current"], "list_by_state(Current) names the local node as a remote one (C60_current)"),
})
CLAIMS.update({
 "C56": ("partial", ["C56_request_installed", "C56_request_by_name", "C56_request_noproc", "C56_exit_is_reported", "C56_monitor_answered", "C56_monitor_forgotten", "C56_two_nodes", "C52_process_monitor", "C22_down_at_most_once_partial"], "both sides and their composition; on the monitoring side for every schedule between request and answer; missing: that the record on the monitored side lasts in every schedule there"),
 "C57": ("partial", ["C57_demonitor_effect_partial", "C57_withdrawal_panics_partial", "C57_demonitor_refuted", "C57_exit_refuted"], "violated by the code: the withdrawal is addressed to node 0 (the local node), carries no from_id, and the local record stays"),
 "C58": ("proved", ["C58_request_installed", "C58_request_noproc", "C58_unlink_request", "C58_exit_is_reported", "C58_link_down", "C58_link", "C58_unlink", "C58_two_nodes", "C52_link"], "both sides and their composition, over every schedule between the call and the frame on the calling side"),
 "C59": ("proved", ["C59_send_frame_effect", "C59_send_frame_once", "C59_send_two_nodes", "C59_exit_frame", "C18_exit_remote"], ""),
})
CLAIMS.update({
 "C11": ("partial", ["C11_pid_same_process", "C11_ref_same_reference", "C11_pid_back_home", "C11_pid_distinct", "C11_undistributed", "C11_scope_refuted"], "proved for addresses without IPv6 flow label/scope id (serde's binary form of SocketAddrV6 drops them); violated by the code with a scope id"),
 "C13": ("partial", ["C13_node_same", "C13_unstarted_sender_partial", "C13_scope_refuted"], "proved for addresses without IPv6 flow label/scope id; violated by the code with a scope id"),
})
CLAIMS.update({
 "C14": ("partial", ["C14_same_cookie_accepted", "C14_only_same_cookie_and_peer_partial", "C14_accepted_texts", "C14_name_address_refuted", "C14_name_address_every_cookie", "C14_cookie_refuted", "C14_scope_refuted"], "SHA-256/HMAC concrete; binding reduced to an explicit hash collision for cookies of 1-64 non-zero bytes (or none) and names that do not end with a digit or IPv6 addresses; violated by the code otherwise (no separator between name and address; None = empty cookie; scope id hashed but not transmitted).  That nobody without the cookie can compute a challenge is a computational assumption and not expressible here"),
 "C15": ("proved", ["C15_promoted", "C15_fails", "C15_succeeds", "C15_accepter"], ""),
})
CLAIMS.update({
 "C37": ("proved", ["C37_unknown", "C37_restarted", "C37_removed"], "for every supervisor state and start outcome; conditions: every specification has a start function, and the restart window does not reach before the start of the clock (C39_window_refuted)"),
 "C38": ("proved", ["C38_one_for_one", "C38_rest_for_one", "C38_one_for_all", "C38_preserved", "C38_retry", "C37_restarted"], ""),
 "C39": ("partial", ["C39_intensity_partial", "C39_refuted", "C39_window_refuted"], "proved for all histories when every request for a restart counts; violated by the code: a delayed attempt for a child that was terminated meanwhile restarts nothing but counts; and a window larger than the clock panics"),
 "C40": ("partial", ["C40_never", "C40_any_significant", "C40_all_significant_partial", "C40_all_significant_refuted", "C40_last_significant_refuted"], "Never and AnySignificant proved; AllSignificant violated by the code (the check is inverted)"),
 "C41": ("partial", ["C41_one_for_one_partial", "C37_removed", "C41_refuted", "C41_terminate_refuted"], "proved for OneForOne in every history; violated by the code: RestForOne and OneForAll restart temporary children; terminate_child keeps the specification"),
 "C42": ("partial", ["C42_unique_ids", "C42_start_taken", "C42_no_panic_partial", "C42_no_panic_refuted", "C42_no_start_function_refuted"], "unique ids in every history; violated by the code: a temporary child whose start is ignored leaves its id behind and the next start_child with it panics; a specification without start function panics; no panic in every other history"),
 "C43": ("proved", ["C43_started", "C43_start_failed", "C43_reverse", "C43_stop", "C43_no_child_left"], "over every history"),
 "C44": ("partial", ["C44_terminate", "C44_restart", "C44_delete", "C44_not_found", "C44_stays_terminated", "C44_not_running_refuted"], "violated by the code: terminate_child on a child waiting for a delayed attempt (no process on record) leaves the attempt in place, which then starts it"),
 "C45": ("partial", ["C45_which", "C45_count", "C45_active_refuted"], "violated by the code: after a failed OneForOne restart the pid of the dead process stays on record and counts as active"),
})

CLAIMS.update({
 "C46": ("proved", ["C46_registered", "C46_absent", "C46_stays", "C46_no_second_start"], "in every history"),
 "C47": ("partial", ["C47_exit", "C47_exit_history", "C47_one_key", "C47_stop", "C47_remove", "C47_remove_remote", "C47_removed_left_alone_partial", "C47_remove_running_refuted"], "exits, stop and remove exact; violated by the code: a registry that ends before it has handled the notice of a remove kills the removed process; after that notice it is never told to exit"),
 "C48": ("partial", ["C48_refuted", "C48_panics_partial"], "violated by the code: the registry panics, with exactly the stated damage"),
 "C49": ("partial", ["C49_refuted", "C49_partial"], "violated by the code: the failed start wipes the table of the running registry, with exactly the stated damage"),
 "C50": ("proved", ["C50_list", "C50_remote", "C50_separate"], "in every state"),
 "C71": ("proved", ["C71_end_of_registry"], "in every history whose start routines give new processes; that processes obey is not part of this model"),
 "C72": ("partial", ["C72_refuted", "C72_partial"], "violated by the code when the options give the registry another process name; proved for every history otherwise"),
})

CLAIMS.update({
 "C33": ("proved", ["C33_messages_in_order", "C33_terminate", "C33_replies", "C33_progress", "C33_exits_with_reason"], "every run of the server loop: arbitrary arrivals, callbacks and callback results; a message of another type panics the server (stated in C33_progress)"),
 "C34": ("partial", ["C34_name_taken", "C34_reports_init", "C34_failed_is_gone", "C34_free_name_refuted"], "exact when the new task runs after its registration; violated by the code in the schedule where the task runs first (spawn before process_insert): start then reports 'already_started' for a free name"),
})
CLAIMS.update({
 "C62": ("partial", ["C62_run", "C62_returns_when_exited", "C62_start_failed", "C62_signal_arrives", "C62_test", "C62_test_start_failed", "C62_forged_exit_refuted", "C62_stray_message_refuted", "C62_test_kill_refuted", "C62_test_panic_refuted"], "the loop is characterised exactly for every arrival sequence; violated by the code: run returns while the process is alive if that process sends the application's process an exit signal, or if any message of another type is sent to it; test passes on Kill and when start panics"),
 "C63": ("partial", ["C63_refuted", "C63_partial", "C63_server_options", "C63_application_config"], "violated by the code: heartbeat_timeout sets the handshake timeout; every other builder is proved"),
 "C64": ("partial", ["C64_refuted", "C64_never_returns", "C64_partial"], "violated by the code: some of the comparisons call themselves and never return; the others are proved symmetric"),
 "C67": ("proved", ["C67_reason", "C67_last_signal"], ""),
 "C68": ("proved", ["C68_await_many", "C68_returns", "C68_first_to_occur_refuted"], "argument order as stated; the documentation's 'first error that occurs' is refuted (it is not the first in time)"),
 "C69": ("proved", ["C69_conserved", "C69_bounded", "C69_conserved_single", "C69_try_acquire", "C69_no_overtaking", "C69_in_order"], "tokio's semaphore modelled from its documentation; permits set aside for a waiting acquire_many count as granted"),
 "C70": ("proved", ["C70_conversions", "C70_single", "C70_injective"], ""),
 "C73": ("partial", ["C73_attributes", "C73_refuted", "C73_partial"], "violated by the code: restart() after significant(true) bypasses the check"),
})
CLAIMS.update({
 "C65": ("partial", ["C65_sends", "C65_no_errors", "C65_send_error", "C65_terminate_refuted", "C65_terminate_partial"], "what goes out is proved for every buffer and socket outcome; 'terminate at most once' is violated by the code (no return after a failed flush)"),
 "C66": ("partial", ["C66_in_order", "C66_ping", "C66_leaves", "C66_going", "C66_panics", "C66_after_exit_refuted", "C66_close_without_terminate_refuted", "C66_init_error_refuted", "C66_terminate_partial", "C66_error_kinds"], "order, Pong before Ping and the exit reasons proved for every run; violated by the code: callbacks may still run after an exit was requested, and a handler's own Close or an init error exits without the documented terminate"),
})
CLAIMS.update({
 "C74": ("proved", ["C74_decoded_frames_are_wellformed", "C74_consumes_a_unit", "C74_injective"], ""),
})
CLAIMS.update({
 "C35": ("partial", ["C35_call_partial", "C35_no_late_notice", "C35_no_late_reply_refuted"], "every interleaving of the call's own atomic steps with arbitrary calls of everybody else: which result, when, and what is left in the mailbox; no notice of a finished call is ever seen; violated by the code: a reply to a local server that arrives after the timeout is received later"),
 "C36": ("proved", ["C36_stop"], "every interleaving with arbitrary calls of everybody else"),
 "C61": ("partial", ["C61_shutdown", "C61_no_late_exit_partial", "C61_late_exit_refuted"], "every interleaving; when the shutdown learns how the child ended, no exit signal of it is ever received afterwards; when the child is already on its way out (noproc) the code delivers one late: C61_late_exit_refuted"),
})
CLAIMS.update({
 "C75": ("proved", ["C75_down_notice_true", "C75_received_down_true", "C75_node_notice_true"], "every schedule; notices about processes of other nodes repeat what those nodes said (C52, C56)"),
 "C76": ("proved", ["C76_received_exit_true"], "every schedule; the calls of exit in the run are a parameter of the statement"),
 "C77": ("proved", ["C77_received_had_arrived"], ""),
 "C78": ("proved", ["C78_no_thin_air"], "for serialisers that do not turn a value of the set into bytes that read as something else"),
})
CLAIMS.update({
 "C79": ("proved", ["C79_exits_before_notices", "C79_none_later"], "every schedule; when the receiver itself calls link on the process after its end, the exit signal of that call comes later (C79_late_link_refuted), which is why such calls are excluded"),
})
CLAIMS.update({
 "C80": ("proved", ["C80_notices_name_the_monitored", "C80_notices_name_the_node"], "every script, every interleaving"),
})
CLAIMS.update({
 "C81": ("proved", ["C81_frames_arrive_in_order", "C81_nothing_lost"], "byte level: both senders, the pipes, the reader's buffer and the codec; frames are Rust values under 4 GiB"),
 "C82": ("proved", ["C82_pong_per_ping", "C82_ping_after_silence"], "every timed run"),
 "C83": ("proved", ["C83_timeout_means_silence", "C83_silence_is_noticed"], "every timed run; the second assumes that the receiver is scheduled within d"),
 "C84": ("partial", ["C84_healthy_connection_stays_partial", "C84_healthy_connection_stays_refuted"], "violated: the heartbeat_timeout builder sets another option (C63), so the limit is always 45 s; proved with 45 s in its place"),
})
CLAIMS.update({
 "C85": ("proved", ["C85_in_order", "C85_all_arrive"], "every schedule; no bytes written for another type can be read as this one; other tasks send other types, which is how the arrivals are told apart"),
 "C86": ("proved", ["C86_across_nodes", "C86_nothing_lost"], "composition of A's registry, the byte-level connection of C81 and B's registry; the values sent are read back as themselves (C100) and no other type is mistaken for theirs (C101); A's calls before the first message have returned"),
})
CLAIMS.update({
 "C87": ("partial", ["C87_linked_told_partial", "C87_refuted"], "every schedule once the link is in place; a link call that overlaps with the whole end of the other process is lost (C87_refuted): link checks that the process exists and adds the entry in two steps"),
 "C88": ("proved", ["C88_connection_ends_together"], "every schedule in which none of the three ends normally (their code never returns) and processes told to end do end"),
 "C89": ("partial", ["C89_dialled_partial", "C89_refuted"], "proved for dialled connections (linked to the local node's process); accepted connections survive: node_remote.rs:294 links the process to itself"),
 "C90": ("partial", ["C90_stays_alive_partial", "C90_refuted"], "the object of an earlier node clears the tables of the new one when it is dropped; proved when no such drop happens"),
})
CLAIMS.update({
 "C91": ("proved", ["C91_monitor_in_place_reports"], "every schedule after the monitor call has returned (monitor calls that overlap the end: C22)"),
})
CLAIMS.update({
 "C92": ("partial", ["C92_one_local_partial", "C92_all_or_nothing_partial", "C92_others_as_before", "C92_never_forged", "C92_refuted"], "violated for lists: all local destinations but the first get a serialised copy (process_kernel.rs:53-55), so a Local sent to two local processes panics (C92_refuted); everything else is proved, all-or-nothing in every schedule"),
})

CLAIMS.update({
 "C56": ("partial", ["C56_reported_in_every_schedule", "C56_two_nodes_in_every_schedule", "C56_refuted", "C56_request_installed", "C56_request_by_name", "C56_request_noproc", "C56_exit_is_reported", "C56_monitor_answered", "C56_monitor_forgotten", "C56_two_nodes", "C52_process_monitor", "C22_down_at_most_once_partial"], "both sides in every schedule once the request has been handled; refuted when the request overlaps the end of the process: process_exists_lock drops its guard before the callback, so the monitor is recorded after the end and never answered"),
})

CLAIMS.update({
 "C93": ("partial", ["C93_requests_answered", "C93_goes_on", "C93_ends_with_listener", "C93_refuted"], "violated: a message of another type - or bytes from another node that do not decode - panics the process and takes the node down; everything else is proved for every interleaving of arrivals and turns"),
 "C94": ("partial", ["C94_answers", "C94_in_every_schedule", "C94_answers_fit", "C94_every_call_answered", "C94_refuted"], "violated for processes of other nodes: processes_info panics the server, and requests waiting behind it are lost; all other requests: proved, in every schedule"),
 "C95": ("partial", ["C95_start", "C95_stop", "C95_accepts", "C95_accepts_tls", "C95_refuted"], "violated: the server ignores the end of its acceptor (e.g. a panic over a bad certificate after a successful start) and goes on without accepting; the rest is proved"),
})

CLAIMS.update({
 "C96": ("partial", ["C96_body_decides_partial", "C96_main_refuted", "C96_trap_refuted", "C96_test_refuted"], "every schedule once the application process and the body's process are registered; violated before that on the multi-threaded runtime of run: the task starts before its process is registered, so a body that ends at once is never reported, and the application process may lose its trap flag; a test whose body panics with the text 'shutdown' passes"),
})
CLAIMS.update({
 "C58": ("partial", ["C58_reported_in_every_schedule", "C58_own_end_reported_in_every_schedule", "C58_two_nodes_in_every_schedule", "C58_refuted", "C58_request_installed", "C58_request_noproc", "C58_unlink_request", "C58_exit_is_reported", "C58_link_down", "C58_link", "C58_unlink", "C58_two_nodes", "C52_link"], "both sides and their composition, in every schedule once the request has been handled; refuted when the request overlaps the end of the process: process_exists_lock drops its guard before the callback, so the link is recorded after the end and the exit is never reported"),
})

CLAIMS.update({
 "C97": ("proved", ["C97_no_deadlock", "C97_every_call_returns", "C97_nothing_kept", "C97_exclusive"], "locks only: the tables' contents are replaced by arbitrary outcomes, which covers more than the code does; trusted: what DashMap, Mutex and tokio's spawn and abort lock (DESIGN.md section 5)"),
 "C98": ("partial", ["C98_callbacks_partial", "C98_map_node_refuted", "C98_add_nodes_refuted"], "violated: map_node runs the closure while it holds the shard of the override, add_nodes and set_nodes run the iterator while they hold the ring's mutex, so a closure that changes an override of the same shard and an iterator that changes the nodes wait for themselves; proved for closures that leave overrides alone and iterators that do not use a ring"),
})

CLAIMS.update({
 "C99": ("partial", ["C99_text_is_read", "C99_equality_is_reading", "C99_one_node", "C99_panics", "C99_read", "C99_pairs", "C99_every_node_partial", "C99_every_node_refuted"], "the parser of IPv4 and IPv6 socket addresses is modelled and its texts characterised exactly; violated for names that contain an '@' (the text is split at the first one, node.rs:206): such a node cannot be written as text and does not equal its own text"),
})

CLAIMS.update({
 "C10": ("partial", ["C10_boundaries_partial", "C10_streams_partial", "C10_encoded_units", "C10_boundaries_refuted"], "violated by the code for units whose body ends inside a frame; proved for all others, for every way the stream is cut"),
 "C68": ("proved", ["C68_await_many", "C68_returns", "C68_shutdown", "C68_first_to_occur_refuted"], "argument order as stated; the documentation's 'first error that occurs' is refuted (it is not the first in time)"),
 "C74": ("proved", ["C74_decoded_frames_are_wellformed", "C74_consumes_a_unit", "C74_injective", "C74_strings_are_unicode"], ""),
})
def more(c, *names):
    st, th, note = CLAIMS[c]; CLAIMS[c] = (st, th + [n for n in names if n not in th], note)
more("C66", "C66_error_texts"); more("C62", "C62_waits_while_serving"); more("C93", "C93_listener"); more("C81", "C81_hello_ends_the_connection")

CLAIMS.update({
 "C100": ("partial", ["C100_what_arrives", "C100_arrives_as_sent_partial", "C100_bytes_tell_values_apart", "C100_gen_server_messages", "C100_reasons", "C100_refuted"], "exact for every type and value: what arrives is the value sent, except that Some of nothing (None, the unit type) arrives as None; violated for those. Byte format modelled from its specification, not from rmp_serde's source"),
 "C101": ("partial", ["C101_same_variant", "C101_unrelated_enums", "C101_kinds", "C101_refuted"], "enums without common variants and types written with different kinds of words are never mistaken for each other; violated otherwise: the bytes carry no type"),
})
more("C11", "C11_id_bytes", "C11_id_bytes_tell_apart"); more("C13", "C13_node_bytes")
more("C95", "C95_certificate"); more("C99", "C99_ipv4_texts", "C99_ipv4_text_back")
CLAIMS.update({"C102": ("proved", ["C102_equality", "C102_symmetric", "C102_from", "C102_kinds"], "")})
more("C99", "C99_ipv6_texts")
more("C99", "C99_ipv6_canonical")
more("C35", "C35_no_late_reply_remote")
_s, _t, _n = CLAIMS["C35"]; CLAIMS["C35"] = (_s, _t, _n + "; calls of remote servers (C35_no_late_reply_remote): after an answer or a timeout the alias is gone for good and no reply sent from then on reaches any mailbox; not covered there: a call that ended because the server is down (the node destroys the alias after the notice), a reply that had passed the alias already, and a server addressed by name")
CLAIMS.update({
 "C103": ("proved", ["C103_typed", "C103_ids", "C103_gen_server_messages"], "every byte sequence, every type; types and format as in MsgPack.v"),
 "C104": ("proved", ["C104_records", "C104_variants"], "serde's derived Deserialize over MessagePack, as modelled in MsgPack.v; a struct may also arrive as the list of its fields (C103)"),
})
more("C100", "C100_reason_words")
CLAIMS.update({
 "C105": ("proved", ["C105_forwarded", "C105_any_number_of_times"], "every byte sequence, every type; the value must not be nested deeper than the reader allows (1024); types and format as in MsgPack.v"),
 "C106": ("proved", ["C106_reader", "C106_unambiguous", "C106_writer"], "MessagePack without byte strings and extension types; rmp_serde as modelled in MsgPack.v"),
})
CLAIMS.update({
 "C107": ("proved", ["C107_typed", "C107_never_read", "C107_told_apart", "C107_comes_back", "C107_unambiguous", "C107_in_order", "C107_across_nodes", "C107_nothing_lost"], "C85 and C86 with the serialisation of MsgPack.v in the place of an arbitrary one; the values sent have no Some of nothing in them (C100), and are nested no deeper than the reader allows; MessagePack and serde as modelled in MsgPack.v"),
})
more("C101", "C107_never_read")
CLAIMS.update({
 "C108": ("partial", ["C108_alias_kept_partial", "C108_owner_refuted", "C108_frames_refuted"], "kept, in every schedule, as long as nobody passes the id to unalias (C108_owner_refuted: any process can), no other node sends a monitor-down frame with the id (C108_frames_refuted), the owner does not end and - for a one-shot alias - nobody sends to it; aliases of Process::alias, not those tied to a monitor"),
})
more("C24", "C24_gone_for_good")
more("C24", "C24_used_up_once")
