{
 "claims": [
  {
   "property": "C01",
   "status": "proved",
   "theorems": [
    "C01_find_is_successor"
   ],
   "note": ""
  },
  {
   "property": "C02",
   "status": "proved",
   "theorems": [
    "C02_ring_is_map"
   ],
   "note": ""
  },
  {
   "property": "C03",
   "status": "proved",
   "theorems": [
    "C03_minimal_disruption"
   ],
   "note": ""
  },
  {
   "property": "C04",
   "status": "proved",
   "theorems": [
    "C04_overrides"
   ],
   "note": ""
  },
  {
   "property": "C05",
   "status": "partial",
   "theorems": [
    "C05_clear_partial",
    "C05_clear_refuted"
   ],
   "note": "violated by the code: clear keeps overrides"
  },
  {
   "property": "C06",
   "status": "partial",
   "theorems": [
    "C06_concurrent_ring_partial",
    "C06_override_refuted"
   ],
   "note": "node-table clauses proved (linearizability, no deadlock); the set_overrides clause is violated by the code"
  },
  {
   "property": "C07",
   "status": "proved",
   "theorems": [
    "C07_round_trip",
    "C07_wire_view_exact"
   ],
   "note": ""
  },
  {
   "property": "C08",
   "status": "proved",
   "theorems": [
    "C08_stream_chunking"
   ],
   "note": ""
  },
  {
   "property": "C09",
   "status": "proved",
   "theorems": [
    "C09_incomplete_frame",
    "C09_incomplete_unit"
   ],
   "note": ""
  },
  {
   "property": "C10",
   "status": "partial",
   "theorems": [
    "C10_boundaries_partial",
    "C10_streams_partial",
    "C10_encoded_units",
    "C10_boundaries_refuted"
   ],
   "note": "violated by the code for units whose body ends inside a frame; proved for all others, for every way the stream is cut"
  },
  {
   "property": "C100",
   "status": "partial",
   "theorems": [
    "C100_what_arrives",
    "C100_arrives_as_sent_partial",
    "C100_bytes_tell_values_apart",
    "C100_gen_server_messages",
    "C100_reasons",
    "C100_refuted",
    "C100_reason_words"
   ],
   "note": "exact for every type and value: what arrives is the value sent, except that Some of nothing (None, the unit type) arrives as None; violated for those. Byte format modelled from its specification, not from rmp_serde's source"
  },
  {
   "property": "C101",
   "status": "partial",
   "theorems": [
    "C101_same_variant",
    "C101_unrelated_enums",
    "C101_kinds",
    "C101_refuted",
    "C107_never_read"
   ],
   "note": "enums without common variants and types written with different kinds of words are never mistaken for each other; violated otherwise: the bytes carry no type"
  },
  {
   "property": "C102",
   "status": "proved",
   "theorems": [
    "C102_equality",
    "C102_symmetric",
    "C102_from",
    "C102_kinds"
   ],
   "note": ""
  },
  {
   "property": "C103",
   "status": "proved",
   "theorems": [
    "C103_typed",
    "C103_ids",
    "C103_gen_server_messages"
   ],
   "note": "every byte sequence, every type; types and format as in MsgPack.v"
  },
  {
   "property": "C104",
   "status": "proved",
   "theorems": [
    "C104_records",
    "C104_variants"
   ],
   "note": "serde's derived Deserialize over MessagePack, as modelled in MsgPack.v; a struct may also arrive as the list of its fields (C103)"
  },
  {
   "property": "C105",
   "status": "proved",
   "theorems": [
    "C105_forwarded",
    "C105_any_number_of_times"
   ],
   "note": "every byte sequence, every type; the value must not be nested deeper than the reader allows (1024); types and format as in MsgPack.v"
  },
  {
   "property": "C106",
   "status": "proved",
   "theorems": [
    "C106_reader",
    "C106_unambiguous",
    "C106_writer"
   ],
   "note": "MessagePack without byte strings and extension types; rmp_serde as modelled in MsgPack.v"
  },
  {
   "property": "C107",
   "status": "proved",
   "theorems": [
    "C107_typed",
    "C107_never_read",
    "C107_told_apart",
    "C107_comes_back",
    "C107_unambiguous",
    "C107_in_order",
    "C107_across_nodes",
    "C107_nothing_lost"
   ],
   "note": "C85 and C86 with the serialisation of MsgPack.v in the place of an arbitrary one; the values sent have no Some of nothing in them (C100), and are nested no deeper than the reader allows; MessagePack and serde as modelled in MsgPack.v"
  },
  {
   "property": "C108",
   "status": "partial",
   "theorems": [
    "C108_alias_kept_partial",
    "C108_owner_refuted",
    "C108_frames_refuted"
   ],
   "note": "kept, in every schedule, as long as nobody passes the id to unalias (C108_owner_refuted: any process can), no other node sends a monitor-down frame with the id (C108_frames_refuted), the owner does not end and - for a one-shot alias - nobody sends to it; aliases of Process::alias, not those tied to a monitor"
  },
  {
   "property": "C11",
   "status": "partial",
   "theorems": [
    "C11_pid_same_process",
    "C11_ref_same_reference",
    "C11_pid_back_home",
    "C11_pid_distinct",
    "C11_undistributed",
    "C11_scope_refuted",
    "C11_id_bytes",
    "C11_id_bytes_tell_apart"
   ],
   "note": "proved for addresses without IPv6 flow label/scope id (serde's binary form of SocketAddrV6 drops them); violated by the code with a scope id"
  },
  {
   "property": "C12",
   "status": "proved",
   "theorems": [
    "C12_node_ids_unique",
    "C12_node_id_stable",
    "C12_node_id_never_reused",
    "C12_forgotten_pids_unreachable"
   ],
   "note": "every schedule of all modelled calls"
  },
  {
   "property": "C13",
   "status": "partial",
   "theorems": [
    "C13_node_same",
    "C13_unstarted_sender_partial",
    "C13_scope_refuted",
    "C13_node_bytes"
   ],
   "note": "proved for addresses without IPv6 flow label/scope id; violated by the code with a scope id"
  },
  {
   "property": "C14",
   "status": "partial",
   "theorems": [
    "C14_same_cookie_accepted",
    "C14_only_same_cookie_and_peer_partial",
    "C14_accepted_texts",
    "C14_name_address_refuted",
    "C14_name_address_every_cookie",
    "C14_cookie_refuted",
    "C14_scope_refuted"
   ],
   "note": "SHA-256/HMAC concrete; binding reduced to an explicit hash collision for cookies of 1-64 non-zero bytes (or none) and names that do not end with a digit or IPv6 addresses; violated by the code otherwise (no separator between name and address; None = empty cookie; scope id hashed but not transmitted).  That nobody without the cookie can compute a challenge is a computational assumption and not expressible here"
  },
  {
   "property": "C15",
   "status": "proved",
   "theorems": [
    "C15_promoted",
    "C15_fails",
    "C15_succeeds",
    "C15_accepter"
   ],
   "note": ""
  },
  {
   "property": "C16",
   "status": "proved",
   "theorems": [
    "C16_pids_unique",
    "C16_references_unique"
   ],
   "note": "every schedule; ids are unbounded in the model (the property excludes 2^64 allocations)"
  },
  {
   "property": "C17",
   "status": "partial",
   "theorems": [
    "C17_register",
    "C17_one_name_each",
    "C17_live_owner",
    "C17_whereis_lasts",
    "C17_free_after_unregister",
    "C17_unregister_unknown",
    "C17_free_after_exit",
    "C17_race_refuted"
   ],
   "note": "everything proved for histories, one name per process and 'the name stays' for every schedule; violated by the code under a race between the end of a process and the re-registration of its name"
  },
  {
   "property": "C18",
   "status": "proved",
   "theorems": [
    "C18_exit_table",
    "C18_exit_dead",
    "C18_terminated",
    "C18_exit_remote"
   ],
   "note": ""
  },
  {
   "property": "C19",
   "status": "proved",
   "theorems": [
    "C19_links_propagate",
    "C19_link",
    "C19_link_noproc",
    "C19_link_lasts",
    "C19_only_link_links"
   ],
   "note": "effects of calls run alone, persistence of links in every schedule"
  },
  {
   "property": "C20",
   "status": "partial",
   "theorems": [
    "C20_unlink_partial",
    "C20_unlink_refuted"
   ],
   "note": "violated by the code: only the caller's direction is removed (link.rs unlink)"
  },
  {
   "property": "C21",
   "status": "proved",
   "theorems": [
    "C21_monitor_exactly_once",
    "C21_monitor_noproc",
    "C21_monitor_unknown_name"
   ],
   "note": ""
  },
  {
   "property": "C22",
   "status": "partial",
   "theorems": [
    "C22_down_at_most_once_partial",
    "C22_received_at_most_once_partial",
    "C22_lost_refuted"
   ],
   "note": "'never duplicated' proved for every schedule; 'never lost' is violated by the code (the existence check releases its guard before the monitor is stored)"
  },
  {
   "property": "C23",
   "status": "partial",
   "theorems": [
    "C23_demonitor_partial",
    "C23_demonitor_refuted"
   ],
   "note": "proved unless a receive has already looked at the notice; violated by the code then"
  },
  {
   "property": "C24",
   "status": "proved",
   "theorems": [
    "C24_one_shot_at_most_once",
    "C24_send_to_alias",
    "C24_unalias",
    "C24_alias_active",
    "C24_gone_for_good",
    "C24_used_up_once"
   ],
   "note": "at-most-once in every schedule; the iff clauses for calls run alone"
  },
  {
   "property": "C25",
   "status": "partial",
   "theorems": [
    "C25_exit_releases_partial",
    "C25_gone_for_good",
    "C25_alias_leak_refuted",
    "C25_link_leak_refuted",
    "C25_node_leak_refuted"
   ],
   "note": "exact account of what an exit releases; violated by the code for the alias of a monitor on a remote name, for one-sided links and for monitors on remote processes"
  },
  {
   "property": "C26",
   "status": "partial",
   "theorems": [
    "C26_select_partial",
    "C26_same_to_every_receiver_partial",
    "C26_receive_in_order",
    "C26_exactly_one_consumed",
    "C26_retyping_refuted"
   ],
   "note": "order/selection proved for every mailbox; 'none is lost' holds for receivers of the same type and, if no byte string encodes two types, of all types; otherwise violated by the code (a skipped serialised message is re-typed)"
  },
  {
   "property": "C27",
   "status": "partial",
   "theorems": [
    "C27_abandoned_receive_partial",
    "C26_retyping_refuted"
   ],
   "note": "same proviso as C26"
  },
  {
   "property": "C28",
   "status": "proved",
   "theorems": [
    "C28_remove"
   ],
   "note": ""
  },
  {
   "property": "C29",
   "status": "proved",
   "theorems": [
    "C29_send_effect",
    "C29_once_per_mention",
    "C29_one_frame_per_node",
    "C29_nobody_there"
   ],
   "note": "exact effect of a send run alone on any state (the served order, one-shot aliases, node table, frames, nothing else)"
  },
  {
   "property": "C30",
   "status": "partial",
   "theorems": [
    "C30_spawned",
    "C30_registered_partial",
    "C30_flags_refuted",
    "C30_alive_refuted"
   ],
   "note": "proved for histories; violated by the code in schedules where the new task runs before process_insert"
  },
  {
   "property": "C31",
   "status": "partial",
   "theorems": [
    "C31_not_before",
    "C31_pending_then_sends",
    "C31_cancelled_is_never_delivered",
    "C31_once_fired_never_again",
    "C31_at_most_once",
    "C31_cancel_refuted",
    "C31_read_refuted"
   ],
   "note": "not-before, at-most-once and read_timer proved for every schedule, exactly-once and cancel for wake-ups/cancellations that do not overlap; violated by the code when they do (the task is past its sleep; or it ends before its table entry is made)"
  },
  {
   "property": "C32",
   "status": "proved",
   "theorems": [
    "C32_info",
    "C32_info_dead",
    "C32_flags_round_trip",
    "C32_flags_last"
   ],
   "note": ""
  },
  {
   "property": "C33",
   "status": "proved",
   "theorems": [
    "C33_messages_in_order",
    "C33_terminate",
    "C33_replies",
    "C33_progress",
    "C33_exits_with_reason"
   ],
   "note": "every run of the server loop: arbitrary arrivals, callbacks and callback results; a message of another type panics the server (stated in C33_progress)"
  },
  {
   "property": "C34",
   "status": "partial",
   "theorems": [
    "C34_name_taken",
    "C34_reports_init",
    "C34_failed_is_gone",
    "C34_free_name_refuted"
   ],
   "note": "exact when the new task runs after its registration; violated by the code in the schedule where the task runs first (spawn before process_insert): start then reports 'already_started' for a free name"
  },
  {
   "property": "C35",
   "status": "partial",
   "theorems": [
    "C35_call_partial",
    "C35_no_late_notice",
    "C35_no_late_reply_refuted",
    "C35_no_late_reply_remote"
   ],
   "note": "every interleaving of the call's own atomic steps with arbitrary calls of everybody else: which result, when, and what is left in the mailbox; no notice of a finished call is ever seen; violated by the code: a reply to a local server that arrives after the timeout is received later; calls of remote servers (C35_no_late_reply_remote): after an answer or a timeout the alias is gone for good and no reply sent from then on reaches any mailbox; not covered there: a call that ended because the server is down (the node destroys the alias after the notice), a reply that had passed the alias already, and a server addressed by name"
  },
  {
   "property": "C36",
   "status": "proved",
   "theorems": [
    "C36_stop"
   ],
   "note": "every interleaving with arbitrary calls of everybody else"
  },
  {
   "property": "C37",
   "status": "proved",
   "theorems": [
    "C37_unknown",
    "C37_restarted",
    "C37_removed"
   ],
   "note": "for every supervisor state and start outcome; conditions: every specification has a start function, and the restart window does not reach before the start of the clock (C39_window_refuted)"
  },
  {
   "property": "C38",
   "status": "proved",
   "theorems": [
    "C38_one_for_one",
    "C38_rest_for_one",
    "C38_one_for_all",
    "C38_preserved",
    "C38_retry",
    "C37_restarted"
   ],
   "note": ""
  },
  {
   "property": "C39",
   "status": "partial",
   "theorems": [
    "C39_intensity_partial",
    "C39_refuted",
    "C39_window_refuted"
   ],
   "note": "proved for all histories when every request for a restart counts; violated by the code: a delayed attempt for a child that was terminated meanwhile restarts nothing but counts; and a window larger than the clock panics"
  },
  {
   "property": "C40",
   "status": "partial",
   "theorems": [
    "C40_never",
    "C40_any_significant",
    "C40_all_significant_partial",
    "C40_all_significant_refuted",
    "C40_last_significant_refuted"
   ],
   "note": "Never and AnySignificant proved; AllSignificant violated by the code (the check is inverted)"
  },
  {
   "property": "C41",
   "status": "partial",
   "theorems": [
    "C41_one_for_one_partial",
    "C37_removed",
    "C41_refuted",
    "C41_terminate_refuted"
   ],
   "note": "proved for OneForOne in every history; violated by the code: RestForOne and OneForAll restart temporary children; terminate_child keeps the specification"
  },
  {
   "property": "C42",
   "status": "partial",
   "theorems": [
    "C42_unique_ids",
    "C42_start_taken",
    "C42_no_panic_partial",
    "C42_no_panic_refuted",
    "C42_no_start_function_refuted"
   ],
   "note": "unique ids in every history; violated by the code: a temporary child whose start is ignored leaves its id behind and the next start_child with it panics; a specification without start function panics; no panic in every other history"
  },
  {
   "property": "C43",
   "status": "proved",
   "theorems": [
    "C43_started",
    "C43_start_failed",
    "C43_reverse",
    "C43_stop",
    "C43_no_child_left"
   ],
   "note": "over every history"
  },
  {
   "property": "C44",
   "status": "partial",
   "theorems": [
    "C44_terminate",
    "C44_restart",
    "C44_delete",
    "C44_not_found",
    "C44_stays_terminated",
    "C44_not_running_refuted"
   ],
   "note": "violated by the code: terminate_child on a child waiting for a delayed attempt (no process on record) leaves the attempt in place, which then starts it"
  },
  {
   "property": "C45",
   "status": "partial",
   "theorems": [
    "C45_which",
    "C45_count",
    "C45_active_refuted"
   ],
   "note": "violated by the code: after a failed OneForOne restart the pid of the dead process stays on record and counts as active"
  },
  {
   "property": "C46",
   "status": "proved",
   "theorems": [
    "C46_registered",
    "C46_absent",
    "C46_stays",
    "C46_no_second_start"
   ],
   "note": "in every history"
  },
  {
   "property": "C47",
   "status": "partial",
   "theorems": [
    "C47_exit",
    "C47_exit_history",
    "C47_one_key",
    "C47_stop",
    "C47_remove",
    "C47_remove_remote",
    "C47_removed_left_alone_partial",
    "C47_remove_running_refuted"
   ],
   "note": "exits, stop and remove exact; violated by the code: a registry that ends before it has handled the notice of a remove kills the removed process; after that notice it is never told to exit"
  },
  {
   "property": "C48",
   "status": "partial",
   "theorems": [
    "C48_refuted",
    "C48_panics_partial"
   ],
   "note": "violated by the code: the registry panics, with exactly the stated damage"
  },
  {
   "property": "C49",
   "status": "partial",
   "theorems": [
    "C49_refuted",
    "C49_partial"
   ],
   "note": "violated by the code: the failed start wipes the table of the running registry, with exactly the stated damage"
  },
  {
   "property": "C50",
   "status": "proved",
   "theorems": [
    "C50_list",
    "C50_remote",
    "C50_separate"
   ],
   "note": "in every state"
  },
  {
   "property": "C51",
   "status": "partial",
   "theorems": [
    "C51_frame_goes_last",
    "C51_where_frames_go",
    "C51_pending_first_in_order_partial",
    "C51_refuted"
   ],
   "note": "order proved in every schedule for a node dialled for the first time (or after a lost connection); violated by the code after disconnect + reconnect, where the old connection's sender is still on record"
  },
  {
   "property": "C52",
   "status": "proved",
   "theorems": [
    "C52_connection_lost",
    "C52_link",
    "C52_process_monitor",
    "C52_node_monitor"
   ],
   "note": "whole effect for all tables; exactly-once from the call that makes the link/monitor, over every schedule in between"
  },
  {
   "property": "C53",
   "status": "partial",
   "theorems": [
    "C53_forget_is_silent_partial",
    "C53_stop_is_silent_partial",
    "C53_forget_refuted",
    "C53_stop_refuted"
   ],
   "note": "violated by the code: neither notifies anybody"
  },
  {
   "property": "C54",
   "status": "proved",
   "theorems": [
    "C54_accepts_iff_free",
    "C54_refused",
    "C54_accepted",
    "C54_only_connection",
    "C54_connect_twice",
    "C54_connect_dials",
    "C54_stale_end"
   ],
   "note": ""
  },
  {
   "property": "C55",
   "status": "partial",
   "theorems": [
    "C55_outcome_partial",
    "C55_refuted"
   ],
   "note": "violated by the code: if each node's own dialler comes first, each refuses the other's connection and both die; never two survive, exactly one if the nodes agree on the order"
  },
  {
   "property": "C56",
   "status": "partial",
   "theorems": [
    "C56_reported_in_every_schedule",
    "C56_two_nodes_in_every_schedule",
    "C56_refuted",
    "C56_request_installed",
    "C56_request_by_name",
    "C56_request_noproc",
    "C56_exit_is_reported",
    "C56_monitor_answered",
    "C56_monitor_forgotten",
    "C56_two_nodes",
    "C52_process_monitor",
    "C22_down_at_most_once_partial"
   ],
   "note": "both sides in every schedule once the request has been handled; refuted when the request overlaps the end of the process: process_exists_lock drops its guard before the callback, so the monitor is recorded after the end and never answered"
  },
  {
   "property": "C57",
   "status": "partial",
   "theorems": [
    "C57_demonitor_effect_partial",
    "C57_withdrawal_panics_partial",
    "C57_demonitor_refuted",
    "C57_exit_refuted"
   ],
   "note": "violated by the code: the withdrawal is addressed to node 0 (the local node), carries no from_id, and the local record stays"
  },
  {
   "property": "C58",
   "status": "partial",
   "theorems": [
    "C58_reported_in_every_schedule",
    "C58_own_end_reported_in_every_schedule",
    "C58_two_nodes_in_every_schedule",
    "C58_refuted",
    "C58_request_installed",
    "C58_request_noproc",
    "C58_unlink_request",
    "C58_exit_is_reported",
    "C58_link_down",
    "C58_link",
    "C58_unlink",
    "C58_two_nodes",
    "C52_link"
   ],
   "note": "both sides and their composition, in every schedule once the request has been handled; refuted when the request overlaps the end of the process: process_exists_lock drops its guard before the callback, so the link is recorded after the end and the exit is never reported"
  },
  {
   "property": "C59",
   "status": "proved",
   "theorems": [
    "C59_send_frame_effect",
    "C59_send_frame_once",
    "C59_send_two_nodes",
    "C59_exit_frame",
    "C18_exit_remote"
   ],
   "note": ""
  },
  {
   "property": "C60",
   "status": "proved",
   "theorems": [
    "C60_list",
    "C60_list_by_state",
    "C60_disconnect",
    "C60_current"
   ],
   "note": "list_by_state(Current) names the local node as a remote one (C60_current)"
  },
  {
   "property": "C61",
   "status": "partial",
   "theorems": [
    "C61_shutdown",
    "C61_no_late_exit_partial",
    "C61_late_exit_refuted"
   ],
   "note": "every interleaving; when the shutdown learns how the child ended, no exit signal of it is ever received afterwards; when the child is already on its way out (noproc) the code delivers one late: C61_late_exit_refuted"
  },
  {
   "property": "C62",
   "status": "partial",
   "theorems": [
    "C62_run",
    "C62_returns_when_exited",
    "C62_start_failed",
    "C62_signal_arrives",
    "C62_test",
    "C62_test_start_failed",
    "C62_forged_exit_refuted",
    "C62_stray_message_refuted",
    "C62_test_kill_refuted",
    "C62_test_panic_refuted",
    "C62_waits_while_serving"
   ],
   "note": "the loop is characterised exactly for every arrival sequence; violated by the code: run returns while the process is alive if that process sends the application's process an exit signal, or if any message of another type is sent to it; test passes on Kill and when start panics"
  },
  {
   "property": "C63",
   "status": "partial",
   "theorems": [
    "C63_refuted",
    "C63_partial",
    "C63_server_options",
    "C63_application_config"
   ],
   "note": "violated by the code: heartbeat_timeout sets the handshake timeout; every other builder is proved"
  },
  {
   "property": "C64",
   "status": "partial",
   "theorems": [
    "C64_refuted",
    "C64_never_returns",
    "C64_partial"
   ],
   "note": "violated by the code: some of the comparisons call themselves and never return; the others are proved symmetric"
  },
  {
   "property": "C65",
   "status": "partial",
   "theorems": [
    "C65_sends",
    "C65_no_errors",
    "C65_send_error",
    "C65_terminate_refuted",
    "C65_terminate_partial"
   ],
   "note": "what goes out is proved for every buffer and socket outcome; 'terminate at most once' is violated by the code (no return after a failed flush)"
  },
  {
   "property": "C66",
   "status": "partial",
   "theorems": [
    "C66_in_order",
    "C66_ping",
    "C66_leaves",
    "C66_going",
    "C66_panics",
    "C66_after_exit_refuted",
    "C66_close_without_terminate_refuted",
    "C66_init_error_refuted",
    "C66_terminate_partial",
    "C66_error_kinds",
    "C66_error_texts"
   ],
   "note": "order, Pong before Ping and the exit reasons proved for every run; violated by the code: callbacks may still run after an exit was requested, and a handler's own Close or an init error exits without the documented terminate"
  },
  {
   "property": "C67",
   "status": "proved",
   "theorems": [
    "C67_reason",
    "C67_last_signal"
   ],
   "note": ""
  },
  {
   "property": "C68",
   "status": "proved",
   "theorems": [
    "C68_await_many",
    "C68_returns",
    "C68_shutdown",
    "C68_first_to_occur_refuted"
   ],
   "note": "argument order as stated; the documentation's 'first error that occurs' is refuted (it is not the first in time)"
  },
  {
   "property": "C69",
   "status": "proved",
   "theorems": [
    "C69_conserved",
    "C69_bounded",
    "C69_conserved_single",
    "C69_try_acquire",
    "C69_no_overtaking",
    "C69_in_order"
   ],
   "note": "tokio's semaphore modelled from its documentation; permits set aside for a waiting acquire_many count as granted"
  },
  {
   "property": "C70",
   "status": "proved",
   "theorems": [
    "C70_conversions",
    "C70_single",
    "C70_injective"
   ],
   "note": ""
  },
  {
   "property": "C71",
   "status": "proved",
   "theorems": [
    "C71_end_of_registry"
   ],
   "note": "in every history whose start routines give new processes; that processes obey is not part of this model"
  },
  {
   "property": "C72",
   "status": "partial",
   "theorems": [
    "C72_refuted",
    "C72_partial"
   ],
   "note": "violated by the code when the options give the registry another process name; proved for every history otherwise"
  },
  {
   "property": "C73",
   "status": "partial",
   "theorems": [
    "C73_attributes",
    "C73_refuted",
    "C73_partial"
   ],
   "note": "violated by the code: restart() after significant(true) bypasses the check"
  },
  {
   "property": "C74",
   "status": "proved",
   "theorems": [
    "C74_decoded_frames_are_wellformed",
    "C74_consumes_a_unit",
    "C74_injective",
    "C74_strings_are_unicode"
   ],
   "note": ""
  },
  {
   "property": "C75",
   "status": "proved",
   "theorems": [
    "C75_down_notice_true",
    "C75_received_down_true",
    "C75_node_notice_true"
   ],
   "note": "every schedule; notices about processes of other nodes repeat what those nodes said (C52, C56)"
  },
  {
   "property": "C76",
   "status": "proved",
   "theorems": [
    "C76_received_exit_true"
   ],
   "note": "every schedule; the calls of exit in the run are a parameter of the statement"
  },
  {
   "property": "C77",
   "status": "proved",
   "theorems": [
    "C77_received_had_arrived"
   ],
   "note": ""
  },
  {
   "property": "C78",
   "status": "proved",
   "theorems": [
    "C78_no_thin_air"
   ],
   "note": "for serialisers that do not turn a value of the set into bytes that read as something else"
  },
  {
   "property": "C79",
   "status": "proved",
   "theorems": [
    "C79_exits_before_notices",
    "C79_none_later"
   ],
   "note": "every schedule; when the receiver itself calls link on the process after its end, the exit signal of that call comes later (C79_late_link_refuted), which is why such calls are excluded"
  },
  {
   "property": "C80",
   "status": "proved",
   "theorems": [
    "C80_notices_name_the_monitored",
    "C80_notices_name_the_node"
   ],
   "note": "every script, every interleaving"
  },
  {
   "property": "C81",
   "status": "proved",
   "theorems": [
    "C81_frames_arrive_in_order",
    "C81_nothing_lost",
    "C81_hello_ends_the_connection"
   ],
   "note": "byte level: both senders, the pipes, the reader's buffer and the codec; frames are Rust values under 4 GiB"
  },
  {
   "property": "C82",
   "status": "proved",
   "theorems": [
    "C82_pong_per_ping",
    "C82_ping_after_silence"
   ],
   "note": "every timed run"
  },
  {
   "property": "C83",
   "status": "proved",
   "theorems": [
    "C83_timeout_means_silence",
    "C83_silence_is_noticed"
   ],
   "note": "every timed run; the second assumes that the receiver is scheduled within d"
  },
  {
   "property": "C84",
   "status": "partial",
   "theorems": [
    "C84_healthy_connection_stays_partial",
    "C84_healthy_connection_stays_refuted"
   ],
   "note": "violated: the heartbeat_timeout builder sets another option (C63), so the limit is always 45 s; proved with 45 s in its place"
  },
  {
   "property": "C85",
   "status": "proved",
   "theorems": [
    "C85_in_order",
    "C85_all_arrive"
   ],
   "note": "every schedule; no bytes written for another type can be read as this one; other tasks send other types, which is how the arrivals are told apart"
  },
  {
   "property": "C86",
   "status": "proved",
   "theorems": [
    "C86_across_nodes",
    "C86_nothing_lost"
   ],
   "note": "composition of A's registry, the byte-level connection of C81 and B's registry; the values sent are read back as themselves (C100) and no other type is mistaken for theirs (C101); A's calls before the first message have returned"
  },
  {
   "property": "C87",
   "status": "partial",
   "theorems": [
    "C87_linked_told_partial",
    "C87_refuted"
   ],
   "note": "every schedule once the link is in place; a link call that overlaps with the whole end of the other process is lost (C87_refuted): link checks that the process exists and adds the entry in two steps"
  },
  {
   "property": "C88",
   "status": "proved",
   "theorems": [
    "C88_connection_ends_together"
   ],
   "note": "every schedule in which none of the three ends normally (their code never returns) and processes told to end do end"
  },
  {
   "property": "C89",
   "status": "partial",
   "theorems": [
    "C89_dialled_partial",
    "C89_refuted"
   ],
   "note": "proved for dialled connections (linked to the local node's process); accepted connections survive: node_remote.rs:294 links the process to itself"
  },
  {
   "property": "C90",
   "status": "partial",
   "theorems": [
    "C90_stays_alive_partial",
    "C90_refuted"
   ],
   "note": "the object of an earlier node clears the tables of the new one when it is dropped; proved when no such drop happens"
  },
  {
   "property": "C91",
   "status": "proved",
   "theorems": [
    "C91_monitor_in_place_reports"
   ],
   "note": "every schedule after the monitor call has returned (monitor calls that overlap the end: C22)"
  },
  {
   "property": "C92",
   "status": "partial",
   "theorems": [
    "C92_one_local_partial",
    "C92_all_or_nothing_partial",
    "C92_others_as_before",
    "C92_never_forged",
    "C92_refuted"
   ],
   "note": "violated for lists: all local destinations but the first get a serialised copy (process_kernel.rs:53-55), so a Local sent to two local processes panics (C92_refuted); everything else is proved, all-or-nothing in every schedule"
  },
  {
   "property": "C93",
   "status": "partial",
   "theorems": [
    "C93_requests_answered",
    "C93_goes_on",
    "C93_ends_with_listener",
    "C93_refuted",
    "C93_listener"
   ],
   "note": "violated: a message of another type - or bytes from another node that do not decode - panics the process and takes the node down; everything else is proved for every interleaving of arrivals and turns"
  },
  {
   "property": "C94",
   "status": "partial",
   "theorems": [
    "C94_answers",
    "C94_in_every_schedule",
    "C94_answers_fit",
    "C94_every_call_answered",
    "C94_refuted"
   ],
   "note": "violated for processes of other nodes: processes_info panics the server, and requests waiting behind it are lost; all other requests: proved, in every schedule"
  },
  {
   "property": "C95",
   "status": "partial",
   "theorems": [
    "C95_start",
    "C95_stop",
    "C95_accepts",
    "C95_accepts_tls",
    "C95_refuted",
    "C95_certificate"
   ],
   "note": "violated: the server ignores the end of its acceptor (e.g. a panic over a bad certificate after a successful start) and goes on without accepting; the rest is proved"
  },
  {
   "property": "C96",
   "status": "partial",
   "theorems": [
    "C96_body_decides_partial",
    "C96_main_refuted",
    "C96_trap_refuted",
    "C96_test_refuted"
   ],
   "note": "every schedule once the application process and the body's process are registered; violated before that on the multi-threaded runtime of run: the task starts before its process is registered, so a body that ends at once is never reported, and the application process may lose its trap flag; a test whose body panics with the text 'shutdown' passes"
  },
  {
   "property": "C97",
   "status": "proved",
   "theorems": [
    "C97_no_deadlock",
    "C97_every_call_returns",
    "C97_nothing_kept",
    "C97_exclusive"
   ],
   "note": "locks only: the tables' contents are replaced by arbitrary outcomes, which covers more than the code does; trusted: what DashMap, Mutex and tokio's spawn and abort lock (DESIGN.md section 5)"
  },
  {
   "property": "C98",
   "status": "partial",
   "theorems": [
    "C98_callbacks_partial",
    "C98_map_node_refuted",
    "C98_add_nodes_refuted"
   ],
   "note": "violated: map_node runs the closure while it holds the shard of the override, add_nodes and set_nodes run the iterator while they hold the ring's mutex, so a closure that changes an override of the same shard and an iterator that changes the nodes wait for themselves; proved for closures that leave overrides alone and iterators that do not use a ring"
  },
  {
   "property": "C99",
   "status": "partial",
   "theorems": [
    "C99_text_is_read",
    "C99_equality_is_reading",
    "C99_one_node",
    "C99_panics",
    "C99_read",
    "C99_pairs",
    "C99_every_node_partial",
    "C99_every_node_refuted",
    "C99_ipv4_texts",
    "C99_ipv4_text_back",
    "C99_ipv6_texts",
    "C99_ipv6_canonical"
   ],
   "note": "the parser of IPv4 and IPv6 socket addresses is modelled and its texts characterised exactly; violated for names that contain an '@' (the text is split at the first one, node.rs:206): such a node cannot be written as text and does not equal its own text"
  }
 ]
}