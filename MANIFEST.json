{
 "claims": [
  {
   "property": "C01",
   "status": "proved",
   "theorems": [
    "C01_uncommitted_never_shown",
    "C01_taken_never_shown"
   ],
   "note": ""
  },
  {
   "property": "C02",
   "status": "proved",
   "theorems": [
    "C02_no_duplicate_delivery"
   ],
   "note": ""
  },
  {
   "property": "C03",
   "status": "proved",
   "theorems": [
    "C03_no_lost_message"
   ],
   "note": ""
  },
  {
   "property": "C04",
   "status": "proved",
   "theorems": [
    "C04_rollback_of_dequeued",
    "C04_rollback_of_enqueued",
    "C04_rollback_leaves_others",
    "C04_error_queue_is_last_stop",
    "C04_settled_message_moved_refuted"
   ],
   "note": "Complete description of what a rollback does to held, enqueued and foreign messages. The unconditional frame claim is refuted by C04_settled_message_moved_refuted (rollback3 has no state filter)."
  },
  {
   "property": "C05",
   "status": "proved",
   "theorems": [
    "C05_fifo",
    "C05_dequeue_effect"
   ],
   "note": ""
  },
  {
   "property": "C06",
   "status": "proved",
   "theorems": [
    "C06_by_properties",
    "C06_by_id",
    "C06_browse"
   ],
   "note": ""
  },
  {
   "property": "C07",
   "status": "proved",
   "theorems": [
    "C07_metrics_exact",
    "C07_flow_balances"
   ],
   "note": ""
  },
  {
   "property": "C08",
   "status": "proved",
   "theorems": [
    "C08_size_tracked",
    "C08_too_big_is_refused",
    "C08_capacity_kept"
   ],
   "note": ""
  },
  {
   "property": "C09",
   "status": "proved",
   "theorems": [
    "C09_store_is_log",
    "C09_crash_keeps_the_durable",
    "C09_durable_stays",
    "C09_enqueue_durable",
    "C09_enqueue_survives",
    "C09_enqueue_as_requested",
    "C09_commit_durable",
    "C09_rollback_durable"
   ],
   "note": ""
  },
  {
   "property": "C10",
   "status": "proved",
   "theorems": [
    "C10_restore_exact"
   ],
   "note": ""
  },
  {
   "property": "C11",
   "status": "proved",
   "theorems": [
    "C11_recovery_commit",
    "C11_recovery_rollback"
   ],
   "note": ""
  },
  {
   "property": "C12",
   "status": "partial",
   "theorems": [
    "C12_accounted",
    "C12_served_at_idle",
    "C12_served_at_timeout",
    "C12_timer_partial",
    "C12_timer_always_armed_refuted",
    "C12_idle_sleeps_refuted"
   ],
   "note": "Accounting and service at idle/timeout points are proved in full. The timer half is proved under the hypothesis that the queue had no message already available (C12_timer_partial); in general it is false: C12_timer_always_armed_refuted (lost wakeup). C12_idle_sleeps_refuted: a selective request makes the idle process spin."
  },
  {
   "property": "C13",
   "status": "partial",
   "theorems": [
    "C13_commit_after_vote_partial",
    "C13_own_decision",
    "C13_late_joiner_refuted",
    "C13_disobedient_upstream_refuted"
   ],
   "note": "Proved for every run with honest resources, nobody joining after the vote began and an obedient upstream manager; both remaining conditions are necessary (the _refuted theorems). C13_own_decision needs neither."
  },
  {
   "property": "C14",
   "status": "partial",
   "theorems": [
    "C14_rolled_back",
    "C14_committed",
    "C14_nobody_committed_partial",
    "C14_upstream_told_read_only_refuted"
   ],
   "note": "What the caller is told is exactly characterised (C14_rolled_back, C14_committed). 'Nobody has been asked to commit' needs that nobody rolls back meanwhile (see C15). Refuted for an upstream manager: a domain whose severest vote is XAER_NOTA answers read-only and leaves a prepared resource."
  },
  {
   "property": "C15",
   "status": "partial",
   "theorems": [
    "C15_stable_partial",
    "C15_owner_dies_refuted",
    "C15_rollback_during_vote_refuted"
   ],
   "note": "Proved for transactions nobody rolls back from outside and whose owner stays alive; without that it is false (two machine-checked counterexamples)."
  },
  {
   "property": "C16",
   "status": "partial",
   "theorems": [
    "C16_prepared_is_durable_partial",
    "C16_commit_before_durable_refuted"
   ],
   "note": "The second half ('prepared' is told only when it is on disk) is proved in full; the first half (commit requests wait for the record) is false: C16_commit_before_durable_refuted."
  },
  {
   "property": "C17",
   "status": "partial",
   "theorems": [
    "C17_at_most_one",
    "C17_exactly_one_partial",
    "C17_removed_partial",
    "C17_commit_never_answered_refuted"
   ],
   "note": "At most one final reply is unconditional; exactly one, and removal, for undisturbed transactions whose resources answer or are given up. Refuted otherwise: C17_commit_never_answered_refuted."
  },
  {
   "property": "C18",
   "status": "proved",
   "theorems": [
    "C18_exactly_once",
    "C18_outcome_per_request",
    "C18_replies",
    "C18_unknown_reply_ignored",
    "C18_answered_may_be_failed"
   ],
   "note": ""
  },
  {
   "property": "C19",
   "status": "proved",
   "theorems": [
    "C19_commutative",
    "C19_associative",
    "C19_one_of_the_two",
    "C19_unknown_is_resource_error",
    "C19_antisymmetric",
    "C19_kinds",
    "C19_order_independent",
    "C19_worst"
   ],
   "note": ""
  },
  {
   "property": "C20",
   "status": "proved",
   "theorems": [
    "C20_ok_only_if_all_ok",
    "C20_ok_is_neutral",
    "C20_commutative",
    "C20_associative",
    "C20_order_independent",
    "C20_resource_codes_are_plain",
    "C20_conversion_is_truthful",
    "C20_order_independent_refuted",
    "C20_fatal_error_hidden_refuted",
    "C20_no_begin_variant"
   ],
   "note": ""
  },
  {
   "property": "C21",
   "status": "proved",
   "theorems": [
    "C21_client_ok",
    "C21_client_rollback",
    "C21_client_one_phase_refuted",
    "C21_commit_tells_truth"
   ],
   "note": "Manager's half and client's half; refuted for the one-phase commit inside the process, where XA_RB* is reported as TX_HAZARD (C21_client_one_phase_refuted)."
  },
  {
   "property": "C22",
   "status": "partial",
   "theorems": [
    "C22_commit_refused",
    "C22_rollback_refused",
    "C22_commit_commits",
    "C22_rollback_rolls_back",
    "C22_none_lost",
    "C22_refused_unchanged",
    "C22_suspend",
    "C22_resume",
    "C22_resume_once",
    "C22_can_resume",
    "C22_failed_suspend_refuted",
    "C22_failed_resume_refuted",
    "C22_failed_stacked_begin_refuted"
   ],
   "note": "Proved for every call sequence; the clause \"a refused call leaves all state unchanged\" holds when no resource manager was involved (C22_refused_unchanged, C22_commit_refused, C22_rollback_refused) and is refuted when a resource manager fails: C22_failed_suspend_refuted, C22_failed_resume_refuted, C22_failed_stacked_begin_refuted."
  },
  {
   "property": "C23",
   "status": "partial",
   "theorems": [
    "C23_chained_commit_partial",
    "C23_chained_rollback_partial",
    "C23_no_begin_refuted",
    "C23_no_begin_unchained_refuted"
   ],
   "note": "When the new transaction starts the completion code is kept; when it does not, TX_ERROR is added, not NO_BEGIN: C23_no_begin_refuted."
  },
  {
   "property": "C24",
   "status": "partial",
   "theorems": [
    "C24_consumed",
    "C24_commit_cause",
    "C24_completed",
    "C24_pending_refuted"
   ],
   "note": "All proved but the clause on pending replies, which is false: C24_pending_refuted."
  },
  {
   "property": "C25",
   "status": "proved",
   "theorems": [
    "C25_one_caller"
   ],
   "note": "For every message history. `releases` lists what ends a reservation."
  },
  {
   "property": "C26",
   "status": "partial",
   "theorems": [
    "C26_answered_once",
    "C26_no_lost_wakeup_partial",
    "C26_oldest_first_partial",
    "C26_discard_refuted",
    "C26_undeliverable_refuted",
    "C26_fifo_refuted",
    "C26_concurrent_refuted"
   ],
   "note": "Exactly-once answering is proved for every history. No lost wakeup and oldest-first are proved for histories without prepare-shutdown, undeliverable replies, fatal kills and discards of lookups already replied to; without those restrictions, and for order across re-advertise and for concurrent processes, they are refuted by witnesses."
  },
  {
   "property": "C27",
   "status": "partial",
   "theorems": [
    "C27_smallest_order_partial",
    "C27_order_update_refuted"
   ],
   "note": "The order that counts is the one given when the process first advertised the service; later order updates have no effect (refuted). Assumes unambiguous routes, one process per ipc, no fatal kill (an advertise of a disabled instance is ignored)."
  },
  {
   "property": "C28",
   "status": "partial",
   "theorems": [
    "C28_not_early",
    "C28_queued_expire",
    "C28_call_expires",
    "C28_deadline",
    "C28_timer_armed_partial",
    "C28_timer_rearmed",
    "C28_queued_timer_refuted",
    "C28_last_deadline_refuted",
    "C28_discovery_refuted"
   ],
   "note": "Expiry is neither early nor missed when the timer fires; the timer is armed for every deadline when no queued lookup has one, and after each firing. Refuted: deadlines of queued lookups do not arm it, removing the last deadline reads past the end, lookups waiting for discovery get none."
  },
  {
   "property": "C29",
   "status": "proved",
   "theorems": [
    "C29_datagrams",
    "C29_round_trip",
    "C29_resend",
    "C29_authentic",
    "C29_misfit_rejected",
    "C29_misfit_harmless"
   ],
   "note": ""
  },
  {
   "property": "C30",
   "status": "partial",
   "theorems": [
    "C30_never_raises",
    "C30_exactly_once",
    "C30_in_order",
    "C30_nothing_left",
    "C30_as_requested",
    "C30_no_overtaking",
    "C30_clear_refuted"
   ],
   "note": "Proved for any interleaving and any use of the device but clear; with clear in the middle of a message it is false (C30_clear_refuted). Order between messages with different keys: C30_no_overtaking, when the first had arrived before the other started."
  },
  {
   "property": "C31",
   "status": "proved",
   "theorems": [
    "C31_round_trip",
    "C31_big_endian",
    "C31_across_hosts"
   ],
   "note": ""
  },
  {
   "property": "C32",
   "status": "partial",
   "theorems": [
    "C32_round_trip",
    "C32_cursor",
    "C32_past_end_partial",
    "C32_past_end_scalar_partial",
    "C32_past_end_refuted",
    "C32_past_end_binary_refuted"
   ],
   "note": "Round trip and the cursor are proved for every history. That reading past the end always reports out-of-bounds is false: the value is read before the check (C32_past_end_refuted), and a block of bytes can be read at the end (C32_past_end_binary_refuted); the _partial theorems say what is true."
  },
  {
   "property": "C33",
   "status": "proved",
   "theorems": [
    "C33_history",
    "C33_add",
    "C33_set",
    "C33_remove",
    "C33_iteration",
    "C33_received_refuted"
   ],
   "note": "Every history of operations on any number of buffers, on hosts of both byte orders, against lists of fields. Payloads that were not made by these operations are outside the claim, and are not handled safely (C33_received_refuted)."
  },
  {
   "property": "C34",
   "status": "proved",
   "theorems": [
    "C34_hex",
    "C34_hex_text",
    "C34_base64",
    "C34_hex_upper_case_refuted"
   ],
   "note": "base64 is third party code (cppcodec) and modelled by RFC 4648. Hex text in upper case is decoded to something else (C34_hex_upper_case_refuted); the encoder writes lower case."
  },
  {
   "property": "C35",
   "status": "proved",
   "theorems": [
    "C35_round_trip",
    "C35_overwrite",
    "C35_platform_independent",
    "C35_unambiguous",
    "C35_read_is_a_value",
    "C35_overwrite_refuted",
    "C35_malformed_refuted"
   ],
   "note": "Round trip for every type built of the modelled serializations, any mix of hosts with the network archive; overwriting an object with optionals/insert containers and malformed input are refuted by witness (C35_overwrite_refuted, C35_malformed_refuted)."
  },
  {
   "property": "C36",
   "status": "proved",
   "theorems": [
    "C36_commit_exact"
   ],
   "note": ""
  },
  {
   "property": "C37",
   "status": "proved",
   "theorems": [
    "C37_clear_exact",
    "C37_remove_exact"
   ],
   "note": ""
  },
  {
   "property": "C38",
   "status": "proved",
   "theorems": [
    "C38_configure",
    "C38_unique_names"
   ],
   "note": ""
  },
  {
   "property": "C39",
   "status": "partial",
   "theorems": [
    "C39_vote_is_durable_refuted"
   ],
   "note": "False of the code: prepare is answered without persisting (handle.cpp:476-490). The theorem is a machine-checked counterexample."
  },
  {
   "property": "C40",
   "status": "partial",
   "theorems": [
    "C40_plain_dequeue_durable_refuted",
    "C40_clear_durable_refuted"
   ],
   "note": "False of the code: these replies are not deferred until a persist. The theorems are machine-checked counterexamples."
  },
  {
   "property": "C41",
   "status": "proved",
   "theorems": [
    "C41_told_before_enqueue_reply",
    "C41_told_before_dequeue_reply"
   ],
   "note": ""
  },
  {
   "property": "C42",
   "status": "partial",
   "theorems": [
    "C42_prepared_after_final_refuted"
   ],
   "note": "False of the code; machine-checked counterexample."
  },
  {
   "property": "C43",
   "status": "proved",
   "theorems": [
    "C43_legal_xa_calls",
    "C43_suspended_during_call",
    "C43_legal_xa",
    "C43_dynamic_refuted",
    "C43_control_change_refuted"
   ],
   "note": "For processes with fixed resources that agree, and a constant transaction control, also with synchronous calls in between (no resource is associated with anything as long as the call is on its way); refuted for dynamic resources in stacked mode and when the control is changed with transactions stacked."
  },
  {
   "property": "C44",
   "status": "partial",
   "theorems": [
    "C44_never_committed",
    "C44_commit_refused",
    "C44_cause_refuted"
   ],
   "note": "Never committed: proved. The cause is garbled by a cast between two enumerations: C44_cause_refuted."
  },
  {
   "property": "C45",
   "status": "proved",
   "theorems": [
    "C45_advertised_only",
    "C45_local_first"
   ],
   "note": "Assumes unambiguous routes, one process per ipc and no fatal kill; the second theorem also no prepare-shutdown."
  },
  {
   "property": "C46",
   "status": "proved",
   "theorems": [
    "C46_absent_only"
   ],
   "note": "Assumes unambiguous routes, one process per ipc, no fatal kill, no prepare-shutdown."
  },
  {
   "property": "C47",
   "status": "proved",
   "theorems": [
    "C47_never_raises"
   ],
   "note": ""
  },
  {
   "property": "C48",
   "status": "partial",
   "theorems": [
    "C48_killed_refuted"
   ],
   "note": "Refuted: once the server has acknowledged, a later lookup is given the server although the kill has been ordered."
  },
  {
   "property": "C49",
   "status": "partial",
   "theorems": [
    "C49_discarded_partial",
    "C49_shared_correlation_refuted"
   ],
   "note": "Proved when no message of another type shares the correlation; otherwise false (C49_shared_correlation_refuted)."
  },
  {
   "property": "C50",
   "status": "proved",
   "theorems": [
    "C50_accounted",
    "C50_watched",
    "C50_empty_refuted"
   ],
   "note": "For messages with a non-empty payload, which every serialized message has; an empty one is dropped without a trace (C50_empty_refuted). Callbacks that call the coordinator are not modelled."
  },
  {
   "property": "C51",
   "status": "proved",
   "theorems": [
    "C51_end_to_end"
   ],
   "note": ""
  },
  {
   "property": "C52",
   "status": "partial",
   "theorems": [
    "C52_no_failure",
    "C52_once",
    "C52_in_order",
    "C52_all_arrive",
    "C52_progress",
    "C52_empty_payload_refuted",
    "C52_push_refuted"
   ],
   "note": "Proved for messages with a payload that are sent by the other end. False for messages without payload (C52_empty_payload_refuted) and for messages pushed locally (C52_push_refuted)."
  },
  {
   "property": "C53",
   "status": "proved",
   "theorems": [
    "C53_payload",
    "C53_type",
    "C53_empty_content_refuted"
   ],
   "note": "An empty content type is undefined behaviour (C53_empty_content_refuted); no buffer type is translated to it. base64 is third party code (cppcodec) and modelled by RFC 4648."
  },
  {
   "property": "C54",
   "status": "partial",
   "theorems": [
    "C54_uuid",
    "C54_nil_refuted",
    "C54_gtrid_partial",
    "C54_gtrid_text",
    "C54_long_gtrid_refuted"
   ],
   "note": "False for the nil uuid and for global ids longer than 32 bytes (C54_nil_refuted, C54_long_gtrid_refuted), proved for all others."
  },
  {
   "property": "C55",
   "status": "proved",
   "theorems": [
    "C55_equal",
    "C55_irreflexive",
    "C55_transitive",
    "C55_total"
   ],
   "note": ""
  },
  {
   "property": "C56",
   "status": "partial",
   "theorems": [
    "C56_documented",
    "C56_bytes",
    "C56_numbers",
    "C56_only_known",
    "C56_all_documented_refuted",
    "C56_null_xid_refuted"
   ],
   "note": "every documented message is as documented; refuted: the discovery reply of version 1.3 is not documented, and the documentation has another null XID (format 0) than the code (-1)."
  },
  {
   "property": "C57",
   "status": "proved",
   "theorems": [
    "C57_highest",
    "C57_inbound",
    "C57_outbound"
   ],
   "note": ""
  },
  {
   "property": "C58",
   "status": "partial",
   "theorems": [
    "C58_delivered",
    "C58_duplex_refuted",
    "C58_deadline_refuted",
    "C58_disabled_queue_refuted",
    "C58_dequeue_error_refuted"
   ],
   "note": "delivered the same up to what the version has no room for; refuted for the stronger claim: before 1.3 the duplex of a conversation and a passed deadline are lost and a failed dequeue is an empty queue, before 1.4 a disabled queue is enabled."
  },
  {
   "property": "C59",
   "status": "proved",
   "theorems": [
    "C59_descriptors_distinct",
    "C59_tpacall_fresh",
    "C59_reply_matches",
    "C59_at_most_one_reply",
    "C59_bad_descriptor",
    "C59_waiting_delivered",
    "C59_not_yet",
    "C59_any",
    "C59_tpcall_reply",
    "C59_any_late_refuted",
    "C59_any_which_refuted"
   ],
   "note": "refuted outside of the claim: a second reply to the same request (timeout reply and a late service reply) makes a later TPGETANY fail with TPEBADDESC; an error with TPGETANY does not tell which call it is about."
  },
  {
   "property": "C60",
   "status": "proved",
   "theorems": [
    "C60_cancelled_silent",
    "C60_cancel_result",
    "C60_failed_call",
    "C60_tpcall_clean",
    "C60_interrupted_refuted",
    "C60_failed_call_commit_refuted"
   ],
   "note": "refuted for the stronger claim: an interrupted tpcall leaves its call outstanding, and a failed send leaves the call associated with the transaction, which cannot be committed any more."
  },
  {
   "property": "C61",
   "status": "partial",
   "theorems": [
    "C61_isolated_partial",
    "C61_left_behind_refuted",
    "C61_discarded_refuted"
   ],
   "note": "proved for invocations that leave no call outstanding; refuted in general: Context::clean is empty, so the reply to a call left behind is given to the next invocation, and the descriptor of a call whose reply is discarded stays valid and waits for ever."
  },
  {
   "property": "C62",
   "status": "proved",
   "theorems": [
    "C62_pending_call",
    "C62_bad_reply"
   ],
   "note": "for transactions that the process has not been invoked in (those it cannot commit anyway)."
  },
  {
   "property": "C63",
   "status": "proved",
   "theorems": [
    "C63_one_acknowledge",
    "C63_one_answer",
    "C63_at_most_one",
    "C63_content"
   ],
   "note": "for every routine, ending and failure to communicate; a caller that cannot be reached is tried twice at most."
  },
  {
   "property": "C64",
   "status": "proved",
   "theorems": [
    "C64_invoked_in",
    "C64_fresh",
    "C64_consumed",
    "C64_joined_stays"
   ],
   "note": "service routines are any list of calls and tx operations but those the server itself makes."
  },
  {
   "property": "C65",
   "status": "partial",
   "theorems": [
    "C65_may_commit",
    "C65_caller_cannot_commit",
    "C65_commits",
    "C65_told_success",
    "C65_conversation_refuted",
    "C65_unreachable_refuted",
    "C65_unreachable_state_refuted",
    "C65_unknown_refuted",
    "C65_rolled_back_refuted",
    "C65_forward_refuted"
   ],
   "note": "proved for services that exist, while the transaction manager can be reached, and for calls (not conversations); refuted otherwise: a conversation that returns TPFAIL is committed; if the transaction manager cannot be reached at the end, the second try of the destructor has nothing left to do and the caller is told success, or may commit after an exception; an unknown service lets the caller commit; a transaction of the server that is rolled back since it is rollback-only is reported as success; a forward does not tell that the transaction is rollback-only."
  },
  {
   "property": "C66",
   "status": "partial",
   "theorems": [
    "C66_send_refused",
    "C66_receive_refused",
    "C66_one",
    "C66_all_received",
    "C66_connect",
    "C66_invoked",
    "C66_told",
    "C66_type_mismatch_refuted"
   ],
   "note": "proved for every schedule; refuted: with TPNOCHANGE and another type of the buffer, tprecv fails with TPEOTYPE and takes the control without telling (C66_type_mismatch_refuted)."
  },
  {
   "property": "C67",
   "status": "partial",
   "theorems": [
    "C67_order",
    "C67_next",
    "C67_receive_event",
    "C67_send_event",
    "C67_return_told",
    "C67_type_mismatch_refuted",
    "C67_pump_refuted"
   ],
   "note": "proved for servers that do not go back to the message pump with an open conversation that they have connected; without that data is lost (C67_pump_refuted), and a TPEOTYPE loses data or how the service returned (C67_type_mismatch_refuted)."
  },
  {
   "property": "C68",
   "status": "partial",
   "theorems": [
    "C68_distinct",
    "C68_bad_descriptor",
    "C68_others",
    "C68_disconnect",
    "C68_disconnect_refused",
    "C68_disconnect_told",
    "C68_return_closes",
    "C68_connect_waits",
    "C68_signal_refuted",
    "C68_return_other_refuted",
    "C68_connect_died_refuted"
   ],
   "note": "proved but for: a signal in tprecv ends the conversation silently and the other waits for ever; tpreturn closes another conversation that uses the index of the one that was disconnected; tpconnect waits although it was told that the server is gone (the three refuted theorems)."
  },
  {
   "property": "C69",
   "status": "partial",
   "theorems": [
    "C69_commit_refused",
    "C69_ended_refuted",
    "C69_no_transaction"
   ],
   "note": "refuted: the association that tpconnect makes with the transaction is never taken away, so tx_commit is refused with TX_PROTOCOL_ERROR for as long as the transaction is current (C69_commit_refused, for all histories). With TPNOTRAN nothing is in the way."
  },
  {
   "property": "C70",
   "status": "proved",
   "theorems": [
    "C70_request",
    "C70_wire",
    "C70_once",
    "C70_reply",
    "C70_passed_on"
   ],
   "note": "C70_reply for histories without a queue request that failed to be sent (see C71_queue_refuted)."
  },
  {
   "property": "C71",
   "status": "partial",
   "theorems": [
    "C71_lost_answered_partial",
    "C71_stops_partial",
    "C71_stops_not",
    "C71_undefined_only",
    "C71_queue_refuted",
    "C71_call_refuted",
    "C71_conversation_refuted",
    "C71_disconnect_refuted"
   ],
   "note": "proved for histories where no queue request is given to a connection that turns out to be broken. Refuted: a queue request whose send fails is never answered and the outbound never stops; a call whose send fails uses the removed connection (undefined behaviour); the caller of a conversation is not told that the connection is lost; a failing disconnect removes the executing task (undefined behaviour)."
  },
  {
   "property": "C72",
   "status": "partial",
   "theorems": [
    "C72_involved_partial",
    "C72_once",
    "C72_reused_refuted"
   ],
   "note": "proved with the same restriction; refuted: the descriptor of a queue request that could not be sent stays associated, and the next connection with that descriptor is taken as known by the transaction manager."
  },
  {
   "property": "C73",
   "status": "partial",
   "theorems": [
    "C73_cause",
    "C73_in_flight",
    "C73_closed",
    "C73_consulted",
    "C73_survives_partial",
    "C73_twice_refuted"
   ],
   "note": "the closing is proved; survival is proved if each connection is asked to leave at most once. Refuted: asked twice while busy terminates the process (C73_twice_refuted)."
  },
  {
   "property": "C74",
   "status": "proved",
   "theorems": [
    "C74_once",
    "C74_answer",
    "C74_refused",
    "C74_back"
   ],
   "note": ""
  },
  {
   "property": "C75",
   "status": "partial",
   "theorems": [
    "C75_services",
    "C75_queues",
    "C75_all",
    "C75_gone",
    "C75_reset",
    "C75_leaving",
    "C75_leaving_refuted"
   ],
   "note": "proved except that nothing is advertised after a connection is asked to leave: the answer of a discovery in flight is (C75_leaving_refuted)."
  },
  {
   "property": "C76",
   "status": "partial",
   "theorems": [
    "C76_unadvertise_ineffective",
    "C76_refuted"
   ],
   "note": "refuted: the outbound sends the advertise message of sequential servers, which has no effect on the concurrent instance in any state of the service manager (C76_unadvertise_ineffective), so the next call is routed there again."
  },
  {
   "property": "C77",
   "status": "partial",
   "theorems": [
    "C77_asks",
    "C77_origin",
    "C77_transaction",
    "C77_once",
    "C77_service_partial",
    "C77_queue",
    "C77_same_branch_refuted",
    "C77_loop_refuted"
   ],
   "note": "proved for correlations that are not used twice and a remote branch that is not one of the own TM. Refuted: the branch equals that of the request, from a domain connected to itself (C77_same_branch_refuted); a request that takes a way through the domain twice (C77_loop_refuted)."
  },
  {
   "property": "C78",
   "status": "partial",
   "theorems": [
    "C78_once",
    "C78_once_resource",
    "C78_cause",
    "C78_call",
    "C78_resource",
    "C78_other",
    "C78_absent",
    "C78_undelivered_partial",
    "C78_send_refuted",
    "C78_offline_refuted",
    "C78_reuse_refuted"
   ],
   "note": "refuted: the failing write of a reply is undefined behaviour (C78_send_refuted); without a queue-manager the remote is never answered (C78_offline_refuted); an undelivered conversation connect is told to the next connection with the descriptor (C78_reuse_refuted)."
  },
  {
   "property": "C79",
   "status": "partial",
   "theorems": [
    "C79_passed",
    "C79_cause",
    "C79_one_branch",
    "C79_unknown",
    "C79_answer_refuted",
    "C79_again_refuted"
   ],
   "note": "refuted: the answer carries the branch of this domain (C79_answer_refuted); after a loss of the only connection a rollback on a new one is not passed to the TM (C79_again_refuted)."
  },
  {
   "property": "C80",
   "status": "partial",
   "theorems": [
    "C80_cause",
    "C80_waits_partial",
    "C80_leave",
    "C80_idle",
    "C80_remove",
    "C80_shutdown",
    "C80_done",
    "C80_survives_partial",
    "C80_in_flight_refuted",
    "C80_oneway_refuted",
    "C80_conversation_refuted",
    "C80_twice_refuted",
    "C80_early_refuted"
   ],
   "note": "closing is proved; refuted: a queue request without a transaction in flight is lost (C80_in_flight_refuted), a call without reply, or a conversation to an absent service, keeps the connection for ever (C80_oneway_refuted, C80_conversation_refuted), a remote that leaves twice, or sends in a conversation too early, takes the process down (C80_twice_refuted, C80_early_refuted)."
  },
  {
   "property": "C81",
   "status": "partial",
   "theorems": [
    "C81_discarded",
    "C81_cause",
    "C81_reserved_refuted"
   ],
   "note": "lookups without answer are discarded; refuted: an answered lookup whose branch is pending is neither used nor discarded (C81_reserved_refuted)."
  },
  {
   "property": "C82",
   "status": "partial",
   "theorems": [
    "C82_story",
    "C82_own",
    "C82_settled_once",
    "C82_commit",
    "C82_kept",
    "C82_goes_on",
    "C82_nowhere_refuted"
   ],
   "note": "the story, the transaction and the commit are proved; refuted: a target that is gone makes the enqueue go to the nil process and nobody is told: the flow stays for ever (C82_nowhere_refuted)."
  },
  {
   "property": "C83",
   "status": "partial",
   "theorems": [
    "C83_limit",
    "C83_running",
    "C83_lost_refuted"
   ],
   "note": "the limit is proved; what is told as running is exact if no send of a dequeue has failed; otherwise an instance is lost for ever (C83_lost_refuted)."
  },
  {
   "property": "C84",
   "status": "partial",
   "theorems": [
    "C84_withdrawn_partial",
    "C84_quiet",
    "C84_ends",
    "C84_remaining",
    "C84_done_sound",
    "C84_done_complete",
    "C84_done_whenever",
    "C84_forget_refuted",
    "C84_update_refuted",
    "C84_dead_refuted"
   ],
   "note": "quiet, bounded and done are proved; refuted: a forget is sent to nowhere if the queue has been forgotten (C84_forget_refuted) or is gone (C84_dead_refuted), and a configuration after the shutdown begins it all again (C84_update_refuted)."
  },
  {
   "property": "C85",
   "status": "partial",
   "theorems": [
    "C85_source",
    "C85_latest",
    "C85_target_partial"
   ],
   "note": "proved for the source; for the target unless it is unknown: C82_nowhere_refuted."
  },
  {
   "property": "C86",
   "status": "partial",
   "theorems": [
    "C86_looked_up",
    "C86_begun",
    "C86_again_partial",
    "C86_forget_refuted",
    "C86_stuck_refuted",
    "C86_changed_refuted"
   ],
   "note": "proved if no send of a dequeue fails, but for a queue that asks to forget (C86_forget_refuted); refuted: a target that dies while the source is looked up (C86_stuck_refuted), a new source for a known alias (C86_changed_refuted)."
  },
  {
   "property": "C87",
   "status": "partial",
   "theorems": [
    "C87_where_partial",
    "C87_absent",
    "C87_at_once",
    "C87_order_refuted",
    "C87_enabled_refuted",
    "C87_update_refuted"
   ],
   "note": "proved if no gateway advertises a queue it offers already; refuted otherwise: the order of one of the two is changed (C87_order_refuted), what was enabled before is used (C87_enabled_refuted); and refuted: an updated configuration of a group isn't stored, lookups are answered by what was enabled at the start (C87_update_refuted)."
  },
  {
   "property": "C88",
   "status": "proved",
   "theorems": [
    "C88_once",
    "C88_none_offered",
    "C88_none_when_down",
    "C88_direct",
    "C88_external",
    "C88_arrives",
    "C88_withdraw",
    "C88_withdrawn"
   ],
   "note": ""
  },
  {
   "property": "C89",
   "status": "proved",
   "theorems": [
    "C89_lookup",
    "C89_known"
   ],
   "note": ""
  },
  {
   "property": "C90",
   "status": "partial",
   "theorems": [
    "C90_one_at_a_time",
    "C90_conforms_partial",
    "C90_one_process_partial",
    "C90_updated_once",
    "C90_updated_asked",
    "C90_updated",
    "C90_configured",
    "C90_told",
    "C90_ready_sound",
    "C90_ready_complete",
    "C90_done",
    "C90_ends_partial",
    "C90_shutdown_refuted",
    "C90_twice_refuted",
    "C90_forward_refuted",
    "C90_nowhere_refuted"
   ],
   "note": "serial, answered, ready and done are proved; what runs is what is wanted, one process each, and the end, are proved if updates and shutdown come when what was asked for before is done; refuted otherwise: C90_shutdown_refuted, C90_twice_refuted, C90_nowhere_refuted; and refuted: a modified forward group is never told (C90_forward_refuted)."
  },
  {
   "property": "C91",
   "status": "partial",
   "theorems": [
    "C91_once",
    "C91_answered",
    "C91_shutdown",
    "C91_ends",
    "C91_left_partial",
    "C91_left_refuted"
   ],
   "note": "once, answered, at shutdown and the end are proved; refuted: the process ends with requests that are accumulated and not answered (C91_left_refuted)."
  },
  {
   "property": "C92",
   "status": "partial",
   "theorems": [
    "C92_sound",
    "C92_absent",
    "C92_found_refuted"
   ],
   "note": "sound and complete relative to what is told, by the names it has here; refuted: a service that is configured without routes is dropped from replies though it is asked for (C92_found_refuted)."
  },
  {
   "property": "C93",
   "status": "proved",
   "theorems": [
    "C93_asked",
    "C93_looked",
    "C93_fetched",
    "C93_local"
   ],
   "note": ""
  },
  {
   "property": "C94",
   "status": "proved",
   "theorems": [
    "C94_direct",
    "C94_implicit",
    "C94_ignored",
    "C94_ring",
    "C94_explore_sound",
    "C94_implicit_sound"
   ],
   "note": ""
  },
  {
   "property": "C95",
   "status": "partial",
   "theorems": [
    "C95_once",
    "C95_answered",
    "C95_left",
    "C95_complete",
    "C95_translated_refuted"
   ],
   "note": "once, answered and complete are proved; refuted: the reply has the names of the other domains, not those it has here (C95_translated_refuted)."
  },
  {
   "property": "C96",
   "status": "partial",
   "theorems": [
    "C96_bounded_refuted",
    "C96_each"
   ],
   "note": "refuted: two domains that forward to each other send requests without bound (C96_bounded_refuted)."
  },
  {
   "property": "C97",
   "status": "proved",
   "theorems": [
    "C97_placed",
    "C97_only",
    "C97_nonempty",
    "C97_sequence"
   ],
   "note": "The order is that of the model of libstdc++'s stable_sort for C98; placement and sequence hold whatever it gives."
  },
  {
   "property": "C98",
   "status": "partial",
   "theorems": [
    "C98_dependencies_partial",
    "C98_declared_refuted"
   ],
   "note": "Proved (also through others) when each group is declared after those it depends on. C98_declared_refuted: four groups of the user where one is started before the one it depends on, since Group::boot::Order isn't a strict weak ordering."
  },
  {
   "property": "C99",
   "status": "partial",
   "theorems": [
    "C99_ended",
    "C99_spawned",
    "C99_failed",
    "C99_instance",
    "C99_starts",
    "C99_goes_on",
    "C99_boots_refuted"
   ],
   "note": "C99_boots_refuted: a process that's configured to be restarted and ends before the domain is up isn't restarted, its batch never ends and the boot stands still. C99_goes_on: when a batch is still going on after a process has ended or connected, or what was spawned is told of, an instance of it isn't what's wanted of it. C99_starts: when a batch begins (other than by a shutdown or a scale), what hasn't been started of it is."
  },
  {
   "property": "C100",
   "status": "partial",
   "theorems": [
    "C100_sequence",
    "C100_ended",
    "C100_gone_partial",
    "C100_told",
    "C100_asks",
    "C100_asks_own",
    "C100_only_term",
    "C100_only_ask",
    "C100_only_prepare",
    "C100_prepare_partial",
    "C100_closed",
    "C100_left_refuted",
    "C100_stops_refuted",
    "C100_scaled_refuted"
   ],
   "note": "The sequence, that it stops only after it, that each batch tells its processes to end (by a signal, or by asking the service manager or itself to prepare them and then the process), and that nothing is left of an entity that runs down (C100_ended; C100_gone_partial: unless a scale is asked for during the shutdown). C100_left_refuted: a process that hasn't connected is forgotten when its server is scaled in; C100_stops_refuted and C100_scaled_refuted: two ways it never stops. No other process is told (C100_only_*). C100_prepare_partial: for processes that connect once."
  },
  {
   "property": "C101",
   "status": "partial",
   "theorems": [
    "C101_answered",
    "C101_one",
    "C101_approved",
    "C101_denied_partial",
    "C101_denied_refuted",
    "C101_denied_scales",
    "C101_started_refuted",
    "C101_connected"
   ],
   "note": "All but the denied connect for every history; that one when no process connects twice. C101_denied_refuted without that. C101_denied_scales: what a denied connect leaves of the configuration and the instances. C101_started_refuted: what's wanted after a denied connect isn't spawned, and a boot stands still. C101_connected: what an approved one leaves."
  },
  {
   "property": "C102",
   "status": "partial",
   "theorems": [
    "C102_once",
    "C102_direct",
    "C102_waits",
    "C102_connect",
    "C102_answer_partial",
    "C102_gone_partial",
    "C102_gone_refuted",
    "C102_answered_refuted"
   ],
   "note": "What's missing: processes that connect twice (answer, gone), and the processes of restarted executables (gone), see C102_gone_refuted. C102_answered_refuted: what waits at shutdown is never answered."
  },
  {
   "property": "C103",
   "status": "partial",
   "theorems": [
    "C103_forgotten",
    "C103_instances",
    "C103_restarted_partial",
    "C103_counts",
    "C103_kept_partial",
    "C103_killed"
   ],
   "note": "The restart when the domain is up; before it's up a process isn't restarted (C99_boots_refuted). The counts after an exit (C103_counts), and who may be killed on request (C103_killed). C103_kept_partial: those that aren't concerned stay; not servers' processes that haven't connected (C104_keeps_refuted)."
  },
  {
   "property": "C104",
   "status": "partial",
   "theorems": [
    "C104_wanted",
    "C104_more",
    "C104_less",
    "C104_keeps_partial",
    "C104_new",
    "C104_conf",
    "C104_undefined",
    "C104_negative_refuted",
    "C104_keeps_refuted",
    "C104_request",
    "C104_begins",
    "C104_spawned_refuted"
   ],
   "note": "C104_request, C104_begins: the batches a request gives and when. C104_keeps_partial: for processes that are connected; C104_keeps_refuted for one that's spawned and hasn't connected. C104_negative_refuted: a negative number is undefined behaviour and can be asked for. C104_spawned_refuted: only the first series of vacant instances is spawned when they aren't next to each other."
  }
 ]
}