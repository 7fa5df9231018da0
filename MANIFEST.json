{
 "claims": [
  {
   "property": "C01",
   "status": "proved",
   "theorems": [
    "C01_fifo",
    "C01_drain",
    "C01_bounded",
    "C01_refused_only_when_half_full",
    "C01_refused_when_empty_refuted",
    "C01_crashed_publisher_blocks",
    "C01_crash_loses_others_refuted"
   ],
   "note": "FIFO, no loss and no overwriting for all interleavings; the model has sequentially consistent memory and unbounded counters. C01_crash_loses_others_refuted and C01_refused_when_empty_refuted record that a publisher crash inside a send blocks the queue and that a stale head causes a spurious refusal."
  },
  {
   "property": "C02",
   "status": "proved",
   "theorems": [
    "C02_whole_messages"
   ],
   "note": ""
  },
  {
   "property": "C03",
   "status": "proved",
   "theorems": [
    "C03_whole_in_order_accounted",
    "C03_received_was_sent",
    "C03_catches_up"
   ],
   "note": "Also the missed_count accounting and catching up; catching up assumes registrations do not overlap (see C44) and fewer than 2^64 messages."
  },
  {
   "property": "C04",
   "status": "partial",
   "theorems": [
    "C04_not_overtaken_partial",
    "C04_torn_value_refuted"
   ],
   "note": "False of the code: C04_torn_value_refuted. It holds while no publisher is overtaken by a whole ring inside its own send (C04_not_overtaken_partial)."
  },
  {
   "property": "C05",
   "status": "partial",
   "theorems": [
    "C05_whole_in_order",
    "C05_accounted_partial",
    "C05_turn_by_turn",
    "C05_drain",
    "C05_poll_returns",
    "C05_skipped_count_refuted"
   ],
   "note": "Whole, in-order, at-most-once delivery and a lower bound on the skipped counter are proved for every interleaving; the counter is exact only when a poll never gives up during a write (C05_accounted_partial), which is refuted in general (C05_skipped_count_refuted)."
  },
  {
   "property": "C06",
   "status": "partial",
   "theorems": [
    "C06_each_once_partial",
    "C06_nothing_lost_partial",
    "C06_unclaimed_intact",
    "C06_each_once_refuted",
    "C06_torn_refuted"
   ],
   "note": "Claims are exclusive and unclaimed messages are never overwritten (unconditional); the delivered value is the claimed one only if no subscriber is overtaken while copying (not_overtaken). Without it the code loses, duplicates and tears messages: C06_each_once_refuted, C06_torn_refuted."
  },
  {
   "property": "C07",
   "status": "proved",
   "theorems": [
    "C07_in_order_once",
    "C07_caught_up",
    "C07_polling_ends",
    "C07_exact_within_capacity",
    "C07_fair",
    "C07_received_was_sent"
   ],
   "note": "Operation-level model (calls do not overlap; the races inside one channel are C05). For publisher/subscriber pairs that stay; leaving publishers are C46, slot exhaustion C45."
  },
  {
   "property": "C08",
   "status": "partial",
   "theorems": [
    "C08_choice_safe",
    "C08_one_sided",
    "C08_publishers_join_seamlessly",
    "C08_same_mode_protocol",
    "C08_mode_byte",
    "C08_fanout_fallback_refuted",
    "C08_quiet_subscriber_refuted"
   ],
   "note": "Proved: for every pair of endpoint counts, type and topic kind the chosen backend tolerates that many publishers and subscribers and delivers to all unless the topic is work-sharing; every routine resolved for a (mode, role) speaks the mode's protocol; a further publisher joins without changing protocol. Missing/refuted: when the fan-out segment cannot be opened the fallback uses a single-publisher routine, and a subscriber whose lease lapsed is not counted, so the choice is made for fewer endpoints than exist (C08_*_refuted)."
  },
  {
   "property": "C09",
   "status": "partial",
   "theorems": [
    "C09_counts_exact",
    "C09_refused_iff_full",
    "C09_registered",
    "C09_refreshing_stays",
    "C09_quiet_subscriber_refuted",
    "C09_same_thread_refuted"
   ],
   "note": "Proved for every history of registrations and lease refreshes (calls atomic, any clock): the two counters equal the number of table entries with the role, registration is refused iff the table is full of live entries, and registered handles hold the role they asked for. Refuted: a subscriber that receives nothing for the lease time loses its entry, and two handles on one thread share one entry. Missing: interleavings of the individual atomic steps of two registrations."
  },
  {
   "property": "C10",
   "status": "partial",
   "theorems": [
    "C10_no_redelivery_partial",
    "C10_position_partial",
    "C10_resync_bounds",
    "C10_skips_unread_refuted",
    "C10_counter_wrap_refuted"
   ],
   "note": "Proved for subscribe-only handles, fixed capacity and fewer than 2^32 operations per history: a resync never moves a reader back and never past the published head (C10_no_redelivery_partial, C10_position_partial, C10_resync_bounds). Refuted in general: another consumer's flush of the shared tail makes a reader skip unread messages (C10_skips_unread_refuted), and the counter wrap re-delivers (C10_counter_wrap_refuted)."
  },
  {
   "property": "C11",
   "status": "partial",
   "theorems": [
    "C11_slots_disjoint",
    "C11_send_stays_in_its_slot",
    "C11_mappings_cover_partial",
    "C11_grow_makes_room",
    "C11_epoch_catches_up",
    "C11_grower_in_bounds",
    "C11_tiny_slot_refuted",
    "C11_grow_then_join_refuted",
    "C11_open_race_refuted",
    "C11_second_grow_shrinks_refuted"
   ],
   "note": "Proved: slots, ready words and header are disjoint and inside the region for all capacities and strides; a send stays in its slot; mappings cover the header's geometry for every orderly history without growth; the grown slot holds the message. Missing: histories with growth or a racing creator, where the property is false (C11_*_refuted: tiny slot size, open race, first use after growth, second growth truncates the file)."
  },
  {
   "property": "C12",
   "status": "partial",
   "theorems": [
    "C12_tensors_disjoint_partial",
    "C12_no_slot_lost_partial",
    "C12_alloc_succeeds",
    "C12_reclaim_under_live_reader_refuted",
    "C12_double_free_list_entry_refuted"
   ],
   "note": "Proved for every interleaving of allocation, retain, release and write phases of any number of processes that use only descriptors they hold, none of which is killed. With kills it is false of the code: a slot is reclaimed under a live reader (C12_reclaim_under_live_reader_refuted), and a slot can enter the free list twice (C12_double_free_list_entry_refuted)."
  },
  {
   "property": "C13",
   "status": "proved",
   "theorems": [
    "C13_each_slot_one_owner",
    "C13_failure_means_progress",
    "C13_tag_wrap_refuted"
   ],
   "note": "All interleavings at atomic-step granularity, sequentially consistent memory, tag not wrapping within one attempt as the property says; C13_tag_wrap_refuted shows the condition is needed."
  },
  {
   "property": "C14",
   "status": "partial",
   "theorems": [
    "C14_stale_descriptor_inert_partial",
    "C14_stale_descriptor_invalid_partial",
    "C14_live_descriptor_valid",
    "C14_forged_descriptor_refused",
    "C14_writes_confined",
    "C14_validate_after_failed_alloc_refuted",
    "C14_validate_during_alloc_refuted",
    "C14_released_tensor_writable_refuted"
   ],
   "note": "try_retain/try_release of a descriptor whose tensor is gone fail in every interleaving (phases atomic). validate_descriptor is proved except in two windows, both refuted: after a failed allocation and during an allocation; data_slice_mut still writes after release (C14_released_tensor_writable_refuted)."
  },
  {
   "property": "C15",
   "status": "proved",
   "theorems": [
    "C15_packet_header_roundtrip",
    "C15_packet_header_rejects",
    "C15_packet_header_fields",
    "C15_message_header_roundtrip",
    "C15_fragment_header_roundtrip",
    "C15_heartbeat_roundtrip",
    "C15_ack_roundtrip",
    "C15_truncated_rejected",
    "C15_message_header_fields"
   ],
   "note": "All header codecs round-trip, reject exactly the malformed prefixes, and read the documented little-endian fields."
  },
  {
   "property": "C16",
   "status": "proved",
   "theorems": [
    "C16_batch_roundtrip",
    "C16_batch_fits",
    "C16_single_roundtrip",
    "C16_single_too_big",
    "C16_hostile_grammar",
    "C16_grammar_unambiguous",
    "C16_hostile_bounds"
   ],
   "note": "Batch and single-packet round trips; hostile packets decode exactly to the grammar in Spec/WireSpec.v."
  },
  {
   "property": "C17",
   "status": "proved",
   "theorems": [
    "C17_fragments_are_slices",
    "C17_reassembly",
    "C17_deliveries_silent",
    "C17_deliveries_fire",
    "C17_cross_sender_refuted"
   ],
   "note": "Reassembly proved for every interleaving of one sender's fragments; C17_cross_sender_refuted shows the code does not separate two senders (the key lacks the sender)."
  },
  {
   "property": "C18",
   "status": "proved",
   "theorems": [
    "C18_bounded_memory",
    "C18_gc_fresh"
   ],
   "note": ""
  },
  {
   "property": "C19",
   "status": "partial",
   "theorems": [
    "C19_small_delivered_partial",
    "C19_large_never_delivered_refuted",
    "C19_large_is_exported",
    "C19_receiver_reassembles_partial",
    "C19_control_packets_silent"
   ],
   "note": "False of the code: messages above 1400 bytes are exported as FRAGMENT packets the receiver cannot parse (C19_large_never_delivered_refuted). The parts that hold: small messages (C19_small_delivered_partial), large messages from a peer that writes the fragment header (C19_receiver_reassembles_partial), control packets never surface (C19_control_packets_silent)."
  },
  {
   "property": "C20",
   "status": "partial",
   "theorems": [
    "C20_delivers_the_newest",
    "C20_at_most_once",
    "C20_in_order_complete",
    "C20_wrap_duplicate_refuted",
    "C20_flood_duplicate_refuted",
    "C20_restart_starves_refuted"
   ],
   "note": "Newest-wins, at-most-once and in-order completeness are proved under stated window bounds; the unconditional property is refuted for the code (32-bit wrap, table flush at 4096 keys, sender restart)."
  },
  {
   "property": "C21",
   "status": "proved",
   "theorems": [
    "C21_resends_exact",
    "C21_bounded_and_spaced",
    "C21_silent_after_ack"
   ],
   "note": ""
  },
  {
   "property": "C22",
   "status": "partial",
   "theorems": [
    "C22_thresholds",
    "C22_monotone",
    "C22_urgent_never_suppressed",
    "C22_gap_accounting",
    "C22_bounded_table",
    "C22_decimation_partial",
    "C22_all_or_nothing_refuted",
    "C22_starvation_refuted",
    "C22_gap_overflow_refuted"
   ],
   "note": "Thresholds, monotonicity, urgent bypass, gap accounting and table bound are proved; decimation holds only when receptions and sends alternate (C22_decimation_partial), and is refuted otherwise; the gap counter overflow is refuted too. Loss rate is an exact rational in the model, f32 in the code."
  },
  {
   "property": "C23",
   "status": "proved",
   "theorems": [
    "C23_pattern_meaning",
    "C23_import_exact",
    "C23_export_exact",
    "C23_reserved_always_imported"
   ],
   "note": ""
  },
  {
   "property": "C24",
   "status": "proved",
   "theorems": [
    "C24_block_exact",
    "C24_parse_block",
    "C24_parse_sound",
    "C24_admits_exact",
    "C24_typo_fails_closed"
   ],
   "note": "Only ASCII white space is trimmed in the model."
  },
  {
   "property": "C25",
   "status": "proved",
   "theorems": [
    "C25_window_bound",
    "C25_burst_passes",
    "C25_idle_passes",
    "C25_estop_budget"
   ],
   "note": "Token arithmetic is exact (integers) in the model; the code uses f64."
  },
  {
   "property": "C26",
   "status": "proved",
   "theorems": [
    "C26_obeyed_iff_authentic_and_fresh",
    "C26_budget_needs_authentic",
    "C26_genuine_obeyed",
    "C26_no_forgery_without_breaking_hmac",
    "C26_old_replay_ignored",
    "C26_replay_within_window_refuted"
   ],
   "note": "Exact characterisation of when a stop is obeyed, relative to the HMAC relation of Spec/MacSpec.v; C26_replay_within_window_refuted records that the same bytes trigger again inside the five-second window. UTF-8 display of the reason is not modelled."
  },
  {
   "property": "C27",
   "status": "proved",
   "theorems": [
    "C27_reported_at_first_due_check",
    "C27_no_spurious_reports",
    "C27_low_threshold_refuted",
    "C27_new_address_ignored_refuted"
   ],
   "note": "Threshold 0 or 1 is accepted by the configuration and then fails (C27_low_threshold_refuted); a known peer announcing a new address keeps its old one (C27_new_address_ignored_refuted)."
  },
  {
   "property": "C28",
   "status": "proved",
   "theorems": [
    "C28_sha256_standard",
    "C28_chunking_irrelevant",
    "C28_hmac_standard",
    "C28_pbkdf2_standard",
    "C28_tag_compare",
    "C28_hex_parse",
    "C28_estop_key"
   ],
   "note": "Timing of the comparison is not modelled."
  },
  {
   "property": "C29",
   "status": "partial",
   "theorems": [
    "C29_roundtrip",
    "C29_agree",
    "C29_any_datagram",
    "C29_not_confused",
    "C29_long_name_refuted",
    "C29_many_topics_refuted"
   ],
   "note": "Round trip proved for every table within the wire limits (names at most 63 bytes, at most 200 topics), agreement proved for every pair of well-formed tables, and every datagram decodes to legal content or is rejected. Refuted beyond the limits: a longer name is announced under a shortened name and so never matches, and topics beyond the 200th are not announced."
  },
  {
   "property": "C30",
   "status": "partial",
   "theorems": [
    "C30_bypass",
    "C30_unseen",
    "C30_no_optimizers",
    "C30_ahead_refuted"
   ],
   "note": "Proved for arbitrary optimizers (any type, any behaviour): the output of a call starts with exactly the Immediate messages of the batch, and neither optimizer state nor the other output depends on them. 'Ahead of all others' is refuted for the default empty chain, where the batch keeps its own order."
  },
  {
   "property": "C31",
   "status": "partial",
   "theorems": [
    "C31_involution",
    "C31_length",
    "C31_bytes",
    "C31_native",
    "C31_uniform",
    "C31_narrow_fields_refuted"
   ],
   "note": "Length, involution, byte positions and native pass-through proved for all payloads; value-preservation proved for 8-byte fields and odd counts of 4-, 2- and 1-byte fields. Refuted for an even number of 4-byte fields: the word size is guessed from the length, so fields change places."
  },
  {
   "property": "C32",
   "status": "partial",
   "theorems": [
    "C32_format",
    "C32_applied_partial",
    "C32_keyframes",
    "C32_refuted",
    "C32_ambiguous_refuted",
    "C32_loss_refuted"
   ],
   "note": "Refuted as stated: no receiver applies deltas, and no receiver could (two histories give the same wire messages). Proved: the format is sound, a receiver that applied deltas on a lossless link would follow fixed-size topics exactly, and a full payload goes out at least every 100 messages. The documentation's 'loss gives old but valid values' is refuted."
  },
  {
   "property": "C33",
   "status": "partial",
   "theorems": [
    "C33_publishers",
    "C33_subscribers",
    "C33_listed",
    "C33_role_wire",
    "C33_live_handles_partial",
    "C33_shared_topic_refuted"
   ],
   "note": "Registry operations fully proved; the claim about live handles holds with one handle per topic (C33_live_handles_partial) and is refuted with two (C33_shared_topic_refuted)."
  },
  {
   "property": "C34",
   "status": "proved",
   "theorems": [
    "C34_order_respects_topics",
    "C34_sort_any_graph",
    "C34_order_tiers"
   ],
   "note": "Dependency graph built from topics: every node once, producers in strictly earlier steps, no node later than needed, refusal exactly on cycles; order tiers without topics."
  },
  {
   "property": "C35",
   "status": "partial",
   "theorems": [
    "C35_policy_exact",
    "C35_restart_budget",
    "C35_gives_up_after_all_restarts",
    "C35_backoff_respected",
    "C35_cooldown_respected",
    "C35_fatal_stops",
    "C35_ignore_never",
    "C35_callbacks",
    "C35_fatal_severity",
    "C35_transient_severity",
    "C35_event_cooldown_refuted",
    "C35_event_backoff_refuted",
    "C35_no_panic_refuted"
   ],
   "note": "Every policy proved exact against a history-only specification for the main loop and the RT, compute and async executors (restart budget, back-off, cooldown, fatal, ignore). The event executor checks the policy once per batch of notifications: cooldown and back-off are refuted there. The claim that the arithmetic cannot panic is refuted for huge back-offs."
  },
  {
   "property": "C36",
   "status": "partial",
   "theorems": [
    "C36_killed_is_final",
    "C36_kill_needs_misses",
    "C36_kill_needs_streak_rt_partial",
    "C36_kill_needs_streak_refuted",
    "C36_kill_needs_streak_no_budget_refuted",
    "C36_rate_restored",
    "C36_rate_restored_unset_refuted",
    "C36_isolated_goes_through_reduced",
    "C36_recovery_takes_ticks",
    "C36_recovery_consecutive_refuted",
    "C36_critical_first_miss_stops",
    "C36_callbacks_once"
   ],
   "note": "Killed is final, needs kill_after misses, configured rates come back exactly, isolated goes through reduced rate, recovery needs the configured number of successful ticks: proved on every executor. That the misses are consecutive is proved only for RT nodes with a budget and refuted on the main loop and for RT nodes without one; that recovery ticks are consecutive good ones, and that a node without a configured rate gets its old pacing back, are refuted."
  },
  {
   "property": "C37",
   "status": "partial",
   "theorems": [
    "C37_severity_exact",
    "C37_never_improves_unfed",
    "C37_detects_and_spares",
    "C37_scale_restores",
    "C37_expired_flag",
    "C37_clock_set_back_refuted"
   ],
   "note": "Exact for all feed/check histories and all clock readings; monotone without feeds when readings do not go back. The readings are wall-clock time: refuted when the clock is set back."
  },
  {
   "property": "C38",
   "status": "proved",
   "theorems": [
    "C38_latched",
    "C38_one_broadcast",
    "C38_state_reports_stop_partial",
    "C38_state_reports_stop_refuted"
   ],
   "note": "Any number of local, remote, safe-state and drain threads under any interleaving. Additionally the reported state can be overwritten by a later safe-state request (refuted), while the latch itself cannot."
  },
  {
   "property": "C39",
   "status": "partial",
   "theorems": [
    "C39_ring_exact",
    "C39_disabled",
    "C39_crash_keeps_prefix",
    "C39_flush_complete",
    "C39_save_load",
    "C39_next_run_readable_refuted",
    "C39_every_loss_counted_refuted",
    "C39_cli_after_crash",
    "C39_capacity_after_load_refuted",
    "C39_save_atomic_refuted",
    "C39_cli_reads_snapshot_refuted"
   ],
   "note": "Ring contents, loss count, crash prefix, flush and snapshot round trip are proved for all histories; the record encoding is any line codec. Refuted: the next run's first record after a torn line, counting of events dropped on a busy lock, the capacity bound after loading a larger snapshot, atomic save, and reading saved snapshots from the command line."
  },
  {
   "property": "C40",
   "status": "partial",
   "theorems": [
    "C40_rules_enforced",
    "C40_validation_exact",
    "C40_read_only",
    "C40_version_counts",
    "C40_versioned_set",
    "C40_one_winner",
    "C40_no_lost_update",
    "C40_callbacks_consulted",
    "C40_lock_released",
    "C40_lost_update_refuted",
    "C40_remove_read_only_refuted",
    "C40_remove_unnoticed_refuted",
    "C40_load_checked_refuted",
    "C40_versioned_callbacks_refuted",
    "C40_reset_atomic_refuted",
    "C40_required_keys_refuted",
    "C40_nan_bound_refuted"
   ],
   "note": "Rules, read-only, versions and callbacks are proved for every interleaving of set, set_with_version, remove and reset (loads excluded where stated). Refuted: a concurrent plain set can be lost, remove ignores read-only and versions, load checks nothing, versioned sets skip callbacks, reset is not atomic, required-keys on non-objects, NaN bounds. No public call writes metadata, so the rules are taken as given; lock poisoning and the audit log are not modelled."
  },
  {
   "property": "C41",
   "status": "partial",
   "theorems": [
    "C41_message_order",
    "C41_slots",
    "C41_threads",
    "C41_preempt_bound",
    "C41_one_outcome",
    "C41_outcome_bound",
    "C41_over_is_over",
    "C41_metrics",
    "C41_fifo",
    "C41_timeout",
    "C41_executions",
    "C41_single_status_refuted",
    "C41_shutdown_reports_refuted",
    "C41_duplicate_refuted",
    "C41_priority_bound_refuted",
    "C41_preempt_abandoned_refuted",
    "C41_queue_overtaken_refuted",
    "C41_cancel_all_refuted",
    "C41_no_executor_refuted"
   ],
   "note": "Proved for every history: slot bound (reject/queue), thread bound, max+1 for preempt-oldest, one outcome per goal and FIFO starts without timeouts, nothing published after a goal is over, counters add up, timeouts free the slot. Refuted: one terminal status with timeouts, any status after shutdown, duplicate ids, priority-policy bound, preempting abandoned goals, queue order after abandonment, cancel-all with a nil id, servers without an executor."
  },
  {
   "property": "C42",
   "status": "partial",
   "theorems": [
    "C42_entry_stored",
    "C42_sequential",
    "C42_errors_kept",
    "C42_drain_exact",
    "C42_drain_complete",
    "C42_drain_once_refuted",
    "C42_steps_push",
    "C42_steps_read",
    "C42_positions",
    "C42_quiescent_partial",
    "C42_concurrent_partial",
    "C42_whole_refuted",
    "C42_cursor_refuted",
    "C42_poll_complete_refuted",
    "C42_crash_phantom_refuted",
    "C42_capacities_refuted"
   ],
   "note": "Whole calls exact for all histories (byte-level: truncation at character boundaries, bincode layout, ring arithmetic); drain thread complete, exact when uninterrupted; interleaved processes: positions unique always, reads exact once no push runs and correct among running pushes under stated conditions. Refuted: whole entries when a slot is replaced during a read, cursor order (stale entry), polling completeness, drain exactly-once, crash phantom entry, mixed capacities. Missing: memory model is sequentially consistent; 2^64 wrap not modelled."
  },
  {
   "property": "C43",
   "status": "proved",
   "theorems": [
    "C43_poll_sends_due",
    "C43_one_plus_marks",
    "C43_four_in_all"
   ],
   "note": "Send failures of the transport are not modelled."
  },
  {
   "property": "C44",
   "status": "partial",
   "theorems": [
    "C44_joins_within_partial",
    "C44_deaf_subscriber_refuted"
   ],
   "note": "False of the code: C44_deaf_subscriber_refuted. It holds when registrations do not overlap (C44_joins_within_partial)."
  },
  {
   "property": "C45",
   "status": "partial",
   "theorems": [
    "C45_slots_exclusive",
    "C45_refused_only_when_full_partial",
    "C45_pid_reuse_refuted"
   ],
   "note": "Exclusive slots proved; refusal only when full proved unless a process with the same PID crashed before (C45_pid_reuse_refuted)."
  },
  {
   "property": "C46",
   "status": "partial",
   "theorems": [
    "C46_nothing_after_drop",
    "C46_left_publisher_lost_refuted"
   ],
   "note": "False of the code: a dropped publisher's unread messages are no longer served (C46_nothing_after_drop, C46_left_publisher_lost_refuted)."
  },
  {
   "property": "C47",
   "status": "partial",
   "theorems": [
    "C47_loopback_partial",
    "C47_one_way_partial",
    "C47_one_way_bound_refuted",
    "C47_others_get_nothing_refuted",
    "C47_deaf_refuted",
    "C47_full_loses_all_refuted"
   ],
   "note": "Its own messages come back in order until the ring is full (C47_loopback_partial). Refuted otherwise: other subscribers get nothing from it, it never hears others, and when the ring is full every waiting message is discarded."
  },
  {
   "property": "C48",
   "status": "partial",
   "theorems": [
    "C48_fresh_tensor_zeroed_partial",
    "C48_reclaimed_tensor_not_scrubbed_refuted"
   ],
   "note": "Proved without process deaths; refuted with them (reclaimed slots are not scrubbed)."
  },
  {
   "property": "C49",
   "status": "partial",
   "theorems": [
    "C49_open_sees_creators_layout",
    "C49_other_pool_refused",
    "C49_open_stays_in_file",
    "C49_new_with_other_config_refuted"
   ],
   "note": "open is proved; new on an existing pool with another configuration is accepted and misplaces the data (C49_new_with_other_config_refuted)."
  },
  {
   "property": "C50",
   "status": "partial",
   "theorems": [
    "C50_dispatch_order",
    "C50_dispatch_completes",
    "C50_dispatch_bounded",
    "C50_graph_edges_in_range",
    "C50_order_through_skipped_refuted",
    "C50_tiers_all_due"
   ],
   "note": "Proved for every interleaving: each due node at most once and after its due direct predecessors, no deadlock, bounded number of actions, completion. Refuted: order is not kept through a node skipped in this cycle (C50_order_through_skipped_refuted)."
  },
  {
   "property": "C51",
   "status": "partial",
   "theorems": [
    "C51_shedding_exact",
    "C51_only_open_nodes_run",
    "C51_orders_stable",
    "C51_background_recovers_refuted"
   ],
   "note": "Exact characterisation of which nodes run after any history. The claim that background nodes come back is false when every node is a background node: C51_background_recovers_refuted. Which nodes are due is an input."
  },
  {
   "property": "C52",
   "status": "partial",
   "theorems": [
    "C52_main_estop",
    "C52_main_halt",
    "C52_main_safing_failure_stops",
    "C52_rt_estop_partial",
    "C52_rt_halt_partial",
    "C52_rt_critical_overrun",
    "C52_rt_callback_panic_stops_node",
    "C52_enforce_exact",
    "C52_safe_once_per_streak",
    "C52_rt_safing_refuted",
    "C52_rt_budget_estop_refuted",
    "C52_rt_fatal_refuted",
    "C52_compute_survives_partial",
    "C52_compute_isolated_refuted"
   ],
   "note": "Holds on the main loop for every combination of panicking callbacks. On the RT executor it holds when no callback panics, and is refuted for BudgetPolicy::EmergencyStop with a panicking shutdown and for a fatal failure with a panicking on_error; the compute thread dies on a panicking on_error. The degradation ladder is modelled separately (C36)."
  },
  {
   "property": "C53",
   "status": "partial",
   "theorems": [
    "C53_pause_holds_main",
    "C53_pause_holds_rt",
    "C53_resume_main",
    "C53_resume_rt",
    "C53_pause_holds_compute_refuted",
    "C53_pause_holds_event_refuted",
    "C53_stopped_never_ticks",
    "C53_skip_is_one_tick"
   ],
   "note": "Proved for the main loop and the RT executor; refuted for the compute, async and event executors, which never read the pause flag."
  },
  {
   "property": "C54",
   "status": "partial",
   "theorems": [
    "C54_suppressed_main",
    "C54_probe_main",
    "C54_suppressed_rt_refuted",
    "C54_isolated_rt_ticks_refuted"
   ],
   "note": "Proved for the main loop, for stretches in which the failure policy admits the node; refuted for the RT executor, which never reads health."
  },
  {
   "property": "C55",
   "status": "partial",
   "theorems": [
    "C55_unhealthy_exact",
    "C55_unhealthy_main_refuted",
    "C55_unhealthy_event_refuted",
    "C55_counters_exact",
    "C55_counters_event_refuted"
   ],
   "note": "Proved for the RT, compute and async executors; refuted for the main loop (no check) and the event executor (resets the count before every failure and counts no successful tick)."
  },
  {
   "property": "C56",
   "status": "partial",
   "theorems": [
    "C56_stale_exact",
    "C56_no_false_alarm",
    "C56_silence_detected",
    "C56_first_check_refuted",
    "C56_clock_step_refuted"
   ],
   "note": "Exact for a forward-moving clock, with no false alarm after the first check; refuted for the first check and for a clock set back. The topic's header is assumed mappable and not replaced."
  },
  {
   "property": "C57",
   "status": "partial",
   "theorems": [
    "C57_compute_working_pass_partial",
    "C57_async_every_pass",
    "C57_rt_every_pass",
    "C57_failed_safing_stops",
    "C57_compute_failed_safing_ticks_refuted",
    "C57_compute_request_honoured_refuted",
    "C57_compute_idle_request_refuted",
    "C57_external_request_refuted"
   ],
   "note": "Proved for the async executor on every pass, for the RT executor unless the node is stopped, and for the compute executor in passes that run some node; refuted for idle or starved compute passes and for requests from outside."
  },
  {
   "property": "C58",
   "status": "partial",
   "theorems": [
    "C58_layers",
    "C58_defaults_survive",
    "C58_bad_file_refused",
    "C58_save_start",
    "C58_default_keeps_builtins",
    "C58_integers",
    "C58_save_crash_refuted",
    "C58_text_values_refuted"
   ],
   "note": "Layering and refusal proved for any YAML reader; refuted: a crash while saving leaves an empty file that starts on built-in values, and text spelt like a special float becomes null. Non-ASCII lowercase and overlarge decimals are not modelled."
  },
  {
   "property": "C59",
   "status": "partial",
   "theorems": [
    "C59_success_has_result",
    "C59_final",
    "C59_true",
    "C59_settled",
    "C59_counted_once",
    "C59_feedback_new",
    "C59_successes_counted_refuted",
    "C59_rejections_counted_refuted",
    "C59_two_threads_refuted",
    "C59_late_registration_refuted",
    "C59_terminal_stays_refuted",
    "C59_late_result_refuted",
    "C59_feedback_complete_refuted"
   ],
   "note": "Proved for every interleaving with one server: shown status, result and feedback were published (C59_true); success shown between pumps implies its result is held (C59_success_has_result); a held result is final (C59_final); agreement with the server once everything is taken, for servers without timeouts (C59_settled). Refuted: the success counter counts the goals that succeed (it stays 0 in every one-threaded history), rejected goals are counted, two pumping threads, goal answered before it is registered, aborted handles stay aborted, late results, every feedback reaches the closure. Topics are lossless FIFO queues; user callbacks and payloads left out; goal ids distinct."
  },
  {
   "property": "C60",
   "status": "partial",
   "theorems": [
    "C60_bounded",
    "C60_listed",
    "C60_lost",
    "C60_not_evicted",
    "C60_flood_refuted"
   ],
   "note": "Bound, exact listing, once-only loss reports and staying listed (fewer than the table's limit of hosts) proved for every history. Refuted for floods: strangers announcing faster fill the table and a new genuine host is not listed."
  },
  {
   "property": "C61",
   "status": "partial",
   "theorems": [
    "C61_publisher",
    "C61_subscriber",
    "C61_unopened",
    "C61_secret",
    "C61_both_refuted",
    "C61_role_change_refuted"
   ],
   "note": "Proved for topics used in one direction, for every history and every hash-map iteration order. Refuted for topics used in both directions (one direction can be lost) and when the local role changes (stale export remains)."
  },
  {
   "property": "C62",
   "status": "partial",
   "theorems": [
    "C62_unicast",
    "C62_multicast_default_port",
    "C62_custom_port_refuted"
   ],
   "note": "Proved for unicast and for multicast on the default port. Refuted for any other port: announcements are always sent to port 9100."
  },
  {
   "property": "C63",
   "status": "partial",
   "theorems": [
    "C63_conserved",
    "C63_released",
    "C63_prompt_refuted"
   ],
   "note": "Conservation, order and release by the next export at least 500 us later proved for every history. Promptness refuted: with nothing else to export a message is held for ever."
  },
  {
   "property": "C64",
   "status": "partial",
   "theorems": [
    "C64_unchanged",
    "C64_freshness",
    "C64_drift_refuted"
   ],
   "note": "Unchanged, in order, and at most 100 withheld in a row proved for every threshold test. Closeness refuted: a steady ramp is withheld 100 times while the receiver keeps the old value."
  },
  {
   "property": "C65",
   "status": "partial",
   "theorems": [
    "C65_outsider_no_influence",
    "C65_write_sound",
    "C65_taken_was_sent",
    "C65_import_complete",
    "C65_hash_collision_refuted",
    "C65_reserved_collision_refuted",
    "C65_shared_address_refuted"
   ],
   "note": "Outsiders have no influence; soundness of writes for any bytes; completeness of import for a topic whose hash is unique among the host's topics. Refuted: two topics with colliding 32-bit name hashes are confused; a topic colliding with a reserved name is never imported; the type check asks only the first peer at an address."
  },
  {
   "property": "C66",
   "status": "partial",
   "theorems": [
    "C66_end_to_end_partial",
    "C66_retransmitted",
    "C66_ack_accepted",
    "C66_one_ack_silences_all_refuted",
    "C66_lost_ack_refuted",
    "C66_ack_without_writer_refuted"
   ],
   "note": "Export to import proved end to end for messages up to 1400 bytes with any number of copies arriving. Refuted: one acknowledgement ends retransmission to all subscribers; after a lost acknowledgement none follows; hosts acknowledge messages they do not store."
  },
  {
   "property": "C67",
   "status": "partial",
   "theorems": [
    "C67_halt_sound",
    "C67_stop_obeyed_partial",
    "C67_stop_framed",
    "C67_killed_refuted"
   ],
   "note": "Soundness proved for every history. Obeyed after every history with fewer than 128 genuine stops in which the receive thread has not panicked; refuted in general because five datagrams with chosen sequence numbers overflow the gap arithmetic (panic in builds with overflow checks)."
  },
  {
   "property": "C68",
   "status": "partial",
   "theorems": [
    "C68_all_read_partial",
    "C68_in_order",
    "C68_left_behind_refuted"
   ],
   "note": "Proved when never more than 256 datagrams wait at once; order always; refuted for bursts of 257: the last is left until more traffic comes."
  },
  {
   "property": "C69",
   "status": "partial",
   "theorems": [
    "C69_export_sound",
    "C69_export_exact_partial",
    "C69_not_again",
    "C69_once_refuted",
    "C69_wrong_type_refuted"
   ],
   "note": "Soundness and no re-export for every history; exact datagrams for one new message of up to 1400 bytes. Refuted: subscribers that announced another type are also sent to."
  },
  {
   "property": "C71",
   "status": "partial",
   "theorems": [
    "C71_no_echo_partial",
    "C71_echo_refuted"
   ],
   "note": "Proved for topics the host only subscribes to; refuted for topics that two hosts both publish and subscribe with imports allowed by name."
  },
  {
   "property": "C70",
   "status": "partial",
   "theorems": [
    "C70_newest_exported_partial",
    "C70_import_visible",
    "C70_try_send_refuted",
    "C70_dropped_send_refuted",
    "C70_counted_early_refuted"
   ],
   "note": "Proved: after any send/recv history without a refused send the tap returns the newest message and number; imports are visible at once. Refuted: try_send data is never exported; a refused send shifts every later export to a stale slot; a send is counted before it is written so a tap in between takes stale bytes and the message is never exported."
  },
  {
   "property": "C72",
   "status": "partial",
   "theorems": [
    "C72_open_new",
    "C72_read_safe_partial",
    "C72_read_safe_pod",
    "C72_read_inside",
    "C72_length_word_refuted",
    "C72_overread_refuted",
    "C72_import_confined"
   ],
   "note": "Proved: reading never leaves the mapping and faults only on a serialized slot whose length word is within the file length of 2^64; imports never fault and change only counters and the next slot. Refuted: such a length word panics every reader; a length word beyond the slot returns the neighbouring slot."
  },
  {
   "property": "C73",
   "status": "partial",
   "theorems": [
    "C73_fifo_partial",
    "C73_lapped_refuted",
    "C73_stalled_refuted",
    "C73_overwritten_refuted"
   ],
   "note": "Proved: FIFO exactly once as long as no message arrives with a full ring, both receive paths. Refuted: a lapped spsc subscriber gets messages out of order and twice; a lapped mpsc subscriber gets nothing ever again; a local publisher overwrites an imported message."
  },
  {
   "property": "C74",
   "status": "partial",
   "theorems": [
    "C74_after_sends",
    "C74_after_import",
    "C74_all_accounted",
    "C74_all_shown_partial",
    "C74_budget_skips_refuted",
    "C74_stuck_refuted"
   ],
   "note": "Proved: every wanted message is returned in order or counted as missed, and counted only if overwritten; over polls all are printed if arrivals fit ring and budget. Refuted: messages beyond the budget are skipped; behind by budget plus ring echo prints nothing for ever."
  },
  {
   "property": "C75",
   "status": "partial",
   "theorems": [
    "C75_answer",
    "C75_own_topic",
    "C75_ids",
    "C75_same_pid_refuted"
   ],
   "note": "Proved for every history in which request ids do not repeat (no process id reuse, fewer than 2^32 calls per process). Refuted when two processes share an id (one after the other, or containers sharing the topics)."
  },
  {
   "property": "C76",
   "status": "proved",
   "theorems": [
    "C76_once",
    "C76_once_always",
    "C76_resilient",
    "C76_resilient_refuted"
   ],
   "note": "At most once per call in every history with fresh ids, and, without that assumption, the calls made are one by one those run, those waiting and those lost (C76_once_always); call_resilient sends a new request per attempt, so the handler may run several times for one call_resilient (C76_resilient_refuted)."
  },
  {
   "property": "C77",
   "status": "partial",
   "theorems": [
    "C77_answered_partial",
    "C77_cap_refuted",
    "C77_late_check_refuted"
   ],
   "note": "Proved while the calls name at most 64 response topics and the pass takes at most 1000 requests. Refuted beyond: a server that has answered 64 clients never answers another one; an answer looked at after the deadline is a timeout."
  },
  {
   "property": "C78",
   "status": "partial",
   "theorems": [
    "C78_overlapping_refuted"
   ],
   "note": "Refuted: a look at one call throws away the answer to another that is next in the topic, and that call is never answered. For one call at a time see C77."
  },
  {
   "property": "C79",
   "status": "partial",
   "theorems": [
    "C79_once",
    "C79_answer",
    "C79_answered_partial",
    "C79_lost_request_refuted",
    "C79_lost_response_refuted"
   ],
   "note": "Runs at most once, and only whole requests are run and answers shown are those of the call's own run: proved for all histories (C79_once without any assumption on the text; C79_answer given that no proper part of a JSON text parses). That a call is answered is proved for the order in which each file is complete before it is read; it is false otherwise: a server that reads a request file between its creation and its writing deletes it, and a command that reads a response between creation and writing deletes that; in both cases, whatever follows, the call prints nothing."
  },
  {
   "property": "C80",
   "status": "partial",
   "theorems": [
    "C80_taken_partial",
    "C80_all_taken",
    "C80_overwritten_refuted"
   ],
   "note": "False as stated: of two goals sent before the server looks, the first is never taken (C80_overwritten_refuted). Proved: the server takes some of the goals sent, in order, none twice; and all of them if it looks between any two. Send and look are each one step in the model; the gap between removal, creation and writing of the goal file is not modelled."
  },
  {
   "property": "C81",
   "status": "partial",
   "theorems": [
    "C81_recorded",
    "C81_bounds",
    "C81_ring_stops_refuted",
    "C81_range",
    "C81_finished",
    "C81_interrupted"
   ],
   "note": "what is kept under interval, size limit and snapshot limit is proved exactly; that a recording with both limits goes on keeping the newest snapshots is refuted (it stops for ever)"
  },
  {
   "property": "C82",
   "status": "partial",
   "theorems": [
    "C82_plays",
    "C82_repeats_refuted",
    "C82_aligned_partial",
    "C82_interval_refuted",
    "C82_start_late_refuted",
    "C82_one_each_partial",
    "C82_one_per_tick_refuted"
   ],
   "note": "the messages of every replay tick are proved exactly; alignment with the recorded ticks is proved for recordings without gaps and refuted for an interval above 1; faithfulness is proved for nodes that publish once per tick and refuted otherwise; replay does not end; a late start tick is ignored"
  },
  {
   "property": "C83",
   "status": "partial",
   "theorems": [
    "C83_round_trip_partial",
    "C83_too_large_refuted",
    "C83_version",
    "C83_atomic",
    "C83_confined",
    "C83_sessions_collide_refuted",
    "C83_cut"
   ],
   "note": "atomicity under crashes, version check and confinement proved; round trip proved up to 100 MiB and refuted above; sessions whose names end alike share their files (refuted)"
  },
  {
   "property": "C86",
   "status": "partial",
   "theorems": [
    "C86_rt_refuted",
    "C86_pool_refuted",
    "C86_interval_refuted"
   ],
   "note": "refuted for every history: tick number always 0, no outputs, interval without effect"
  },
  {
   "property": "C87",
   "status": "partial",
   "theorems": [
    "C87_clock_frozen_refuted",
    "C87_order_refuted",
    "C87_found",
    "C87_skipped_refuted",
    "C87_position",
    "C87_clock"
   ],
   "note": "files are found exactly when the name's last level has no @ (proved); order and clock of the replay are refuted for every recording the scheduler can write"
  },
  {
   "property": "C84",
   "status": "proved",
   "theorems": [
    "C84_differences",
    "C84_missing_ticks",
    "C84_missing_outputs",
    "C84_ordered",
    "C84_none"
   ],
   "note": "exact in both directions for recordings with one snapshot per tick"
  },
  {
   "property": "C85",
   "status": "proved",
   "theorems": [
    "C85_continue",
    "C85_steps",
    "C85_back_and_forth",
    "C85_session",
    "C85_ids",
    "C85_history",
    "C85_watches",
    "C85_value",
    "C85_switch",
    "C85_off",
    "C85_seek",
    "C85_forget"
   ],
   "note": "steps and sessions for recordings with increasing ticks (those of main-thread nodes); breakpoint numbers are unbounded in the model (u32 in the code)"
  },
  {
   "property": "C88",
   "status": "partial",
   "theorems": [
    "C88_label_refuted",
    "C88_same_refuted"
   ],
   "note": "refuted: a recording and any continuation of it compare as equal; for missing outputs the recording named is always the one that has the output (for missing ticks the label is right, C84_missing_ticks)"
  },
  {
   "property": "C89",
   "status": "partial",
   "theorems": [
    "C89_first_refuted",
    "C89_after_refuted",
    "C89_rt_refuted"
   ],
   "note": "refuted: the first snapshot is never checked; AfterTicks(n) with n of two or more never stops in a recording without gaps; recordings of nodes off the main thread cannot be stepped back or resumed; the positive part is C85_continue"
  },
  {
   "property": "C90",
   "status": "partial",
   "theorems": [
    "C90_elapsed",
    "C90_views",
    "C90_order",
    "C90_reproducible_partial",
    "C90_deadline_not_reproducible_refuted",
    "C90_restart_not_reproducible_refuted",
    "C90_one_period_refuted",
    "C90_frozen_refuted",
    "C90_dt_sum_refuted",
    "C90_seeds",
    "C90_normal_entropy_refuted",
    "C90_fatal",
    "C90_by_number",
    "C90_rate"
   ],
   "note": "Proved: the order, the readings of every tick, the tick numbers, the seeds; reproducibility for nodes that do not wait on the wall clock. Refuted: one period per tick (each step of the graph takes one), time passing under circular dependencies (frozen), dt() adding up to the time (a node with a rate ticks on every tick), reproducibility with a skip deadline or a restart backoff, system entropy in normal mode."
  },
  {
   "property": "C91",
   "status": "partial",
   "theorems": [
    "C91_run_for",
    "C91_short_refuted",
    "C91_never_ends_refuted",
    "C91_ended"
   ],
   "note": "Exact number of ticks proved; refuted that it is duration/period when the graph has two or more steps; refuted that the run ends when dependencies are circular or there is no node."
  },
  {
   "property": "C92",
   "status": "partial",
   "theorems": [
    "C92_anytime_partial",
    "C92_never_ends_refuted"
   ],
   "note": "Proved for a clock that moves; refuted for deterministic mode, where the clock stands still during a tick."
  },
  {
   "property": "C93",
   "status": "partial",
   "theorems": [
    "C93_own_thread",
    "C93_dependent_order_refuted"
   ],
   "note": "Refuted: every real-time node gets its own thread whatever the graph, so every order occurs."
  },
  {
   "property": "C94",
   "status": "partial",
   "theorems": [
    "C94_order_free",
    "C94_accepts",
    "C94_built",
    "C94_in_force",
    "C94_slow_rate_refuted",
    "C94_panics_exactly"
   ],
   "note": "Order independence, exact acceptance, the built configuration and the checks being in force are proved; 'errors, never panics' is refuted with the exact condition. f64 rounding of rates is not modelled."
  },
  {
   "property": "C95",
   "status": "partial",
   "theorems": [
    "C95_rate_only",
    "C95_budget_alone",
    "C95_budget_with_rate_refuted",
    "C95_budget_over_period_refuted"
   ],
   "note": "Proved for rate-only and budget-only nodes; refuted for rate + budget."
  },
  {
   "property": "C96",
   "status": "partial",
   "theorems": [
    "C96_clean",
    "C96_distinct",
    "C96_different_names_refuted"
   ],
   "note": "Clean and distinct names proved; 'different names can run together' refuted for every control character."
  },
  {
   "property": "C97",
   "status": "partial",
   "theorems": [
    "C97_own_settings",
    "C97_slow_rate_refuted",
    "C97_edf_without_rate_refuted"
   ],
   "note": "Proved for every set of real-time nodes (each has a thread of its own by C93); refuted for deadline scheduling without a rate and for very low rates. What the kernel answers is not modelled."
  },
  {
   "property": "C98",
   "status": "partial",
   "theorems": [
    "C98_never_early",
    "C98_catch_up",
    "C98_no_drift",
    "C98_spacing_refuted",
    "C98_actual_hz_refuted",
    "C98_is_late"
   ],
   "note": "Proved: the n-th sleep never returns before n periods after creation; between any two returns lie all the periods but one; no drift while turns are on time; is_late agrees with sleep. Refuted: actual_hz reports one over the working time rather than the loop's frequency (elapsed is taken before the sleep); two turns may be closer than a period."
  },
  {
   "property": "C99",
   "status": "partial",
   "theorems": [
    "C99_carries",
    "C99_carries_data",
    "C99_metadata_limit_refuted",
    "C99_named_format",
    "C99_decoded_safe",
    "C99_compact_format_refuted",
    "C99_foreign_bytes_refuted",
    "C99_preview"
   ],
   "note": "Proved: payload and metadata round trip directly, through the shared-memory image and through map formats; every decoded document is readable without panic; previews cut on character boundaries. Refuted: metadata of the documented 256 bytes is refused; formats that store structs as sequences (bincode, compact MessagePack) cannot be read back; bytes of another type on the topic make the accessors panic, exactly when a length is out of range."
  },
  {
   "property": "C100",
   "status": "partial",
   "theorems": [
    "C100_round_trip",
    "C100_long_name_refuted",
    "C100_same_prefix_refuted",
    "C100_correction",
    "C100_reference"
   ],
   "note": "Proved: names shorter than the field round trip (cleared or overwritten fields); offset correction. Refuted: a longer name reads back as the empty string whenever the cut falls inside a character, and names agreeing up to the field size are indistinguishable. The lossy readers of diagnostics.rs (from_utf8_lossy) are modelled only up to the stored bytes."
  },
  {
   "property": "C101",
   "status": "partial",
   "theorems": [
    "C101_set_get",
    "C101_total",
    "C101_row",
    "C101_large_refuted",
    "C101_world",
    "C101_one_cell",
    "C101_centre",
    "C101_outside_refuted",
    "C101_rotation_refuted",
    "C101_zero_resolution_refuted",
    "C101_wide_refuted",
    "C101_classified",
    "C101_fill_refuted"
   ],
   "note": "Proved for grids below 2^32 cells with any history; refuted beyond 2^32 cells (two cells share a place), for points within a millionth of a cell outside (taken as inside), for rotated maps (rotation ignored), for a zero resolution, for 2^31 columns and for fill below -1. Exact numbers in place of f32/f64."
  },
  {
   "property": "C102",
   "status": "proved",
   "theorems": [
    "C102_apply",
    "C102_layers"
   ],
   "note": "For all cost maps with any history of calls."
  },
  {
   "property": "C103",
   "status": "proved",
   "theorems": [
    "C103_picture",
    "C103_region",
    "C103_size"
   ],
   "note": "All sizes, encodings and histories. Rows of 2^32 bytes and more are not modelled."
  },
  {
   "property": "C104",
   "status": "partial",
   "theorems": [
    "C104_set_get",
    "C104_refused",
    "C104_outside",
    "C104_write_back_refuted",
    "C104_statistics"
   ],
   "note": "Round trip within one unit with 24-bit rounding modelled (subnormals and overflow left out); that a depth read and written back is unchanged is refuted for 251 mm at any pixel."
  },
  {
   "property": "C105",
   "status": "partial",
   "theorems": [
    "C105_points",
    "C105_coordinates",
    "C105_total",
    "C105_intensity_refuted"
   ],
   "note": "Contents, order, coordinates and safety proved; refuted that has_intensity implies an intensity field (every XYZRGB cloud). 2^32 points and more not modelled."
  },
  {
   "property": "C106",
   "status": "partial",
   "theorems": [
    "C106_allocated",
    "C106_view",
    "C106_slice",
    "C106_slice_refused",
    "C106_chain",
    "C106_checked",
    "C106_incompatible_refuted",
    "C106_ninth_refuted",
    "C106_padded_refuted"
   ],
   "note": "Views, slices, chains and the descriptor check proved for up to eight dimensions; refuted: an incompatible shape may panic (modulo 2^64), a ninth dimension is dropped, a slice of a padded tensor fails the check although it is inside."
  },
  {
   "property": "C107",
   "status": "partial",
   "theorems": [
    "C107_confined",
    "C107_distinct",
    "C107_doubled_refuted",
    "C107_nested_refuted",
    "C107_meta_refuted",
    "C107_shared_meta_refuted"
   ],
   "note": "Confinement below the topics directory and distinct files for names without empty components are proved. Refuted: a doubled slash gives another topic the same file; a topic's file is a directory for topics below it; the memory of topic n.meta is the description file of topic n; names that differ in punctuation share one description file."
  },
  {
   "property": "C108",
   "status": "partial",
   "theorems": [
    "C108_serial",
    "C108_new",
    "C108_drop",
    "C108_clean",
    "C108_keeper",
    "C108_join_refuted",
    "C108_cleaner_refuted"
   ],
   "note": "Proved for whole operations in any order, and for every interleaving of system calls as long as one user stays. Refuted otherwise: a newcomer whose open falls before the last user's removal and whose lock falls after it holds a memory no name leads to, and its own leaving removes the next users' file; likewise between the cleaner's check and its removal. Not modelled: users of a topic that take no lock (network bridge), directories."
  },
  {
   "property": "C109",
   "status": "partial",
   "theorems": [
    "C109_same_size",
    "C109_serial",
    "C109_kept",
    "C109_sizes_refuted",
    "C109_growth_refuted",
    "C109_cleared_refuted"
   ],
   "note": "Proved for equal sizes without growth under every interleaving, and for any sizes with one operation at a time and growth to no less than the file. Refuted: a joiner of a smaller size cuts the file below the creator's mapping; growth compares with the grower's own mapping, so the file shrinks under a user that grew it more; the creator clears the memory after a joiner may already have written."
  },
  {
   "property": "C110",
   "status": "partial",
   "theorems": [
    "C110_listing",
    "C110_prefix_refuted",
    "C110_duplicate_refuted",
    "C110_scan_race_refuted",
    "C110_recycled_refuted"
   ],
   "note": "Proved for read_all for every history, with start times readable and never reused for one number. Refuted: names starting with remote_ or bridged_ are never listed; a duplicate name's withdrawal hides the other; a scan can remove the file of a node that just came back; the command line listing ignores start times and shows a dead node whose process number was reused."
  },
  {
   "property": "C111",
   "status": "partial",
   "theorems": [
    "C111_whole",
    "C111_unchanged",
    "C111_found",
    "C111_two_writers_refuted"
   ],
   "note": "Proved for one writer under every crash point. Refuted for two processes with a node of the same name, which share the temporary file."
  },
  {
   "property": "C112",
   "status": "partial",
   "theorems": [
    "C112_round_trip",
    "C112_confined",
    "C112_cleaned",
    "C112_present",
    "C112_injection_refuted",
    "C112_clock_refuted",
    "C112_status"
   ],
   "note": "Round trip, confinement and the 30 second rule are proved for every input and history. Refuted: names are not escaped, so one crafted name is written as two nodes; the age shown compares the sender's clock with the reader's. from_utf8_lossy is not modelled."
  },
  {
   "property": "C113",
   "status": "partial",
   "theorems": [
    "C113_order",
    "C113_circle",
    "C113_duplicate_refuted"
   ],
   "note": "proved: with distinct names the order is a permutation of the file that respects every dependency, and the error is a circle exactly; of nodes with one name only one is launched (C113_duplicate_refuted)"
  },
  {
   "property": "C114",
   "status": "partial",
   "theorems": [
    "C114_started",
    "C114_succeeds",
    "C114_incomplete",
    "C114_cleanup",
    "C114_orphans_refuted"
   ],
   "note": "proved: success starts all once in order, success if the file is complete and all can be started, never with a dependency missing, and a start that fails kills the earlier ones; a missing dependency leaves the earlier processes running (C114_orphans_refuted)"
  },
  {
   "property": "C115",
   "status": "partial",
   "theorems": [
    "C115_policy",
    "C115_bounded",
    "C115_told",
    "C115_stop_refuted",
    "C115_sticky_refuted",
    "C115_exhausted_refuted"
   ],
   "note": "proved: the decision, the limit of ten and the waits in every history; StopNode on an always node only restarts it (C115_stop_refuted), RestartNode changes the policy for good (C115_sticky_refuted) and after ten restarts ends the node (C115_exhausted_refuted)"
  },
  {
   "property": "C116",
   "status": "partial",
   "theorems": [
    "C116_all_stopped",
    "C116_estop",
    "C116_delay",
    "C116_delay_refuted",
    "C116_session_refuted",
    "C116_wrong_node_refuted"
   ],
   "note": "proved: nothing is left at the end, an emergency stop that is seen ends the launch, a round sleeps at most 10 s per process; that delay is attained (C116_delay_refuted), the session gives another node's process after one ended (C116_session_refuted), and StopNode can shut down another node's scheduler (C116_wrong_node_refuted)"
  },
  {
   "property": "C117",
   "status": "partial",
   "theorems": [
    "C117_solution",
    "C117_highest",
    "C117_conflict",
    "C117_ends",
    "C117_complete_refuted",
    "C117_silent_refuted",
    "C117_source_refuted"
   ],
   "note": "proved: every result is a solution, closed under the dependencies of the chosen versions, each version excluded only by somebody's requirement; conflicts only where nothing meets all that is asked; it ends on every finite registry; but requirements of versions not chosen count (C117_complete_refuted), a registry that fails counts as no dependencies (C117_silent_refuted) and sources are ignored (C117_source_refuted)"
  },
  {
   "property": "C118",
   "status": "partial",
   "theorems": [
    "C118_present",
    "C118_exact_partial",
    "C118_sourced",
    "C118_stale_refuted",
    "C118_joint_refuted"
   ],
   "note": "proved: presence and that nothing changes; that every package added comes from the cache in that version or from the registry (C118_sourced); exact versions if the resolved packages have no dependencies; refuted: any version already there is kept (C118_stale_refuted), and a package installed on the way brings versions that contradict the joint resolution (C118_joint_refuted)"
  },
  {
   "property": "C119",
   "status": "partial",
   "theorems": [
    "C119_name",
    "C119_bare",
    "C119_pip",
    "C119_horus_py_refuted",
    "C119_scoped_refuted",
    "C119_dropped_refuted",
    "C119_features_refuted"
   ],
   "note": "proved for names, requirements and PyPI; refuted: a bad requirement of horus_py is any version, packages of an organisation are never read and silently dropped from a registry's answer, features are dropped"
  },
  {
   "property": "C120",
   "status": "partial",
   "theorems": [
    "C120_every",
    "C120_level",
    "C120_safe",
    "C120_twice_refuted",
    "C120_burst_refuted",
    "C120_forge_refuted"
   ],
   "note": "C120_every, C120_level and C120_safe proved for all histories, with the hypothesis that no entry is pushed between the two looks of a poll and that fewer entries than the buffer holds come between polls; C120_twice_refuted, C120_burst_refuted and C120_forge_refuted show what fails. Not modelled: the receiver's rate limit, loss of datagrams."
  },
  {
   "property": "C121",
   "status": "partial",
   "theorems": [
    "C121_counted_partial",
    "C121_freed_partial"
   ],
   "note": "Proved for every history without a killed process (what happens then is C12's refutations), by showing that the image layer is a correct client of the pool. One pool; the two tensors of a cost map are left out."
  },
  {
   "property": "C122",
   "status": "partial",
   "theorems": [
    "C122_latest",
    "C122_gone",
    "C122_backlog_refuted",
    "C122_starved_refuted"
   ],
   "note": "C122_latest and C122_gone proved for all histories without a killed process; C122_backlog_refuted and C122_starved_refuted show for every reachable state that a backlog of images cannot be received."
  },
  {
   "property": "C123",
   "status": "partial",
   "theorems": [
    "C123_pinned",
    "C123_sorted",
    "C123_same",
    "C123_relock",
    "C123_stale",
    "C123_duplicate_refuted",
    "C123_dropped_refuted",
    "C123_upgrade_refuted"
   ],
   "note": "The three refuted claims are proved false for every lock file; the rest is proved. TOML text is not modelled: a file is what the parser makes of it."
  },
  {
   "property": "C124",
   "status": "partial",
   "theorems": [
    "C124_atomic",
    "C124_history",
    "C124_kept",
    "C124_concurrent_refuted",
    "C124_plugins_refuted"
   ],
   "note": "Proved for one process at a time; false with two (C124_concurrent_refuted) and for the plugin registry (C124_plugins_refuted). Losing power before the data reaches the disk is outside the model (no fsync is called)."
  },
  {
   "property": "C125",
   "status": "partial",
   "theorems": [
    "C125_kept",
    "C125_recovers",
    "C125_warned",
    "C125_failed_tick",
    "C125_safe_once",
    "C125_recovery_refuted",
    "C125_rare",
    "C125_one_late_tick_refuted",
    "C125_idle_event_refuted"
   ],
   "note": "Positive part proved for nodes of the main loop without budget or deadline (no degradation ladder). Three claims of the code's comments are refuted for every history. An emergency stop is recorded but the end of the loop is not modelled here."
  },
  {
   "property": "C126",
   "status": "partial",
   "theorems": [
    "C126_shown",
    "C126_place",
    "C126_more_refuted",
    "C126_cut_refuted",
    "C126_split_refuted",
    "C126_state_refuted",
    "C126_same_name_refuted",
    "C126_mixed_refuted",
    "C126_order_refuted"
   ],
   "note": "proved for every history of up to 64 nodes with names of up to 47 bytes: the list is exactly the registered nodes with the numbers last written (C126_shown), and each node has its own place (C126_place); refuted: a 65th node is not listed and its numbers appear as the 64th node's, long names are cut (alike, or unlisted if a character is split), the state shown is always running, priorities are shown modulo 256, and a second scheduler of the same name empties and mixes the list"
  },
  {
   "property": "C127",
   "status": "partial",
   "theorems": [
    "C127_exclusive",
    "C127_numbered",
    "C127_settled",
    "C127_seen",
    "C127_once",
    "C127_stuck",
    "C127_forced",
    "C127_pair_refuted",
    "C127_crash_refuted",
    "C127_force_refuted",
    "C127_grow_refuted"
   ],
   "note": "proved for every schedule and crash without forced unlocks: exclusion, numbering, and the settled epoch and mode (C127_exclusive, C127_numbered, C127_settled, C127_seen, C127_stuck); with forced unlocks: numbers are unique (C127_once) and a caller recovers a stuck topic (C127_forced); refuted: a stable epoch does not mean mode and epoch belong together, a crash between the two stores leaves a mode nobody is told of, a forced unlock of a slow holder leaves the mode of an earlier change, growing a topic raises no epoch if the mode is already right; accesses are sequentially consistent in the model"
  }
 ]
}