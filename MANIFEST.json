{
 "claims": [
  {
   "property": "C01",
   "status": "proved",
   "theorems": [
    "C01_signed_roundtrip",
    "C01_unsigned_roundtrip"
   ],
   "note": "All ten predeclared integer types, defined types over them, 32- and 64-bit platforms."
  },
  {
   "property": "C02",
   "status": "proved",
   "theorems": [
    "C02_float64_roundtrip",
    "C02_float32_roundtrip"
   ],
   "note": "Finding: floats with small bit patterns, including +0.0, panic on Decode of their own encoding."
  },
  {
   "property": "C03",
   "status": "proved",
   "theorems": [
    "C03_string_roundtrip",
    "C03_bool_roundtrip",
    "C03_nil_roundtrip"
   ],
   "note": ""
  },
  {
   "property": "C04",
   "status": "proved",
   "theorems": [
    "C04_structure_roundtrip",
    "C04_float32_widening_exact"
   ],
   "note": "safe_top excludes exactly the crashing floats and the map keys of C17."
  },
  {
   "property": "C05",
   "status": "proved",
   "theorems": [
    "C05_stream_roundtrip",
    "C05_prefix_free"
   ],
   "note": ""
  },
  {
   "property": "C06",
   "status": "proved",
   "theorems": [
    "C06_decode_progress",
    "C06_decode_universe"
   ],
   "note": ""
  },
  {
   "property": "C07",
   "status": "proved",
   "theorems": [
    "C07_truncation_detected_refuted",
    "C07_cut_unsigned",
    "C07_cut_signed",
    "C07_cut_string",
    "C07_cut_between_fields",
    "C07_fields_concat"
   ],
   "note": "The claim is false of the code (C07_truncation_detected_refuted); the exact results of cuts inside integers and strings, and the error for cuts between fields, are proved."
  },
  {
   "property": "C08",
   "status": "proved",
   "theorems": [
    "C08_unknown_tag",
    "C08_empty"
   ],
   "note": ""
  },
  {
   "property": "C09",
   "status": "proved",
   "theorems": [
    "C09_encode_error_iff"
   ],
   "note": ""
  },
  {
   "property": "C10",
   "status": "proved",
   "theorems": [
    "C10_unsigned_size",
    "C10_signed_size",
    "C10_unsigned_canonical",
    "C10_signed_canonical"
   ],
   "note": ""
  },
  {
   "property": "C11",
   "status": "proved",
   "theorems": [
    "C11_signed_access",
    "C11_unsigned_access"
   ],
   "note": ""
  },
  {
   "property": "C12",
   "status": "proved",
   "theorems": [
    "C12_accessor_safe",
    "C12_after_failure",
    "C12_safe_after_any_decode_refuted"
   ],
   "note": "Safety after successful decodes is proved; after a failed decode the claim is refuted and the panicking accessors are characterised."
  },
  {
   "property": "C13",
   "status": "proved",
   "theorems": [
    "C13_native",
    "C13_foreign_scalar",
    "C13_foreign_container"
   ],
   "note": ""
  },
  {
   "property": "C14",
   "status": "proved",
   "theorems": [
    "C14_relay_stable"
   ],
   "note": "Map entries are encoded in the order of the entry list; Go's random iteration order is any such list."
  },
  {
   "property": "C15",
   "status": "proved",
   "theorems": [
    "C15_segmentation_independent_refuted",
    "C15_field_aligned_chunks"
   ],
   "note": "Claim refuted; proved for chunks that do not cut a field."
  },
  {
   "property": "C16",
   "status": "proved",
   "theorems": [
    "C16_write_failures_reported_refuted",
    "C16_write_failures_without_floats"
   ],
   "note": "Claim refuted for floats; proved for every float-free value."
  },
  {
   "property": "C17",
   "status": "proved",
   "theorems": [
    "C17_map_restored",
    "C17_integer_keys_collapse",
    "C17_nan_key_loses_value",
    "C17_array_key_panics"
   ],
   "note": ""
  },
  {
   "property": "C18",
   "status": "proved",
   "theorems": [
    "C18_message_roundtrip"
   ],
   "note": "All nine message types; sender and receiver may have different int sizes."
  },
  {
   "property": "C19",
   "status": "proved",
   "theorems": [
    "C19_framing",
    "C19_framing_any_body"
   ],
   "note": "Frames below 2^32+4 bytes on 64-bit receivers, below 2^31 on 32-bit ones (C21_wedge_32bit says what happens above)."
  },
  {
   "property": "C20",
   "status": "proved",
   "theorems": [
    "C20_reassembly",
    "C20_segmentation_irrelevant"
   ],
   "note": "Any segmentation, including empty reads and an incomplete tail."
  },
  {
   "property": "C21",
   "status": "proved",
   "theorems": [
    "C21_no_bytes_crash_refuted",
    "C21_genuine_frames_safe",
    "C21_unknown_id_crashes",
    "C21_empty_body_crashes",
    "C21_short_body_crashes",
    "C21_non_string_slots_crash",
    "C21_float_argument_crashes",
    "C21_unmarshal_terminates",
    "C21_buffer_fully_drained",
    "C21_wedge_32bit"
   ],
   "note": "The claim is false of the code (C21_no_bytes_crash_refuted); classes of crashing frames are proved to crash, genuine frames never do."
  },
  {
   "property": "C22",
   "status": "proved",
   "theorems": [
    "C22_txt_segments",
    "C22_segments_meaning",
    "C22_txt_faithful"
   ],
   "note": "txt serializer over the same receive routine."
  },
  {
   "property": "C23",
   "status": "proved",
   "theorems": [
    "C23_written_is_prefix_of_queued",
    "C23_per_sender_order",
    "C23_drop_only_when_full",
    "C23_accept_only_when_not_full",
    "C23_all_written_when_quiet",
    "C23_single_sender",
    "C23_send_reliable_refuted",
    "C23_blocked_sender"
   ],
   "note": "Any number of sending goroutines; reliability of Send is refuted (C23_send_reliable_refuted)."
  },
  {
   "property": "C24",
   "status": "proved",
   "theorems": [
    "C24_nothing_after_stop_mark",
    "C24_nothing_after_connection_closed",
    "C24_flush_without_errors",
    "C24_ends_only_by_mark_or_error",
    "C24_close_flushes_refuted",
    "C24_mark_always_queued_refuted"
   ],
   "note": "The two failing expectations are refuted by witness schedules."
  },
  {
   "property": "C25",
   "status": "proved",
   "theorems": [
    "C25_one_answer"
   ],
   "note": "Any schedule of handler, timers, callers, clock. Examples show both outcomes of the race."
  },
  {
   "property": "C26",
   "status": "proved",
   "theorems": [
    "C26_one_at_a_time",
    "C26_arrival_order",
    "C26_sequential_state",
    "C26_request_is_one_call"
   ],
   "note": "Serial execution, queue order, at most once, object state = sequential replay of the ended calls."
  },
  {
   "property": "C27",
   "status": "proved",
   "theorems": [
    "C27_own_answer",
    "C27_never_blocked",
    "C27_shared_caller_refuted"
   ],
   "note": "Holds when no two goroutines use one caller object at once; with a shared caller object answers are swapped (C27_shared_caller_refuted)."
  },
  {
   "property": "C28",
   "status": "proved",
   "theorems": [
    "C28_not_before_whole_seconds",
    "C28_truncated_total",
    "C28_setting_used",
    "C28_zero_fires_at_once",
    "C28_half_second_refuted",
    "C28_ten_billion_seconds_refuted"
   ],
   "note": "Timeout not before the setting cut to whole seconds since pickup. 'Not before the configured time' itself is refuted for 0.5 s and, by int64 overflow, for 1e10 s."
  },
  {
   "property": "C29",
   "status": "proved",
   "theorems": [
    "C29_stuck_behind",
    "C29_answered_in_time_refuted",
    "C29_all_calls_return"
   ],
   "note": "As stated the property is false: C29_answered_in_time_refuted, C29_stuck_behind (every continuation). The positive half: if methods return, no call is left waiting when no goroutine can move (C29_all_calls_return)."
  },
  {
   "property": "C30",
   "status": "proved",
   "theorems": [
    "C30_dispatch",
    "C30_runs_only_the_named_method",
    "C30_unknown_method",
    "C30_wrong_arity_panics",
    "C30_inconvertible_panics",
    "C30_nil_argument_panics",
    "C30_integers_to_signed",
    "C30_integers_to_unsigned",
    "C30_conversion_unique",
    "C30_int_is_not_a_string_refuted",
    "C30_int_to_string"
   ],
   "note": "reflect conversions between kinds not needed by the wire are left open (any function). Finding: nil arguments panic, an int for a string parameter becomes one rune (C30_int_is_not_a_string_refuted)."
  },
  {
   "property": "C31",
   "status": "proved",
   "theorems": [
    "C31_ports_strictly_increase",
    "C31_ports_in_range",
    "C31_least_port",
    "C31_search_terminates",
    "C31_exits_only_without_port",
    "C31_exits_without_port"
   ],
   "note": "Both directions of the exit condition."
  },
  {
   "property": "C32",
   "status": "proved",
   "theorems": [
    "C32_answers_a_ready_registrant",
    "C32_at_most_one_answer",
    "C32_newest_ready",
    "C32_answer_ends_a_round",
    "C32_newest_at_answer_refuted"
   ],
   "note": "'Newest at the moment of the answer' is refuted (C32_newest_at_answer_refuted); proved relative to the start of the answering round."
  },
  {
   "property": "C33",
   "status": "proved",
   "theorems": [
    "C33_no_answer_without_a_ready_dock",
    "C33_never_stuck",
    "C33_turns_bounded",
    "C33_can_be_answered",
    "C33_spins"
   ],
   "note": "Progress as: an unanswered query can always step, and takes boundedly many steps once a dock is ready. Finding: the goroutine spins without pause (C33_spins)."
  },
  {
   "property": "C34",
   "status": "proved",
   "theorems": [
    "C34_answers_live_docks_refuted",
    "C34_departed_docks_are_served"
   ],
   "note": "Claim refuted; the converse is proved for every state."
  },
  {
   "property": "C35",
   "status": "proved",
   "theorems": [
    "C35_host",
    "C35_no_port",
    "C35_no_colon",
    "C35_ipv6_hosts_refuted",
    "C35_ipv6_truncated"
   ],
   "note": "IPv6 refuted; C35_ipv6_truncated covers every host containing a colon."
  },
  {
   "property": "C36",
   "status": "proved",
   "theorems": [
    "C36_call",
    "C36_local_calls_are_of_carried_features",
    "C36_remote_calls_are_of_other_features"
   ],
   "note": "Every reachable state of a dock. The local call itself is C25-C29/C30."
  },
  {
   "property": "C37",
   "status": "proved",
   "theorems": [
    "C37_announcements",
    "C37_connection_is_announced_to",
    "C37_one_announcement_per_connection"
   ],
   "note": ""
  },
  {
   "property": "C38",
   "status": "proved",
   "theorems": [
    "C38_sent_at_most_once",
    "C38_sent_unchanged_to_the_latest_announcer",
    "C38_no_other_requests",
    "C38_recorded_only_if_announced",
    "C38_call_goes_out"
   ],
   "note": "At most once, unchanged, to the latest announcer."
  },
  {
   "property": "C39",
   "status": "proved",
   "theorems": [
    "C39_returns_through_a_response",
    "C39_returns_once",
    "C39_own_answer",
    "C39_one_call_per_identifier",
    "C39_identifier_collision_refuted",
    "C39_overtaken_call_never_returns"
   ],
   "note": "Distinct identifiers are a hypothesis of C39_own_answer; with equal ones both outcomes of the statement are shown (C39_identifier_collision_refuted, C39_overtaken_call_never_returns)."
  },
  {
   "property": "C40",
   "status": "proved",
   "theorems": [
    "C40_at_most_one_execution_and_reply",
    "C40_reply",
    "C40_no_other_responses",
    "C40_never_stuck"
   ],
   "note": "'Exactly one response' is proved as: at most one, and an unanswered accepted request can always step (C40_never_stuck); that the method itself returns is not provable."
  },
  {
   "property": "C41",
   "status": "proved",
   "theorems": [
    "C41_packets_never_crash_refuted",
    "C41_no_crash_without_duplicates"
   ],
   "note": "Refuted with a schedule; the converse is proved for all schedules without duplicate identifiers."
  },
  {
   "property": "C42",
   "status": "proved",
   "theorems": [
    "C42_commit_never_crashes_refuted",
    "C42_two_handlers_refuted",
    "C42_serialised_commits_never_crash"
   ],
   "note": "Refuted with two schedules (caller/handler, two handlers); serialised commits proved safe."
  },
  {
   "property": "C43",
   "status": "proved",
   "theorems": [
    "C43_queries_go_to_the_first_socket",
    "C43_queries_go_to_the_hub_refuted",
    "C43_wrong_in_every_continuation",
    "C43_hub_if_run_finished_first"
   ],
   "note": "Refuted with a schedule; C43_wrong_in_every_continuation covers all continuations."
  },
  {
   "property": "C44",
   "status": "proved",
   "theorems": [
    "C44_started_once_after_registration",
    "C44_one_start_per_reply",
    "C44_all_started",
    "C44_start_never_stuck",
    "C44_destroyed_once",
    "C44_destroyed_before_cleared",
    "C44_sockets_closed_in_reverse",
    "C44_sockets_closed_only_by_close",
    "C44_every_socket_closed_refuted",
    "C44_exactly_one_start_per_reply",
    "C44_instances_closed_in_reverse",
    "C44_destroy_finishes",
    "C44_destroy_panics_only_on_overlap",
    "C44_overlapping_wait_refuted",
    "C44_overlapping_destroy_refuted"
   ],
   "note": "'Closes the sockets' is refuted for a socket opened while Close runs (C44_every_socket_closed_refuted); Close closes those open when it cleared the features, in reverse order. The instance list of runtime.go is in MiscProps.v; overlapping calls are refuted."
  },
  {
   "property": "C45",
   "status": "proved",
   "theorems": [
    "C45_dropped_request_is_never_sent",
    "C45_dropped_request_hangs",
    "C45_dropped_response_is_never_sent"
   ],
   "note": "Refuted: C45_dropped_request_hangs covers every continuation in which peers answer only requests they were sent."
  },
  {
   "property": "C46",
   "status": "proved",
   "theorems": [
    "C46_set_answers",
    "C46_listing_is_the_members",
    "C46_nan_never_found",
    "C46_nan_piles_up",
    "C46_unhashable_panics"
   ],
   "note": "For all operation sequences; +0/-0 are one item, NaN and unhashable items separately."
  },
  {
   "property": "C47",
   "status": "proved",
   "theorems": [
    "C47_same_proxy",
    "C47_made_once",
    "C47_proxy_is_made",
    "C47_nil_without_maker",
    "C47_fresh_slot_uses_latest",
    "C47_right_types_no_panic",
    "C47_visit_returns",
    "C47_overlapping_refuted",
    "C47_wrong_maker_panics_refuted"
   ],
   "note": "Proved for visits of one name on one slot that do not overlap; refuted for overlapping visits and for makers of the wrong type."
  },
  {
   "property": "C48",
   "status": "proved",
   "theorems": [
    "C48_remote_call_equals_local",
    "C48_remote_call_any_arguments",
    "C48_remote_call_exactly",
    "C48_unsupported_argument_kills_caller",
    "C48_poison_argument_kills_callee",
    "C48_zero_float_refuted",
    "C48_int_width_refuted"
   ],
   "note": "Proved for parameters of every scalar type (and interface{}, []interface{}, map[interface{}]interface{} up to wire types), any platform pair, any cutting of the byte stream; the exceptions are theorems of their own, two of them refutations. Timeouts and the index map are in Chan/Dock."
  },
  {
   "property": "C49",
   "status": "proved",
   "theorems": [
    "C49_proxy_local_and_remote",
    "C49_always_plain",
    "C49_never_plain",
    "C49_sized_integer_plain",
    "C49_interface_results",
    "C49_unknown_method_panics",
    "C49_same_value_refuted"
   ],
   "note": "Exact condition (plain) for the proxy to return the local value; otherwise it panics. The unrestricted statement is refuted by an int result."
  },
  {
   "property": "C50",
   "status": "proved",
   "theorems": [
    "C50_files_read",
    "C50_readable",
    "C50_signatures",
    "C50_forwards",
    "C50_registered",
    "C50_panics",
    "C50_nothing",
    "C50_every_interface_refuted",
    "C50_grouped_lost",
    "C50_returns_fit",
    "C50_compiles_refuted",
    "C50_names",
    "C50_case_clash"
   ],
   "note": "Proved for every directory of sources: the written text reads back as Go, tidy interfaces keep exactly their signatures, every method forwards its parameters and results in order, registrations match the interfaces. The exact conditions for panics, for skipped declarations, for lost grouped parameters, for returned defaults that do not compile and for clashing names are theorems; 'every interface gets a proxy' and 'the proxies compile' are refuted."
  },
  {
   "property": "C51",
   "status": "proved",
   "theorems": [
    "C51_delivery",
    "C51_whole",
    "C51_long_write_refuted",
    "C51_one_connection",
    "C51_private",
    "C51_addresses",
    "C51_dial",
    "C51_accept",
    "C51_dial_times_out_refuted",
    "C51_dial_returns",
    "C51_dial_offers",
    "C51_dial_reaches",
    "C51_after_reset",
    "C51_accept_succeeds",
    "C51_failed_dial_refuted",
    "C51_write",
    "C51_close",
    "C51_write_after_close",
    "C51_read",
    "C51_blocked_write",
    "C51_write_error",
    "C51_panic",
    "C51_no_panic_refuted"
   ],
   "note": "Delivery in order and exactly once, whole when the buffer is large enough; ends of connections unique; Dial/Accept meet by port; calls on open connections do their job. Long writes losing their tail, Dial without a listener never timing out, Dial failing for a connection the other side accepts, and the panics of Write/Close, Accept/Close and Accept after Close are refutation theorems. Local and remote addresses are not modelled."
  },
  {
   "property": "C52",
   "status": "proved",
   "theorems": [
    "C52_returned_call_ran_once",
    "C52_returned_values",
    "C52_request_transfer",
    "C52_response_transfer",
    "C52_shared_identifier_refuted",
    "C52_committed_calls_return",
    "C52_in_order",
    "C52_nothing_lost",
    "C52_hub_in_order",
    "C52_deliverable"
   ],
   "note": "Hub and docks of the earlier models composed, any number of docks, any pattern of connections, lossy first-in-first-out wires. Proved for docks whose calls have distinct identifiers (the clock in nanoseconds); the counterexample without is C52_shared_identifier_refuted. The codec and framing are instantiated through C52_request_transfer and C52_response_transfer; C52_committed_calls_return is the liveness half (quiescent states). Which peers are connected is a fixed parameter; it does not follow from the addresses dialled."
  },
  {
   "property": "C53",
   "status": "proved",
   "theorems": [
    "C53_close_while_receiving_safe_refuted",
    "C53_serial_close_safe",
    "C53_silent_after_close"
   ],
   "note": "Claim refuted; safe schedules characterised."
  },
  {
   "property": "C54",
   "status": "proved",
   "theorems": [
    "C54_on_closed_at_most_once",
    "C54_on_closed_after_close",
    "C54_remote_disconnect_unnoticed"
   ],
   "note": "Finding: remote disconnects are never reported."
  },
  {
   "property": "C55",
   "status": "proved",
   "theorems": [
    "C55_send_reaches_every_peer",
    "C55_close_closes_all",
    "C55_close_always_closes_refuted",
    "C55_leak_is_permanent"
   ],
   "note": "Slice access in Send/append is taken as atomic; the data race itself is not modelled."
  },
  {
   "property": "C56",
   "status": "proved",
   "theorems": [
    "C56_registration_complete",
    "C56_replies_own_ports",
    "C56_recorded_before_reply"
   ],
   "note": ""
  },
  {
   "property": "C57",
   "status": "proved",
   "theorems": [
    "C57_ready_marks_the_first_registration",
    "C57_marks_only_first_registrations",
    "C57_latest_registration_served_refuted"
   ],
   "note": "'The latest registration is served' is refuted."
  },
  {
   "property": "C58",
   "status": "proved",
   "theorems": [
    "C58_call_after_close_crashes"
   ],
   "note": "The property is false; proved for every such state."
  },
  {
   "property": "C59",
   "status": "proved",
   "theorems": [
    "C59_unreachable_address_ends_the_dock",
    "C59_ended_docks_do_nothing",
    "C59_ended_by_network_errors_only"
   ],
   "note": "The property is false; proved for every state."
  },
  {
   "property": "C60",
   "status": "proved",
   "theorems": [
    "C60_ready_wakes_every_pending_call"
   ],
   "note": ""
  },
  {
   "property": "C61",
   "status": "proved",
   "theorems": [
    "C61_handled_before_the_next",
    "C61_handled_when_idle",
    "C61_can_finish"
   ],
   "note": "handled (DockSpec.v) lists the effects per packet. Log.Fatal on a failed Listen/Dial is C59."
  },
  {
   "property": "C62",
   "status": "proved",
   "theorems": [
    "C62_answered_calls_return"
   ],
   "note": "Progress as: no enabled step of callbacks and caller implies returned; each has boundedly many steps."
  },
  {
   "property": "C63",
   "status": "proved",
   "theorems": [
    "C63_accessor_narrows",
    "C63_accessor_widens",
    "C63_parameter_narrows",
    "C63_parameter_widens",
    "C63_encoder_widens",
    "C63_nearest_unique"
   ],
   "note": "For all bit patterns; the nearest value is also shown unique. Rounding mode and NaN quieting are those of amd64/arm64 hardware as specified by IEEE-754."
  },
  {
   "property": "C64",
   "status": "proved",
   "theorems": [
    "C64_discovered_dock"
   ],
   "note": "The port in the address is the one listened on when the dock registered once on its connection to the hub, as OnConnected does. That the dock is still up is not claimed (refuted in C34)."
  },
  {
   "property": "C65",
   "status": "proved",
   "theorems": [
    "C65_delivers_in_order",
    "C65_sender_order",
    "C65_dropped_only_when_full",
    "C65_everything_arrives",
    "C65_progress",
    "C65_settles",
    "C65_read_error_ends",
    "C65_unencodable_ends"
   ],
   "note": "PeerSendModel, PeerRecvModel, the framing and the codec composed over a byte stream that keeps order and may break at any time. Packets are those of C22 (encodable, numbers of a size the receiver can represent). Liveness is progress plus termination of the inner steps."
  },
  {
   "property": "C66",
   "status": "proved",
   "theorems": [
    "C66_genuine",
    "C66_asked_once",
    "C66_reply_from_feature",
    "C66_remote_call",
    "C66_object_is_replay",
    "C66_one_at_a_time",
    "C66_real_time_order",
    "C66_error_means_not_executed_refuted",
    "C66_requests_answered",
    "C66_local_call",
    "C66_committed_call_returns",
    "C66_panic_ends_dock"
   ],
   "note": "SysModel and one ChanModel callee per feature composed (FullModel.v). Identifiers of calls are assumed distinct, as in C52 (shared ones are refuted there). Each callee has its own clock, and what methods do besides changing their object (calls they make) is arbitrary. The false reading 'an error means the call was not executed' is refuted by witness."
  },
  {
   "property": "C67",
   "status": "proved",
   "theorems": [
    "C67_stuck_forever",
    "C67_self_call",
    "C67_only_way",
    "C67_circle",
    "C67_layered",
    "C67_ends",
    "C67_answer"
   ],
   "note": "A family of ChanModel callees whose handlers make calls (NestModel.v). A method makes one call at a time and what it does does not depend on the answer; the way of a request to another dock takes any time, that of the response is part of the return. Each callee has its own clock. A panic in a method ends its callee, and C67_only_way, C67_circle, C67_layered, C67_ends are about runs without one."
  },
  {
   "property": "C68",
   "status": "proved",
   "theorems": [
    "C68_guarded",
    "C68_guarded_open",
    "C68_close_races",
    "C68_races",
    "C68_makers",
    "C68_mock_race",
    "C68_no_deadlock"
   ],
   "note": "RaceModel.v keeps only the accesses to shared memory and the mutexes around them; branches, loops and object choices are free, channels never block. That makes the race-freedom theorems stronger than needed; the races are shown by schedules whose choices the code can make. Objects handed over through channels and memory written before it is shared are left out; for sockets' peers and the mock network's connections races are shown with ferry.Close only and nothing is claimed without it."
  },
  {
   "property": "C69",
   "status": "proved",
   "theorems": [
    "C69_cut",
    "C69_short_packets_arrive",
    "C69_short_texts_arrive",
    "C69_long_packet_lost"
   ],
   "note": "Composition of MockModel.v (C51) with the receive routine of PeerRecvModel.v; that a conn is written by one send routine and read by one receive routine is a hypothesis (peer_writes, peer_reads)."
  },
  {
   "property": "C70",
   "status": "proved",
   "theorems": [
    "C70_serializer",
    "C70_chosen_unique",
    "C70_early_txt_ignored",
    "C70_connections",
    "C70_fixed",
    "C70_no_panic",
    "C70_nil_serializer",
    "C70_exits",
    "C70_no_sink",
    "C70_opens"
   ],
   "note": "The tables of package network and the sockets made from them, one step at a time (NetModel.v); simultaneous use of the tables is in C68, closing in C53-C55, the mock network itself in C51. C70_no_panic assumes that a name is registered before a socket is made under it, which hub.go:139-141 and dock.go:200-202 do."
  },
  {
   "property": "C71",
   "status": "proved",
   "theorems": [
    "C71_networks_are_systems",
    "C71_ports_have_one_owner",
    "C71_dials_reach_the_right_dock",
    "C71_every_call_answered",
    "C71_full_queue_refuted"
   ],
   "note": "One hub. A dock is reached at the address its hub connection comes from (pickIP, no address translation). nothing_lost, healthy and settled are in WorldSpec.v; settled leaves out the polling for queries no dock can answer. That a network can always settle is not claimed here."
  },
  {
   "property": "C72",
   "status": "proved",
   "theorems": [
    "C72_bytes_to_packets",
    "C72_returned_call_ran_once",
    "C72_committed_calls_return",
    "C72_routines_go_on",
    "C72_queues"
   ],
   "note": "Messages are assumed to be Go values of their fields' types whose frames are shorter than 2^31 (2^63) bytes for the receiver (legitimate, ByteSpec.v). Which peer is connected to which is a parameter as in C52. One process per dock. Send is one step (its check and its channel send apart: C24, C65)."
  },
  {
   "property": "C73",
   "status": "proved",
   "theorems": [
    "C73_bytes_to_networks",
    "C73_returned_call_ran_once",
    "C73_dials_reach_the_right_dock",
    "C73_every_call_answered"
   ],
   "note": "Assumptions on messages as in C72; one process per dock. The connection to the hub is there before it is dialled, nothing is handed to it until then. A connection not accepted yet takes bytes and gives none."
  },
  {
   "property": "C74",
   "status": "proved",
   "theorems": [
    "C74_calls_return",
    "C74_unfair_refuted"
   ],
   "note": "fair: weak fairness per goroutine and per connection end; undisturbed: no loss, healthy at every moment; ranges_end: each range over d.rpcs ends (LiveSpec.v). carry total: every value can be encoded."
  },
  {
   "property": "C75",
   "status": "proved",
   "theorems": [
    "C75_one_dial_per_query",
    "C75_dials_end",
    "C75_bounded_by_calls_refuted"
   ],
   "note": "'A bounded number of connections per call' is refuted with any number of connections for one call; the two bounds that hold are proved. Assumptions of C75_dials_end as in C74."
  },
  {
   "property": "C76",
   "status": "proved",
   "theorems": [
    "C76_calls_return",
    "C76_stalled_send_routine_refuted"
   ],
   "note": "ffair: weak fairness per goroutine (FleetLiveSpec.v); nothing is assumed of the network but that bytes written can be read. fundisturbed: no process or routine ends, no full queue, healthy at every moment; franges_end as in C74."
  },
  {
   "property": "C77",
   "status": "proved",
   "theorems": [
    "C77_calls_return",
    "C77_started_calls_return",
    "C77_timeout_frees_queue_refuted"
   ],
   "note": "Fairness (ChanLiveSpec.v): weak for methods, handler, timers and receivers (goes_on), strong for senders at the full queue (turns; Go serves blocked senders in order). The last sentence of the property: C77_timeout_frees_queue_refuted."
  },
  {
   "property": "C78",
   "status": "proved",
   "theorems": [
    "C78_genuine",
    "C78_asked_once",
    "C78_remote_call",
    "C78_object",
    "C78_one_at_a_time",
    "C78_real_time",
    "C78_calls_return",
    "C78_local_calls_return"
   ],
   "note": "HarborModel.v joins FleetModel.v and ChanModel.v. Fairness (HarborSpec.v): weak per goroutine (hfair; a method being executed ends), strong for senders at a feature's full queue (hturns). C78_calls_return assumes further hno_panic and, as C76, fundisturbed, flegitimate and franges_end; C78_local_calls_return only that the dock's process runs on."
  },
  {
   "property": "C79",
   "status": "proved",
   "theorems": [
    "C79_ended_for_good",
    "C79_panic_ends_process",
    "C79_unfinished_calls_hang",
    "C79_cached_calls_hang",
    "C79_dials_in_vain",
    "C79_diallers_end"
   ],
   "note": "over (HarborSpec.v): the dock's process has ended. Legitimate messages and pairwise different rpc indexes at the caller are assumed where calls are spoken of, as in C73; C79_diallers_end assumes weak fairness (hfair)."
  },
  {
   "property": "C80",
   "status": "proved",
   "theorems": [
    "C80_hub_ended_for_good",
    "C80_connections_final",
    "C80_undiscovered_calls_hang"
   ],
   "note": "hub_over, cut_off (HarborSpec.v): the hub's process has ended; and nothing of it is under way. Legitimate messages, and pairwise different rpc indexes at the caller for the calls, are assumed as in C73."
  },
  {
   "property": "C81",
   "status": "proved",
   "theorems": [
    "C81_in_table_until_response",
    "C81_table_at_rest",
    "C81_bounded_refuted",
    "C81_returned_calls_go"
   ],
   "note": "That the table is bounded is refuted for every bound (C81_bounded_refuted). Pairwise different rpc indexes are assumed; C81_returned_calls_go assumes weak fairness (hfair)."
  },
  {
   "property": "C82",
   "status": "proved",
   "theorems": [
    "C82_committed_calls_return",
    "C82_known_calls_return",
    "C82_local_calls_return"
   ],
   "note": "Assumes fairness only for the goroutines of the docks named (going_on); a dock that dials a process that has ended exits (C79), which going_on excludes for these docks. Messages handed to Send are assumed legitimate (flegitimate) throughout the network."
  },
  {
   "property": "C83",
   "status": "proved",
   "theorems": [
    "C83_features",
    "C83_embedding",
    "C83_table",
    "C83_other_names",
    "C83_life_cycle_calls",
    "C83_carried_values",
    "C83_decoded_values",
    "C83_no_result",
    "C83_request_ends_process",
    "C83_local_call_ends_process",
    "C83_call_ends_process"
   ],
   "note": "\"Does not go on for ever\" is the negation of \"is over at no moment\" (will_end), without a classical axiom. Names are compared as ASCII as far as their first letter goes; methods with a variable number of parameters are not modelled. The last theorem assumes that the messages handed to Send are legitimate and that the called dock does not close its features."
  },
  {
   "property": "C84",
   "status": "proved",
   "theorems": [
    "C84_runs",
    "C84_entered",
    "C84_one_at_a_time",
    "C84_waits",
    "C84_waits_own",
    "C84_uncarried",
    "C84_goes_on",
    "C84_every_feature",
    "C84_endless",
    "C84_wakes",
    "C84_wakes_own",
    "C84_methods_after_start_refuted",
    "C84_methods_apart_from_start_refuted",
    "C84_start_before_destroy_refuted",
    "C84_own_calls_end",
    "C84_known_calls_end"
   ],
   "note": "Legitimate messages and pairwise different rpc indexes at the dock are assumed, as in C73, in C84_uncarried only. What OnStart and OnDestroy do besides calling features is left out; goroutines they start are calls like any other. Three statements one might expect (methods run after OnStart, not during it; OnDestroy after OnStart) are refuted."
  }
 ]
}