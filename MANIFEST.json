{
 "claims": [
  {
   "property": "C01",
   "status": "proved",
   "theorems": [
    "C01_frame_roundtrip",
    "C01_encode_succeeds",
    "C01_overflow_boundary"
   ],
   "note": "Frame round-trip"
  },
  {
   "property": "C02",
   "status": "proved",
   "theorems": [
    "C02_segmentation_irrelevant",
    "C02_stream_reassembly",
    "C02_complete_stream"
   ],
   "note": "Stream reassembly under any segmentation"
  },
  {
   "property": "C03",
   "status": "proved",
   "theorems": [
    "C03_truncated_stream"
   ],
   "note": "Truncated stream is reported, never delivered"
  },
  {
   "property": "C04",
   "status": "proved",
   "theorems": [
    "C04_frames_valid",
    "C04_oversized_refused"
   ],
   "note": "Sent frames obey the Pulsar wire format and carry a valid CRC-32C"
  },
  {
   "property": "C05",
   "status": "proved",
   "theorems": [
    "C05_checksum_ignored",
    "C05_corruption_delivered"
   ],
   "note": "Incoming checksums and magic numbers are not verified"
  },
  {
   "property": "C06",
   "status": "proved",
   "theorems": [
    "C06_crash_iff",
    "C06_wait_iff",
    "C06_got_removes_one_frame"
   ],
   "note": "Exact set of incoming bytes that crash the decoder"
  },
  {
   "property": "C07",
   "status": "proved",
   "theorems": [
    "C07_roundtrip",
    "C07_parsed_is_well_typed"
   ],
   "note": "Protobuf encoding round-trip"
  },
  {
   "property": "C08",
   "status": "proved",
   "theorems": [
    "C08_size_exact",
    "C08_nested_size_exact"
   ],
   "note": "Declared sizes equal written bytes"
  },
  {
   "property": "C09",
   "status": "proved",
   "theorems": [
    "C09_parse_same",
    "C09_events_same",
    "C09_unknown_field",
    "C09_reordered"
   ],
   "note": "Unknown or reordered protobuf fields do not change what is read"
  },
  {
   "property": "C10",
   "status": "proved",
   "theorems": [
    "C10_requests_reach_the_wire",
    "C10_panic_iff_empty_ack",
    "C10_auth_response_mislabelled"
   ],
   "note": "Every request reaches the wire as the command it denotes"
  },
  {
   "property": "C11",
   "status": "proved",
   "theorems": [
    "C11_event_iff",
    "C11_unsupported_iff",
    "C11_panic_iff",
    "C11_other_errors",
    "C11_broker_errors_unsupported"
   ],
   "note": "Incoming commands are classified by type and carry their fields"
  },
  {
   "property": "C12",
   "status": "proved",
   "theorems": [
    "C12_ack_error_ignored",
    "C12_producer_not_ready_ignored"
   ],
   "note": "Broker-reported errors inside responses are ignored"
  },
  {
   "property": "C13",
   "status": "proved",
   "theorems": [
    "C13_batch_roundtrip"
   ],
   "note": "Batch payload round-trip"
  },
  {
   "property": "C14",
   "status": "proved",
   "theorems": [
    "C14_batch_of_one",
    "C14_batch_of_none"
   ],
   "note": "Batches of zero or one message are not delivered as sent"
  },
  {
   "property": "C15",
   "status": "proved",
   "theorems": [
    "C15_all_or_nothing",
    "C15_never_past_the_end",
    "C15_trailing_bytes_ignored"
   ],
   "note": "Malformed batches are all-or-nothing"
  },
  {
   "property": "C16",
   "status": "proved",
   "theorems": [
    "C16_single_ack",
    "C16_single_roundtrip"
   ],
   "note": "Single message payload integrity end to end"
  },
  {
   "property": "C17",
   "status": "proved",
   "theorems": [
    "C17_unpack_iff",
    "C17_batch_ack_ids",
    "C17_one_batch_index",
    "C17_batch_acks_distinct",
    "C17_parsed_batches_small",
    "C17_ack_is_sendable"
   ],
   "note": "Acknowledgement ids of a batch"
  },
  {
   "property": "C18",
   "status": "proved",
   "theorems": [
    "C18_request_numbers",
    "C18_sequence_numbers",
    "C18_queued_unique"
   ],
   "note": "Request and sequence numbers are unique"
  },
  {
   "property": "C19",
   "status": "proved",
   "theorems": [
    "C19_sends_in_order",
    "C19_overlap_can_invert"
   ],
   "note": "Wire order of sends"
  },
  {
   "property": "C20",
   "status": "proved",
   "theorems": [
    "C20_consumer_handshake",
    "C20_producer_handshake",
    "C20_consumer_order",
    "C20_consumer_result",
    "C20_second_lookup_unchecked"
   ],
   "note": "Handshake order"
  },
  {
   "property": "C21",
   "status": "proved",
   "theorems": [
    "C21_connect_direct",
    "C21_connect_proxied",
    "C21_failed",
    "C21_redirect_panics",
    "C21_unknown_type_panics"
   ],
   "note": "Lookup decision"
  },
  {
   "property": "C22",
   "status": "proved",
   "theorems": [
    "C22_caller_gets_the_answer",
    "C22_match_iff_answers",
    "C22_resolved_converts",
    "C22_deliveries_never_resolve"
   ],
   "note": "A resolved request always converts"
  },
  {
   "property": "C23",
   "status": "proved",
   "theorems": [
    "C23_key_iff_kind"
   ],
   "note": "Correlation keys"
  },
  {
   "property": "C24",
   "status": "proved",
   "theorems": [
    "C24_send",
    "C24_send_batch",
    "C24_ack",
    "C24_send_all",
    "C24_ack_all",
    "C24_send_all_hides_failure"
   ],
   "note": "Producer send reports the broker's answer"
  },
  {
   "property": "C25",
   "status": "proved",
   "theorems": [
    "C25_exactly_once_in_order",
    "C25_one_message_per_call",
    "C25_next_call_returns_next"
   ],
   "note": "In-order exactly-once delivery by next_message"
  },
  {
   "property": "C26",
   "status": "proved",
   "theorems": [
    "C26_entry_sizes",
    "C26_panic_only_from_undecodable_batch",
    "C26_undecodable_batch_panics",
    "C26_undecodable_single_fails"
   ],
   "note": "next_message never panics on well-formed deliveries"
  },
  {
   "property": "C27",
   "status": "proved",
   "theorems": [
    "C27_at_most_n",
    "C27_from_buffer",
    "C27_from_buffer_and_entry"
   ],
   "note": "next_batch size, order and loss"
  },
  {
   "property": "C28",
   "status": "proved",
   "theorems": [
    "C28_always_a_window_ahead",
    "C28_permits_when_waiting",
    "C28_surplus_unbounded",
    "C28_undecodable_never_counted"
   ],
   "note": "Flow permits on single-message traffic"
  },
  {
   "property": "C29",
   "status": "proved",
   "theorems": [
    "C29_no_grants_below_window_entries",
    "C29_stalled_forever",
    "C29_stall_reached"
   ],
   "note": "Flow permits on batched traffic"
  },
  {
   "property": "C30",
   "status": "proved",
   "theorems": [
    "C30_exact_without_overlap",
    "C30_refilled_before_waiting",
    "C30_double_grant_everywhere",
    "C30_double_grant_reached",
    "C30_lost_count_reached"
   ],
   "note": "Concurrent permit accounting"
  },
  {
   "property": "C31",
   "status": "proved",
   "theorems": [
    "C31_waiting_calls_can_be_dropped",
    "C31_dropped_next_message_loses_nothing",
    "C31_dropped_next_batch_loses_taken",
    "C31_failed_next_batch_loses_taken"
   ],
   "note": "Cancellation safety"
  },
  {
   "property": "C32",
   "status": "proved",
   "theorems": [
    "C32_every_plugin_every_message",
    "C32_first_plugin_error",
    "C32_receive_error",
    "C32_returns_only_on_failure",
    "C32_only_on_message",
    "C32_plugins_see_the_stream"
   ],
   "note": "Plugin dispatch"
  },
  {
   "property": "C33",
   "status": "proved",
   "theorems": [
    "C33_no_internal_failure",
    "C33_assigned_connection",
    "C33_distinct_ids",
    "C33_has_connection",
    "C33_clients_need_connections"
   ],
   "note": "Engine bookkeeping never breaks"
  },
  {
   "property": "C34",
   "status": "proved",
   "theorems": [
    "C34_at_most_once",
    "C34_answer_of_its_kind",
    "C34_events_used_once",
    "C34_stale_answer_credited"
   ],
   "note": "A request resolves at most once and only by a response of its own kind"
  },
  {
   "property": "C35",
   "status": "proved",
   "theorems": [
    "C35_one_kind",
    "C35_answers_go_to_their_request"
   ],
   "note": "Requests with distinct keys do not interfere"
  },
  {
   "property": "C36",
   "status": "proved",
   "theorems": [
    "C36_overwrite",
    "C36_answer_goes_to_the_one_in_flight",
    "C36_one_per_kind",
    "C36_two_acks",
    "C36_two_lookups",
    "C36_two_producers"
   ],
   "note": "Requests with equal keys are cross-wired"
  },
  {
   "property": "C37",
   "status": "proved",
   "theorems": [
    "C37_connects_never_cancelled",
    "C37_one_connect_at_a_time"
   ],
   "note": "Connects are serialised"
  },
  {
   "property": "C38",
   "status": "proved",
   "theorems": [
    "C38_received_in_order",
    "C38_taken_in_order",
    "C38_exactly_the_addressed",
    "C38_stream",
    "C38_starts_empty",
    "C38_no_one_else"
   ],
   "note": "Messages reach only and exactly the addressed consumer, in order"
  },
  {
   "property": "C39",
   "status": "proved",
   "theorems": [
    "C39_wire_order",
    "C39_nothing_lost",
    "C39_commands_unchanged",
    "C39_assigned_broker"
   ],
   "note": "Commands of one client reach the wire in issue order"
  },
  {
   "property": "C40",
   "status": "proved",
   "theorems": [
    "C40_ping_pong",
    "C40_ping_then_pong",
    "C40_pong_after_ping",
    "C40_no_more_pongs",
    "C40_engine_writes_pongs",
    "C40_no_client_sees_it",
    "C40_pings_wait",
    "C40_not_enabled"
   ],
   "note": "Keep-alive"
  },
  {
   "property": "C41",
   "status": "proved",
   "theorems": [
    "C41_taken_requests_complete",
    "C41_in_flight_cancelled",
    "C41_later_calls_refused",
    "C41_queued_events_readable",
    "C41_untaken_never_completes"
   ],
   "note": "Engine termination releases registered requests"
  },
  {
   "property": "C42",
   "status": "proved",
   "theorems": [
    "C42_dropped_client_ends_engine",
    "C42_lost_connection_ends_engine",
    "C42_lost_connection_accepts_nothing",
    "C42_failed_dial_ends_engine",
    "C42_failed_auth_ends_engine",
    "C42_end_is_final"
   ],
   "note": "Faults are not isolated"
  },
  {
   "property": "C43",
   "status": "proved",
   "theorems": [
    "C43_errors_change_nothing",
    "C43_stays_in_flight"
   ],
   "note": "Broker errors leave requests pending"
  },
  {
   "property": "C44",
   "status": "proved",
   "theorems": [
    "C44_registration_routable",
    "C44_confirmed_is_routable",
    "C44_confirmations_bounded",
    "C44_overlapping_confirmed_early",
    "C44_manager_drop_invisible",
    "C44_manager_drop_after_end",
    "C44_cancelled_registration_ends_engine"
   ],
   "note": "Registration"
  },
  {
   "property": "C45",
   "status": "proved",
   "theorems": [
    "C45_one_connection_per_address",
    "C45_no_dial_after_success",
    "C45_dialled_once",
    "C45_connections_are_dialled"
   ],
   "note": "One connection per broker address"
  },
  {
   "property": "C46",
   "status": "proved",
   "theorems": [
    "C46_proxied_connect",
    "C46_assignment",
    "C46_proxied_connect_moves_caller",
    "C46_only_own_proxied_connects_move",
    "C46_plain_connect_stays"
   ],
   "note": "Proxied clients are moved, others are not"
  },
  {
   "property": "C47",
   "status": "proved",
   "theorems": [
    "C47_fetch_iff_no_valid_token",
    "C47_failed_request_keeps_token",
    "C47_fetch_excludes_others",
    "C47_one_fetch_serves_all"
   ],
   "note": "Token caching"
  },
  {
   "property": "C48",
   "status": "proved",
   "theorems": [
    "C48_expired_token_served"
   ],
   "note": "Computed expiry is later than the server's"
  },
  {
   "property": "C49",
   "status": "proved",
   "theorems": [
    "C49_credentials",
    "C49_in_the_frame"
   ],
   "note": "Every connect carries the plugin's credentials"
  },
  {
   "property": "C50",
   "status": "proved",
   "theorems": [
    "C50_direct_tls",
    "C50_config_agrees",
    "C50_proxied_tls"
   ],
   "note": "TLS selection"
  },
  {
   "property": "C51",
   "status": "proved",
   "theorems": [
    "C51_disconnect_kinds",
    "C51_render_injective"
   ],
   "note": "Error classification and rendering"
  },
  {
   "property": "C52",
   "status": "proved",
   "theorems": [
    "C52_crosswise_fifo",
    "C52_receive",
    "C52_send"
   ],
   "note": "Channel pairs are cross-wired FIFO"
  },
  {
   "property": "C53",
   "status": "proved",
   "theorems": [
    "C53_burst_changes_checksum",
    "C53_corruption_refused"
   ],
   "note": "Corruption of a sent payload is detected"
  },
  {
   "property": "C54",
   "status": "proved",
   "theorems": [
    "C54_engine_hangs",
    "C54_otherwise_it_completes",
    "C54_hang_reachable"
   ],
   "note": "A connection lost before it takes a queued connect hangs the engine"
  },
  {
   "property": "C55",
   "status": "proved",
   "theorems": [
    "C55_queue_can_be_written_out",
    "C55_then_ends_after_the_engine",
    "C55_ends_for_a_reason",
    "C55_end_is_final",
    "C55_an_event_loses_the_queue"
   ],
   "note": "Connections write out their queue and end only for a reason"
  },
  {
   "property": "C56",
   "status": "proved",
   "theorems": [
    "C56_never_answered",
    "C56_only_passed_on"
   ],
   "note": "Authentication challenges are never answered"
  },
  {
   "property": "C57",
   "status": "proved",
   "theorems": [
    "C57_failed_dial",
    "C57_failed_authentication"
   ],
   "note": "The cause of a failed dial or authentication reaches no caller"
  },
  {
   "property": "C58",
   "status": "proved",
   "theorems": [
    "C58_request_can_be_written",
    "C58_connect_can_complete",
    "C58_message_can_be_received",
    "C58_answer_can_be_taken"
   ],
   "note": "Progress needs nobody but the engine, the connection and those polled earlier"
  },
  {
   "property": "C59",
   "status": "proved",
   "theorems": [
    "C59_consumer_stack",
    "C59_from_registration"
   ],
   "note": "From the broker's bytes to next_message, exactly once and in order"
  },
  {
   "property": "C60",
   "status": "proved",
   "theorems": [
    "C60_wire_bytes",
    "C60_producer_stack"
   ],
   "note": "From send to the bytes on the wire, in order"
  },
  {
   "property": "C61",
   "status": "proved",
   "theorems": [
    "C61_ack_names_the_delivery",
    "C61_ack_determines_the_message"
   ],
   "note": "Acknowledging a returned message acknowledges the entry the broker delivered"
  },
  {
   "property": "C62",
   "status": "proved",
   "theorems": [
    "C62_lookup_done_or_proxied",
    "C62_proxied_connection_not_recognised"
   ],
   "note": "When a lookup goes through the proxy"
  },
  {
   "property": "C63",
   "status": "proved",
   "theorems": [
    "C63_calls_end",
    "C63_some_call_goes_on",
    "C63_all_calls_return",
    "C63_then_every_call_fails",
    "C63_delivered_messages_lost",
    "C63_loss_reached"
   ],
   "note": "A consumer after the engine has ended"
  },
  {
   "property": "C64",
   "status": "proved",
   "theorems": [
    "C64_configured_target",
    "C64_scheme_needed",
    "C64_left_to_the_parser",
    "C64_only_the_configured_target"
   ],
   "note": "Connections go only to the configured host and port"
  },
  {
   "property": "C65",
   "status": "proved",
   "theorems": [
    "C65_request",
    "C65_plain_ascii",
    "C65_scopes",
    "C65_injective"
   ],
   "note": "The token request carries exactly the configured credentials"
  },
  {
   "property": "C66",
   "status": "proved",
   "theorems": [
    "C66_answered_send_succeeds",
    "C66_ok_means_read",
    "C66_read_once",
    "C66_one_producer",
    "C66_needs_distinct_numbers"
   ],
   "note": "A send that succeeds was read by the broker, once"
  },
  {
   "property": "C67",
   "status": "proved",
   "theorems": [
    "C67_consumer_missing",
    "C67_consumer_uses_last",
    "C67_consumer_name_not_sent",
    "C67_producer_missing",
    "C67_producer_uses_last",
    "C67_pulsar_builder"
   ],
   "note": "The builders use the last value given of each kind"
  },
  {
   "property": "C68",
   "status": "proved",
   "theorems": [
    "C68_route",
    "C68_written_where",
    "C68_built_consumer",
    "C68_built_producer",
    "C68_stays"
   ],
   "note": "Where a client's requests go depends on that client alone"
  },
  {
   "property": "C69",
   "status": "proved",
   "theorems": [
    "C69_all_delivered",
    "C69_built_consumer_returns_all"
   ],
   "note": "A built consumer returns exactly the messages of its subscription"
  },
  {
   "property": "C70",
   "status": "proved",
   "theorems": [
    "C70_broker_reads_sends"
   ],
   "note": "The broker reads exactly the sends of a producer, in order"
  },
  {
   "property": "C71",
   "status": "proved",
   "theorems": [
    "C71_gets_what_is_owed",
    "C71_stray_reaches_its_client",
    "C71_received_was_for_it"
   ],
   "note": "A client receives exactly the events that are for it"
  },
  {
   "property": "C72",
   "status": "proved",
   "theorems": [
    "C72_parses_the_grammar",
    "C72_unambiguous",
    "C72_written_in_grammar",
    "C72_delivered_iff",
    "C72_crash_iff"
   ],
   "note": "What is accepted from the network, as a grammar"
  },
  {
   "property": "C73",
   "status": "proved",
   "theorems": [
    "C73_connection_gone",
    "C73_ends_for_a_reason",
    "C73_stays_up",
    "C73_writing_breaks_nothing",
    "C73_unused_engine_ends"
   ],
   "note": "The engine ends only for a stated cause"
  },
  {
   "property": "C74",
   "status": "proved",
   "theorems": [
    "C74_whole_commands_in_order",
    "C74_failing_for_good",
    "C74_lost_behind_a_backlog",
    "C74_success_means_out",
    "C74_working_transport",
    "C74_reported_success_is_out",
    "C74_silent_loss"
   ],
   "note": "Whole commands in order, whatever the transport does"
  },
  {
   "property": "C75",
   "status": "proved",
   "theorems": [
    "C75_broker_reads_client",
    "C75_consumer_reads",
    "C75_acks_of_deliveries"
   ],
   "note": "What the brokers read of one client"
  },
  {
   "property": "C76",
   "status": "proved",
   "theorems": [
    "C76_waits_for_earlier_clients_only",
    "C76_dropped_client_blocks_later",
    "C76_waits_for_earlier_connections_only",
    "C76_lost_connection_blocks_later",
    "C76_no_bound_on_earlier_clients",
    "C76_some_client_can_be_served",
    "C76_some_connection_can_be_read"
   ],
   "note": "Clients are served in the order of their registration"
  },
  {
   "property": "C77",
   "status": "proved",
   "theorems": [
    "C77_completed_means_read",
    "C77_acknowledged",
    "C77_built_consumer",
    "C77_built_producer",
    "C77_needs_no_collision"
   ],
   "note": "A request that completes was read by the broker that answered"
  },
  {
   "property": "C78",
   "status": "proved",
   "theorems": [
    "C78_alone",
    "C78_loop_acknowledges",
    "C78_loop_sends"
   ],
   "note": "Loops that wait for each acknowledgement or send"
  },
  {
   "property": "C79",
   "status": "proved",
   "theorems": [
    "C79_send_all",
    "C79_ack_all",
    "C79_ack_all_unread"
   ],
   "note": "What send_all and ack_all say when they return"
  },
  {
   "property": "C80",
   "status": "proved",
   "theorems": [
    "C80_no_grants_below_window",
    "C80_broker_reads_permits",
    "C80_stalls",
    "C80_permits_left",
    "C80_no_stall"
   ],
   "note": "Permits between a consumer and its broker"
  },
  {
   "property": "C81",
   "status": "proved",
   "theorems": [
    "C81_only_these_commands",
    "C81_handshake_first",
    "C81_connect_is_first",
    "C81_dropped_says_no_more"
   ],
   "note": "Only eight kinds of command are ever sent, and none before the handshake"
  },
  {
   "property": "C82",
   "status": "proved",
   "theorems": [
    "C82_comes_to_rest",
    "C82_spins",
    "C82_can_come_to_rest",
    "C82_at_rest",
    "C82_all_written",
    "C82_only_waits_for_its_answer",
    "C82_all_complete",
    "C82_messages_delivered",
    "C82_dropped_ends"
   ],
   "note": "Left alone, an instance comes to rest, and then everything handed to it has been passed on"
  },
  {
   "property": "C83",
   "status": "proved",
   "theorems": [
    "C83_only_when_asked",
    "C83_nothing_unasked"
   ],
   "note": "Nothing is acknowledged that the application did not ask to be"
  },
  {
   "property": "C84",
   "status": "proved",
   "theorems": [
    "C84_no_connect_left",
    "C84_every_call_completes",
    "C84_program_returns",
    "C84_consumer_built",
    "C84_producer_built"
   ],
   "note": "When the brokers answer what they are sent, every call returns"
  },
  {
   "property": "C85",
   "status": "proved",
   "theorems": [
    "C85_can_always_finish"
   ],
   "note": "As long as nothing has failed, every call can still return"
  },
  {
   "property": "C86",
   "status": "proved",
   "theorems": [
    "C86_program_can_finish",
    "C86_consumer_can_be_built",
    "C86_producer_can_send"
   ],
   "note": "Any program of calls can be run to its end as long as nothing has failed"
  },
  {
   "property": "C87",
   "status": "proved",
   "theorems": [
    "C87_calls_at_once",
    "C87_send_all"
   ],
   "note": "Calls of different kinds made at once are all answered, each by its own answer"
  },
  {
   "property": "C88",
   "status": "proved",
   "theorems": [
    "C88_everything_received",
    "C88_messages_received",
    "C88_all_returned"
   ],
   "note": "As long as nothing has failed, everything that has arrived can be received"
  },
  {
   "property": "C89",
   "status": "proved",
   "theorems": [
    "C89_all_programs_can_end",
    "C89_builds_and_sends_can_end"
   ],
   "note": "As long as nothing has failed, all programs under way can be run to their ends"
  },
  {
   "property": "C90",
   "status": "proved",
   "theorems": [
    "C90_pings_answered_at_rest",
    "C90_every_ping_answered"
   ],
   "note": "Every ping gets its pong"
  }
 ]
}