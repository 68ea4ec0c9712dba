{
 "claims": [
  {
   "property": "C01",
   "status": "proved",
   "theorems": [
    "C01_iobuffer_fifo",
    "C01_consume_exact"
   ],
   "note": ""
  },
  {
   "property": "C02",
   "status": "proved",
   "theorems": [
    "C02_iobuffer_in_bounds",
    "C02_reserve"
   ],
   "note": ""
  },
  {
   "property": "C03",
   "status": "proved",
   "theorems": [
    "C03_line_lossless",
    "C03_line_in_order",
    "C03_sent_lines_arrive"
   ],
   "note": ""
  },
  {
   "property": "C04",
   "status": "partial",
   "theorems": [
    "C04_line_prompt_refuted",
    "C04_line_prompt_partial"
   ],
   "note": "The full statement is false of the code (OnDataReceived delivers at most one line per read event): refuted with a witness; promptness proved when each read event completes at most one line."
  },
  {
   "property": "C05",
   "status": "proved",
   "theorems": [
    "C05_encode_is_wire",
    "C05_raw_round_trip",
    "C05_raw_server_round_trip",
    "C05_response_matches_request"
   ],
   "note": ""
  },
  {
   "property": "C06",
   "status": "partial",
   "theorems": [
    "C06_hostile_size_refuted",
    "C06_raw_no_overread",
    "C06_raw_survives_partial"
   ],
   "note": "Refuted: a size field in [2^64-24,2^64) makes frame_size() wrap and std::string::append throw (process terminates). Proved for all input: no read outside the received bytes; and survival when no size field wraps."
  },
  {
   "property": "C07",
   "status": "proved",
   "theorems": [
    "C07_ws_chunk_independent"
   ],
   "note": ""
  },
  {
   "property": "C08",
   "status": "proved",
   "theorems": [
    "C08_ws_round_trip",
    "C08_ws_flags",
    "C08_ws_size"
   ],
   "note": ""
  },
  {
   "property": "C09",
   "status": "proved",
   "theorems": [
    "C09_mask_piecewise",
    "C09_mask_involution",
    "C09_mask_spec"
   ],
   "note": ""
  },
  {
   "property": "C10",
   "status": "partial",
   "theorems": [
    "C10_interleaved_refuted",
    "C10_reassembly_partial",
    "C10_close"
   ],
   "note": "Refuted: a control frame between fragments takes over the partial message (OnFrameBegin reuses current_). Proved for messages not interrupted by control frames."
  },
  {
   "property": "C11",
   "status": "proved",
   "theorems": [
    "C11_resp_chunk_independent"
   ],
   "note": ""
  },
  {
   "property": "C12",
   "status": "proved",
   "theorems": [
    "C12_decode_wire",
    "C12_stream_round_trip",
    "C12_command_is_array_of_bulks",
    "C12_numbers_are_decimal"
   ],
   "note": ""
  },
  {
   "property": "C13",
   "status": "partial",
   "theorems": [
    "C13_queued_request_lost_refuted",
    "C13_sequential_requests_partial"
   ],
   "note": "Refuted: a request queued behind another is sent inside the completion callback and OnDataReceived then zeroes next_incoming_count_, so it never completes. Proved for requests submitted one after the other completed."
  },
  {
   "property": "C14",
   "status": "proved",
   "theorems": [
    "C14_base64_round_trip",
    "C14_base64_shape",
    "C14_base64_decode_rfc"
   ],
   "note": ""
  },
  {
   "property": "C15",
   "status": "partial",
   "theorems": [
    "C15_unpadded_overflow_refuted",
    "C15_multiple_of_four_partial"
   ],
   "note": "Refuted: for lengths not a multiple of four the output is too small (n/4*3). Proved for every text whose length is a multiple of four."
  },
  {
   "property": "C16",
   "status": "proved",
   "theorems": [
    "C16_round_trip",
    "C16_big_endian_in_memory",
    "C16_little_endian_in_memory"
   ],
   "note": ""
  },
  {
   "property": "C17",
   "status": "proved",
   "theorems": [
    "C17_never_early",
    "C17_one_shot_never_early"
   ],
   "note": ""
  },
  {
   "property": "C18",
   "status": "proved",
   "theorems": [
    "C18_operations_total",
    "C18_none_left_due",
    "C18_process_fires_exactly_once",
    "C18_drain_terminates"
   ],
   "note": ""
  },
  {
   "property": "C19",
   "status": "proved",
   "theorems": [
    "C19_sleep_bound",
    "C19_pump_wait"
   ],
   "note": ""
  },
  {
   "property": "C20",
   "status": "proved",
   "theorems": [
    "C20_removed_never_fires",
    "C20_removed_is_detached"
   ],
   "note": ""
  },
  {
   "property": "C21",
   "status": "proved",
   "theorems": [
    "C21_rearmed_at_next_multiple",
    "C21_phase_and_rate"
   ],
   "note": ""
  },
  {
   "property": "C22",
   "status": "proved",
   "theorems": [
    "C22_no_lost_wakeup",
    "C22_quiescent_means_readable",
    "C22_wakeup_runs_everything_queued",
    "C22_loop_never_stuck"
   ],
   "note": "Interleaving model under sequential consistency; the lock-free queue is modelled by its documented per-producer FIFO contract."
  },
  {
   "property": "C23",
   "status": "proved",
   "theorems": [
    "C23_exactly_once_in_order",
    "C23_in_loop_exactly_once_in_order",
    "C23_nested_all_run_before_sleep"
   ],
   "note": ""
  },
  {
   "property": "C24",
   "status": "partial",
   "theorems": [
    "C24_statement_refuted",
    "C24_accepted_while_running_partial",
    "C24_in_loop_tasks_all_run_partial"
   ],
   "note": "Refuted: a poster that passed CHECK(running_) can enqueue after the final drain; its task never runs. Proved: every task accepted while running_ was true runs before exit, and every task posted from inside the loop does."
  },
  {
   "property": "C25",
   "status": "proved",
   "theorems": [
    "C25_mutual_exclusion",
    "C25_fifo_handover",
    "C25_no_barging",
    "C25_never_free_while_waited",
    "C25_refused_only_while_held",
    "C25_blocked_is_tracked"
   ],
   "note": "Fine-grained interleaving model incl. the spin lock; a blocked lock() is assumed to be woken only by its own resumer (see C46)."
  },
  {
   "property": "C26",
   "status": "partial",
   "theorems": [
    "C26_statement_refuted",
    "C26_wait_is_complete_partial",
    "C26_no_lost_wakeup"
   ],
   "note": "Refuted: a counter that touches zero between two Adds posts a wakeup that ends a later Wait early. Proved when the counter does not touch zero before the last Add; no lost wakeup proved without that condition."
  },
  {
   "property": "C27",
   "status": "proved",
   "theorems": [
    "C27_wakes_only_suspended",
    "C27_wake_has_its_own_resumer",
    "C27_resume_not_lost",
    "C27_ready_once"
   ],
   "note": ""
  },
  {
   "property": "C28",
   "status": "proved",
   "theorems": [
    "C28_exactly_once",
    "C28_completed_after_timeout",
    "C28_never_aborts"
   ],
   "note": ""
  },
  {
   "property": "C29",
   "status": "partial",
   "theorems": [
    "C29_statement_refuted",
    "C29_fresh_id_tracked_partial"
   ],
   "note": "Refuted: in_progress_.insert keeps the first request; the second is tracked by nobody (websocket frames all have id 0). Proved: a request whose id is not in flight is tracked and gets its response."
  },
  {
   "property": "C30",
   "status": "partial",
   "theorems": [
    "C30_statement_refuted",
    "C30_every_first_send_is_undefined",
    "C30_exactly_once_in_order_partial",
    "C30_each_event_partial",
    "C30_always_a_timer_partial",
    "C30_close_partial"
   ],
   "note": "Refuted: TrySendNext uses a reference into the list element it has just popped (undefined behaviour on every first send). All of the property is proved under the assumption that the freed node still holds its bytes."
  },
  {
   "property": "C31",
   "status": "proved",
   "theorems": [
    "C31_in_order_no_loss",
    "C31_write_interest",
    "C31_return_value"
   ],
   "note": ""
  },
  {
   "property": "C32",
   "status": "proved",
   "theorems": [
    "C32_refines_recency_list",
    "C32_history"
   ],
   "note": ""
  },
  {
   "property": "C33",
   "status": "proved",
   "theorems": [
    "C33_no_false_negatives",
    "C33_sequential_exact"
   ],
   "note": ""
  },
  {
   "property": "C34",
   "status": "proved",
   "theorems": [
    "C34_exact",
    "C34_never_underestimates",
    "C34_never_underestimates_small",
    "C34_exact_when_separated",
    "C34_fresh",
    "C34_interleaving"
   ],
   "note": ""
  },
  {
   "property": "C35",
   "status": "partial",
   "theorems": [
    "C35_statement_refuted",
    "C35_maglev_complete_and_fair_partial",
    "C35_table_is_unique_partial"
   ],
   "note": "Full statement refuted: with the default ring size 65537 endpoints whose skip is 65536 make ring generation loop forever (next*skip wraps at 2^32). Proved: terminates, complete, fair and weight-proportional when ring^2 <= 2^32, or ring = 65537 and no endpoint has that skip."
  },
  {
   "property": "C36",
   "status": "partial",
   "theorems": [
    "C36_statement_refuted",
    "C36_lookup_is_first_clockwise_partial",
    "C36_insert_moves_only_to_new_node_partial",
    "C36_erase_moves_only_its_lookups_partial",
    "C36_ring_holds_the_live_nodes_partial",
    "C36_new_client_only_takes_keys_partial"
   ],
   "note": "Refuted when hashes collide: erasing a node removes another node with the same hash. Proved: lookup = first clockwise; insertion (also of a whole client) only moves lookups to the new node, even with collisions; erase moves only its own lookups when no other ring node has its hash."
  },
  {
   "property": "C37",
   "status": "partial",
   "theorems": [
    "C37_statement_refuted",
    "C37_each_client_once_partial",
    "C37_no_client_more_than_twice_partial",
    "C37_no_clients_is_undefined_partial"
   ],
   "note": "Refuted at the wrap of the 32 bit counter for n not a power of two. Proved: exactly once away from the wrap or when n divides 2^32; at most twice always."
  },
  {
   "property": "C38",
   "status": "proved",
   "theorems": [
    "C38_conjunction_id_is_lossless",
    "C38_entry_id_is_lossless",
    "C38_distinct_inputs_get_distinct_ids",
    "C38_entry_order"
   ],
   "note": "Round trip, injectivity and total order within the documented widths (documents strictly between -2^43 and 2^43, 8-bit index and size)."
  },
  {
   "property": "C39",
   "status": "proved",
   "theorems": [
    "C39_skip_to",
    "C39_skip",
    "C39_field_cursor_is_at_the_smallest_entry"
   ],
   "note": "EntriesCursor::SkipTo/Skip on every sorted list, and the whole field cursor (heap-free list of cursors) sits at the smallest entry not passed after any sequence of skips."
  },
  {
   "property": "C40",
   "status": "partial",
   "theorems": [
    "C40_statement_refuted",
    "C40_unknown_field_is_undefined_partial",
    "C40_retrieval_sound_and_complete_up_to_size_one_partial",
    "C40_exact_when_one_inclusion_partial"
   ],
   "note": "Refuted: for conjunctions with two or more inclusions Retrieve only looks at the first cursor's entry (the end id is computed from the same entry id), so it returns documents whose conjunction is not satisfied and misses others; a query on a field unknown to the index dereferences null (theorem). Proved: termination, and in any index soundness/completeness for conjunctions of at most one inclusion; exactness when no conjunction has more than one. Missing: exactness for larger conjunctions (false). Hash collisions excluded by hypothesis; std::sort and hash are parameters."
  },
  {
   "property": "C41",
   "status": "partial",
   "theorems": [
    "C41_ws_overread_refuted",
    "C41_ws_no_overread_partial"
   ],
   "note": "Refuted: an announced length near 2^64 wraps the pointer comparison. Proved for streams whose 8-byte windows are all below 2^63."
  },
  {
   "property": "C42",
   "status": "partial",
   "theorems": [
    "C42_dump_destroys_arrays_refuted",
    "C42_dump_keeps_scalars_partial"
   ],
   "note": "Refuted: DebugDump copies value.array() and copying a unique_array moves it out. Proved for responses without non-empty top level arrays."
  },
  {
   "property": "C43",
   "status": "partial",
   "theorems": [
    "C43_repeating_timer_fires_early_refuted",
    "C43_from_last_reading_partial"
   ],
   "note": "Refuted for repeating timers: their first deadline is counted from the pump's last clock reading (add_timer_internal passes a relative time), so a timer added after the loop was busy fires early. Proved: one-shot timers (C17_one_shot_never_early) and the bound relative to the last reading."
  },
  {
   "property": "C44",
   "status": "partial",
   "theorems": [
    "C44_statement_refuted",
    "C44_safe_until_quit_partial"
   ],
   "note": "Refuted: after the quit byte set running_=false a queued task that itself posts hits CHECK(running_). Proved: no abort until a quit is requested."
  },
  {
   "property": "C45",
   "status": "partial",
   "theorems": [
    "C45_statement_refuted",
    "C45_abort_needs_early_resume_partial"
   ],
   "note": "Refuted: resumer invoked before the coroutine suspends, coroutine then exits: CHECK(!Attatched()) in GC. Proved: that is the only way."
  },
  {
   "property": "C46",
   "status": "partial",
   "theorems": [
    "C46_statement_refuted",
    "C46_exclusion_without_stray_resumers_partial"
   ],
   "note": "Refuted: lock() does not re-check after waking."
  },
  {
   "property": "C47",
   "status": "partial",
   "theorems": [
    "C47_statement_refuted",
    "C47_dead_timer_harmless_partial"
   ],
   "note": "Refuted: the old request's timeout task erases by id. Proved: harmless if nobody holds the old message."
  },
  {
   "property": "C48",
   "status": "partial",
   "theorems": [
    "C48_statement_refuted",
    "C48_close_ends_everything_in_flight_partial"
   ],
   "note": "Refuted: CloseClientChannel drops delegate_, later completions go nowhere. Proved: everything submitted before the close ends."
  },
  {
   "property": "C49",
   "status": "proved",
   "theorems": [
    "C49_read_exact",
    "C49_read_everything_offered",
    "C49_data_before_close"
   ],
   "note": ""
  },
  {
   "property": "C50",
   "status": "partial",
   "theorems": [
    "C50_statement_refuted",
    "C50_empty_send_keeps_bytes_partial",
    "C50_empty_send_ok_partial"
   ],
   "note": "Refuted: Send of zero bytes consults a stale errno (tcp_channel.cc), so an empty raw heartbeat body is reported as a failed send. Proved: it never alters wire or buffer, and succeeds when errno is EAGAIN/EINTR."
  },
  {
   "property": "C51",
   "status": "partial",
   "theorems": [
    "C51_statement_refuted",
    "C51_once_unless_scheduled_partial"
   ],
   "note": "Refuted: schedule_close_ plus a write event that drains the buffer closes twice (and delivers data in between). Proved: at most once when the service is not scheduled to close."
  },
  {
   "property": "C52",
   "status": "proved",
   "theorems": [
    "C52_count_and_limit",
    "C52_rejected_only_at_limit"
   ],
   "note": ""
  },
  {
   "property": "C53",
   "status": "partial",
   "theorems": [
    "C53_statement_refuted",
    "C53_at_least_once_partial",
    "C53_never_early_partial",
    "C53_exactly_once_partial"
   ],
   "note": "Refuted: a connection closing just before Stop is removed twice, both removals find the set empty and run the callback. Proved: at least once, never early, exactly once when nothing closes on its own around the stop."
  },
  {
   "property": "C54",
   "status": "partial",
   "theorems": [
    "C54_statement_refuted",
    "C54_at_least_once_partial",
    "C54_at_most_once_before_stop_partial",
    "C54_exactly_once_partial"
   ],
   "note": "Refuted by the same history. Proved: at least once always; at most once before a stop; exactly once when nothing closes on its own around the stop."
  },
  {
   "property": "C55",
   "status": "partial",
   "theorems": [
    "C55_statement_refuted",
    "C55_zero_memory_partial"
   ],
   "note": "Refuted: the bit table is malloc'ed and never cleared (bloomfilter.cc:32). Proved when the memory happens to be zero."
  },
  {
   "property": "C56",
   "status": "proved",
   "theorems": [
    "C56_distinct_bound"
   ],
   "note": ""
  },
  {
   "property": "C57",
   "status": "partial",
   "theorems": [
    "C57_statement_refuted",
    "C57_router_always_answers_partial",
    "C57_lookup_before_start_is_undefined_partial"
   ],
   "note": "Refuted by the same non-termination as C35 for adversarial hashes; proved when no client has skip 65536; lookup before StartRouter is a division by zero."
  },
  {
   "property": "C58",
   "status": "partial",
   "theorems": [
    "C58_statement_refuted",
    "C58_placement_is_order_independent_partial"
   ],
   "note": "Refuted under virtual node hash collisions (first insertion wins); proved without collisions."
  },
  {
   "property": "C59",
   "status": "proved",
   "theorems": [
    "C59_messages_delivered",
    "C59_undecodable_stops",
    "C59_header_map"
   ],
   "note": "llhttp is a parameter: it may cut names, values, url and body anywhere, but reports each header name and value at least once."
  },
  {
   "property": "C60",
   "status": "partial",
   "theorems": [
    "C60_statement_refuted",
    "C60_leak_partial"
   ],
   "note": "Refuted: OnMessageBegin clears half_hdr_field_ twice and half_hdr_value_ never, so a trailer's value is prepended to the first header of the next message. The partial theorem states exactly what is delivered."
  },
  {
   "property": "C61",
   "status": "partial",
   "theorems": [
    "C61_statement_refuted",
    "C61_response_readable_partial",
    "C61_unlisted_codes_partial"
   ],
   "note": "Refuted for codes missing from the table (e.g. 429): no status line. Proved for the 40 listed codes, headers without CR/LF."
  },
  {
   "property": "C62",
   "status": "partial",
   "theorems": [
    "C62_statement_refuted",
    "C62_response_length_partial",
    "C62_request_length_partial"
   ],
   "note": "Refuted: InsertHeader does not overwrite, so a correct user-set Content-Length is stale after compression. Proved when Content-Length is left to the library or nothing is compressed."
  },
  {
   "property": "C63",
   "status": "proved",
   "theorems": [
    "C63_request_end_to_end"
   ],
   "note": ""
  },
  {
   "property": "C64",
   "status": "proved",
   "theorems": [
    "C64_response_end_to_end"
   ],
   "note": ""
  },
  {
   "property": "C65",
   "status": "proved",
   "theorems": [
    "C65_only_installed",
    "C65_only_dispatch",
    "C65_batch_in_order",
    "C65_delivered",
    "C65_install_remove"
   ],
   "note": "Descriptor table, epoll multiplexer and dispatch modelled; several loops interleave one API call at a time; handlers are arbitrary."
  },
  {
   "property": "C66",
   "status": "partial",
   "theorems": [
    "C66_statement_refuted",
    "C66_watch_as_asked_partial",
    "C66_nothing_else_watched_partial"
   ],
   "note": "Refuted: InstallFdEvent returns true although epoll_ctl refused. Proved when the kernel refuses nothing."
  },
  {
   "property": "C67",
   "status": "partial",
   "theorems": [
    "C67_statement_refuted",
    "C67_what_is_delivered_partial"
   ],
   "note": "Refuted: on EPOLLHUP/EPOLLERR the handler gets READ and WRITE though it asked for neither. Proved: exactly what it is called with for every report."
  },
  {
   "property": "C68",
   "status": "partial",
   "theorems": [
    "C68_statement_refuted",
    "C68_same_descriptor_partial"
   ],
   "note": "Refuted: a handler closes a descriptor whose event is pending, the number is reused in another loop: the stale event goes to the new object in the wrong thread. Proved when the descriptor was not closed since the report."
  },
  {
   "property": "C69",
   "status": "proved",
   "theorems": [
    "C69_at_most_one_holder",
    "C69_acquire_only_when_free",
    "C69_waiter_gets_free_lock",
    "C69_release"
   ],
   "note": "One atomic access per step, sequential consistency on the single flag; unlock only by the holder."
  },
  {
   "property": "C70",
   "status": "partial",
   "theorems": [
    "C70_constructed_once",
    "C70_return_after_construction",
    "C70_progress_statement_refuted",
    "C70_throw_is_final_partial",
    "C70_progress_partial"
   ],
   "note": "Refuted in one case: after a constructor that throws no call of get() ever returns. Everything else proved (once, return only after construction; progress without throws)."
  },
  {
   "property": "C71",
   "status": "partial",
   "theorems": [
    "C71_statement_refuted",
    "C71_started_partial"
   ],
   "note": "Refuted: true while the constructor still runs (and after it threw). Proved: it says whether construction was started."
  },
  {
   "property": "C72",
   "status": "proved",
   "theorems": [
    "C72_counted_once",
    "C72_sweep_delivers"
   ],
   "note": "Shard operations atomic (they hold the spin lock, C69); T is any type with commutative associative += and T() as unit."
  },
  {
   "property": "C73",
   "status": "partial",
   "theorems": [
    "C73_statement_refuted",
    "C73_only_last_round_missing_partial"
   ],
   "note": "Refuted: an item collected after its shard was swept in the last round but before Stop() is never delivered. Proved: only items since the collector thread last woke up can be missing."
  },
  {
   "property": "C74",
   "status": "partial",
   "theorems": [
    "C74_statement_refuted",
    "C74_started_is_safe_partial",
    "C74_stop_returns_partial"
   ],
   "note": "Refuted: thread_ is uninitialised until Start(), so stopping or destroying a collector that was never started is undefined. Proved for started ones, with a bound on Stop()."
  },
  {
   "property": "C75",
   "status": "proved",
   "theorems": [
    "C75_request_defaults",
    "C75_response_defaults"
   ],
   "note": "Read back from the wire with the same reader as C61-C64; zlib is a parameter."
  },
  {
   "property": "C76",
   "status": "proved",
   "theorems": [
    "C76_runs_only_while_started",
    "C76_stop_is_synchronous",
    "C76_started_is_installed"
   ],
   "note": "The timing wheel is abstracted to the set of attached events (timing: C17-C21)."
  },
  {
   "property": "C77",
   "status": "partial",
   "theorems": [
    "C77_lost_wakeup_is_final",
    "C77_lost_wakeup",
    "C77_statement_refuted",
    "C77_stop_unstarted_hangs_loop",
    "C77_stop_returns_partial",
    "C77_in_loop_never_waits_partial"
   ],
   "note": "Refuted: the remover sets 'removed' and notifies without the mutex, so the notification can fall between the caller's check and its blocking; and Stop() of an unstarted timer inside the loop waits for the loop it runs in. Proved: in careful use the call returns unless its wakeup was lost in exactly that way; inside the loop it never waits."
  },
  {
   "property": "C78",
   "status": "partial",
   "theorems": [
    "C78_stop_in_own_callback",
    "C78_restart_in_own_callback",
    "C78_stop_unstarted",
    "C78_destroyed_before_notify",
    "C78_start_outside_stop_inside",
    "C78_destroyed_after_loop",
    "C78_statement_refuted",
    "C78_careful_use_partial"
   ],
   "note": "Refuted in six ways (stop or restart in own callback, stop of an unstarted timer, destructor returning before cv.notify_all, start outside + stop inside, destruction after the loop stopped). Proved: careful use crashes only by the notify-after-destruction race, and not at all inside the loop."
  },
  {
   "property": "C79",
   "status": "proved",
   "theorems": [
    "C79_reported_once",
    "C79_cancel_only_after_finalize"
   ],
   "note": "Every attempt: dialed = reports + cancels + in progress; cancelled only after Finalize."
  },
  {
   "property": "C80",
   "status": "partial",
   "theorems": [
    "C80_statement_refuted",
    "C80_report_partial",
    "C80_no_false_success_partial"
   ],
   "note": "Refuted: HandleEvent tests the READ flag, so an established asynchronous connection (EPOLLOUT only) is reported as failed. Proved: exact condition; no false success; connects that complete at once are reported truly."
  },
  {
   "property": "C81",
   "status": "partial",
   "theorems": [
    "C81_statement_refuted",
    "C81_owned_partial",
    "C81_failed_is_closed_partial"
   ],
   "note": "Refuted: a refused asynchronous connect leaks its socket (ReleaseOwnership before getpeername). Proved: that is the only leak."
  },
  {
   "property": "C82",
   "status": "partial",
   "theorems": [
    "C82_statement_refuted",
    "C82_no_bound",
    "C82_single_partial",
    "C82_no_close_partial"
   ],
   "note": "Refuted: 3 wanted, 5 made; no bound at all when peers close (2 wanted). Proved: a pool of one holds at most one; without closes at most req - 1 + min(10, req)."
  },
  {
   "property": "C83",
   "status": "partial",
   "theorems": [
    "C83_dead_pool",
    "C83_statement_refuted",
    "C83_keeps_trying_partial"
   ],
   "note": "Refuted: count_ is not updated on success and can stop the pool for good (C83_dead_pool). Proved for histories in which attempts in progress get writable-only events."
  },
  {
   "property": "C84",
   "status": "partial",
   "theorems": [
    "C84_connection_survives",
    "C84_statement_refuted",
    "C84_use_after_free",
    "C84_use_after_free_connected",
    "C84_finalize_partial"
   ],
   "note": "Refuted: a queued dial connects after Finalize and stays open; destruction with a queued dial or an unprocessed close is use after free. Proved when no dial is under way at Finalize."
  },
  {
   "property": "C85",
   "status": "partial",
   "theorems": [
    "C85_statement_refuted",
    "C85_pick_partial",
    "C85_sound_partial"
   ],
   "note": "Refuted for 12 or more channels. Proved up to 11 (counter not advanced by other threads and not wrapping during the search) and soundness for any counter."
  },
  {
   "property": "C86",
   "status": "partial",
   "theorems": [
    "C86_statement_refuted",
    "C86_delay_partial"
   ],
   "note": "Refuted for the first redials of a new client (interval uninitialised). Proved: always within 0..10000; after a success between 10 * redials and 10 * failures, exact when every failure schedules a redial."
  },
  {
   "property": "C87",
   "status": "proved",
   "theorems": [
    "C87_refines",
    "C87_reads",
    "C87_drain_in_order"
   ],
   "note": ""
  },
  {
   "property": "C88",
   "status": "proved",
   "theorems": [
    "C88_refines",
    "C88_refused_unchanged",
    "C88_null_refused",
    "C88_reads"
   ],
   "note": ""
  },
  {
   "property": "C89",
   "status": "partial",
   "theorems": [
    "C89_size_statement_refuted",
    "C89_size_partial"
   ],
   "note": "size() drifts by one with every PopAndRemove (linked_list.h:112-118); proved for programs that never call it"
  },
  {
   "property": "C90",
   "status": "partial",
   "theorems": [
    "C90_destroy_nonempty",
    "C90_destroy_empty_partial",
    "C90_destroy_statement_refuted",
    "C90_other_lists_statement_refuted"
   ],
   "note": "destructor of every non-empty list is UB (node->next_ read after Remove nulls it); pushing a node held by another list silently breaks that list; the empty list's destructor is safe"
  },
  {
   "property": "C91",
   "status": "proved",
   "theorems": [
    "C91_exclusive",
    "C91_got_was_inside",
    "C91_assert_holds"
   ],
   "note": ""
  },
  {
   "property": "C92",
   "status": "proved",
   "theorems": [
    "C92_nothing_lost",
    "C92_lone_get",
    "C92_lone_add",
    "C92_answers"
   ],
   "note": ""
  },
  {
   "property": "C93",
   "status": "partial",
   "theorems": [
    "C93_statement_refuted",
    "C93_alone_partial"
   ],
   "note": "false: while another thread holds a temporary reference, add() returns before the node is on the list (freelist.hpp:22), so the adder's next try_get may return NULL; proved for calls overlapping no other call"
  },
  {
   "property": "C94",
   "status": "partial",
   "theorems": [
    "C94_answers_partial",
    "C94_exclusive_partial",
    "C94_contents_partial",
    "C94_null_partial",
    "C94_statement_refuted"
   ],
   "note": "needs fewer than 2^w head changes (w = bits of uintptr_t): with a wrapping tag the ABA run is exhibited"
  },
  {
   "property": "C95",
   "status": "partial",
   "theorems": [
    "C95_statement_refuted",
    "C95_undisturbed_statement_refuted",
    "C95_started_means_running_partial",
    "C95_returns_partial",
    "C95_before_announcement_partial"
   ],
   "note": "Refuted as stated (quit served before the starter tests running_; lost wake-up because notify_all is called without the mutex). Proved: started means running, and every pending Start can return until the announcement and after one that no starter missed."
  },
  {
   "property": "C96",
   "status": "partial",
   "theorems": [
    "C96_statement_refuted",
    "C96_destructor_partial",
    "C96_stopped_for_good_partial"
   ],
   "note": "Refuted for SyncStop/WaitLoopEnd: running_ is cleared before the final drain. Proved for the destructor; after WaitLoopEnd the loop is stopped for good."
  },
  {
   "property": "C97",
   "status": "partial",
   "theorems": [
    "C97_statement_refuted",
    "C97_destructor_statement_refuted",
    "C97_can_return_partial",
    "C97_loop_ends_partial",
    "C97_returns_by_notify_partial",
    "C97_before_end_partial",
    "C97_no_further_pass_partial"
   ],
   "note": "Refuted: the last notify_all may fall between the waiter's test and its sleep. Proved: a return is always possible before the loop thread has ended, with spurious wake-ups at any time, and after a last notification nobody missed."
  },
  {
   "property": "C98",
   "status": "proved",
   "theorems": [
    "C98_queue_time_counts",
    "C98_not_early_on_the_spot",
    "C98_not_early_posted",
    "C98_not_early_in_loop",
    "C98_runs_once_posted",
    "C98_runs_once_in_loop"
   ],
   "note": ""
  },
  {
   "property": "C99",
   "status": "proved",
   "theorems": [
    "C99_finalize",
    "C99_freed_exactly_once",
    "C99_detached_when_freed"
   ],
   "note": ""
  },
  {
   "property": "C100",
   "status": "proved",
   "theorems": [
    "C100_split_fields"
   ],
   "note": ""
  },
  {
   "property": "C101",
   "status": "partial",
   "theorems": [
    "C101_statement_refuted",
    "C101_ignore_empty_statement_refuted",
    "C101_split_partial",
    "C101_empty_delimiter_throws",
    "C101_ignore_empty_partial"
   ],
   "note": ""
  },
  {
   "property": "C102",
   "status": "proved",
   "theorems": [
    "C102_split_char",
    "C102_last_field_dropped_iff"
   ],
   "note": ""
  },
  {
   "property": "C103",
   "status": "proved",
   "theorems": [
    "C103_starts_with",
    "C103_ends_with",
    "C103_replace",
    "C103_replace_last",
    "C103_trim",
    "C103_trim_left",
    "C103_trim_right"
   ],
   "note": ""
  },
  {
   "property": "C104",
   "status": "partial",
   "theorems": [
    "C104_statement_refuted",
    "C104_contains_partial"
   ],
   "note": ""
  },
  {
   "property": "C105",
   "status": "partial",
   "theorems": [
    "C105_statement_refuted",
    "C105_reads_past_the_end",
    "C105_prefix_partial",
    "C105_out_of_bounds_partial",
    "C105_same_length_partial"
   ],
   "note": ""
  },
  {
   "property": "C106",
   "status": "partial",
   "theorems": [
    "C106_numeral_reported_as_failure",
    "C106_statement_refuted",
    "C106_reject_statement_refuted",
    "C106_success_partial",
    "C106_value_partial",
    "C106_blank_is_indeterminate"
   ],
   "note": ""
  },
  {
   "property": "C107",
   "status": "partial",
   "theorems": [
    "C107_statement_refuted",
    "C107_value_partial",
    "C107_accepts_only_partial"
   ],
   "note": ""
  },
  {
   "property": "C108",
   "status": "partial",
   "theorems": [
    "C108_statement_refuted",
    "C108_parse_partial",
    "C108_total"
   ],
   "note": ""
  },
  {
   "property": "C109",
   "status": "partial",
   "theorems": [
    "C109_bad_port_statement_refuted",
    "C109_parse_uri_partial"
   ],
   "note": ""
  },
  {
   "property": "C110",
   "status": "proved",
   "theorems": [
    "C110_matches_prefix",
    "C110_block_is_interval",
    "C110_mixed"
   ],
   "note": ""
  },
  {
   "property": "C111",
   "status": "partial",
   "theorems": [
    "C111_common_prefix",
    "C111_mask_statement_refuted",
    "C111_mask_v4_debug",
    "C111_mask_partial"
   ],
   "note": "MaskPrefixLength aborts on IPv4 masks in debug builds; everything else proved."
  },
  {
   "property": "C112",
   "status": "partial",
   "theorems": [
    "C112_statement_refuted",
    "C112_back_conversion_undefined",
    "C112_mapping_partial",
    "C112_recognised_partial"
   ],
   "note": "Back conversion is undefined behaviour for every address; mapping and recognition proved."
  },
  {
   "property": "C113",
   "status": "partial",
   "theorems": [
    "C113_mapped_undefined",
    "C113_statement_refuted",
    "C113_public_v4_partial",
    "C113_public_v6_partial",
    "C113_loopback_partial",
    "C113_link_local_partial",
    "C113_zero_partial"
   ],
   "note": "Fails for IPv4-mapped addresses (undefined behaviour); all other classes proved."
  },
  {
   "property": "C114",
   "status": "partial",
   "theorems": [
    "C114_sockaddr_roundtrip",
    "C114_small_buffer",
    "C114_peer_v6_undefined",
    "C114_peer_statement_refuted",
    "C114_peer_v4_partial",
    "C114_self_connect_partial"
   ],
   "note": "IPv6 peer/local endpoints are read out of bounds; the rest proved."
  },
  {
   "property": "C115",
   "status": "partial",
   "theorems": [
    "C115_piece_statement_refuted",
    "C115_reads_outside",
    "C115_ipv4_literal_partial",
    "C115_ipv6_literal_partial",
    "C115_bracketed_always_rejected",
    "C115_hostname_statement_refuted",
    "C115_hostname_v4_partial",
    "C115_cidr_always_rejected",
    "C115_cidr_statement_refuted",
    "C115_cidr_junk_accepted",
    "C115_cidr_accepted_partial"
   ],
   "note": "Three refuted sub-claims (text inside larger text, bracketed IPv6, CIDR); IPv4 literals fully characterised."
  },
  {
   "property": "C116",
   "status": "partial",
   "theorems": [
    "C116_statement_refuted",
    "C116_empty_statement_refuted",
    "C116_text_partial",
    "C116_text_v6_partial",
    "C116_with_port_partial",
    "C116_with_port_v6_partial",
    "C116_roundtrip_partial"
   ],
   "note": "ToString is NUL-padded; text up to the first NUL, with-port form and round trip proved."
  },
  {
   "property": "C117",
   "status": "proved",
   "theorems": [
    "C117_address_order",
    "C117_address_equal",
    "C117_address_strict_total",
    "C117_endpoint_order",
    "C117_endpoint_equal",
    "C117_endpoint_strict_total"
   ],
   "note": ""
  },
  {
   "property": "C118",
   "status": "proved",
   "theorems": [
    "C118_clamped_exact_or_saturated",
    "C118_checked_same_in_every_build"
   ],
   "note": ""
  },
  {
   "property": "C119",
   "status": "proved",
   "theorems": [
    "C119_finite_operand",
    "C119_infinite_operand",
    "C119_two_infinities"
   ],
   "note": ""
  },
  {
   "property": "C120",
   "status": "partial",
   "theorems": [
    "C120_statement_refuted",
    "C120_outward_partial"
   ],
   "note": "refuted by Max + (-1us), which is finite; missing: nothing more can hold, the exact condition is proved"
  },
  {
   "property": "C121",
   "status": "proved",
   "theorems": [
    "C121_negate",
    "C121_magnitude",
    "C121_scale",
    "C121_scale_back"
   ],
   "note": ""
  },
  {
   "property": "C122",
   "status": "proved",
   "theorems": [
    "C122_build",
    "C122_read_truncated",
    "C122_read_floored_and_rounded_up",
    "C122_infinities_read_as_limits",
    "C122_round_trip"
   ],
   "note": ""
  },
  {
   "property": "C123",
   "status": "partial",
   "theorems": [
    "C123_statement_refuted",
    "C123_other_units_partial",
    "C123_nanoseconds_partial"
   ],
   "note": "refuted for nanoseconds; proved for the other units"
  },
  {
   "property": "C124",
   "status": "proved",
   "theorems": [
    "C124_division",
    "C124_division_edges",
    "C124_infinite_dividend"
   ],
   "note": ""
  },
  {
   "property": "C125",
   "status": "proved",
   "theorems": [
    "C125_floor",
    "C125_ceil",
    "C125_unique",
    "C125_unrounded",
    "C125_infinite_interval"
   ],
   "note": ""
  },
  {
   "property": "C126",
   "status": "partial",
   "theorems": [
    "C126_statement_refuted",
    "C126_nearest_partial"
   ],
   "note": "refuted at the top of the range; proved whenever the delta plus half the interval stays finite"
  },
  {
   "property": "C127",
   "status": "partial",
   "theorems": [
    "C127_statement_refuted",
    "C127_nonnegative_partial",
    "C127_negative_partial"
   ],
   "note": "refuted for infinite and negative deltas; proved for non-negative finite deltas"
  },
  {
   "property": "C128",
   "status": "partial",
   "theorems": [
    "C128_statement_refuted",
    "C128_shift_saturates_partial",
    "C128_difference_partial",
    "C128_same_side_partial"
   ],
   "note": "refuted for times more than 2^63 us apart; shift and near differences proved"
  },
  {
   "property": "C129",
   "status": "partial",
   "theorems": [
    "C129_statement_refuted",
    "C129_round_trip_partial",
    "C129_far_past_undefined_partial"
   ],
   "note": "refuted by 1601-01-01 and by the far past; proved for other seconds in range"
  },
  {
   "property": "C130",
   "status": "partial",
   "theorems": [
    "C130_statement_refuted",
    "C130_whole_second_aborts_partial",
    "C130_round_trip_partial",
    "C130_before_epoch_partial"
   ],
   "note": "refuted for whole seconds; proved for non-zero microseconds"
  },
  {
   "property": "C131",
   "status": "proved",
   "theorems": [
    "C131_explode",
    "C131_from_exploded",
    "C131_midnight",
    "C131_calendar_sanity"
   ],
   "note": "gmtime_r/timegm are parameters with the Gregorian contract"
  },
  {
   "property": "C132",
   "status": "proved",
   "theorems": [
    "C132_ms_to_timeval",
    "C132_ticks_monotone"
   ],
   "note": ""
  },
  {
   "property": "C133",
   "status": "proved",
   "theorems": [
    "C133_every_string",
    "C133_utc_ignores_local_zone"
   ],
   "note": ""
  },
  {
   "property": "C134",
   "status": "proved",
   "theorems": [
    "C134_rfc1123",
    "C134_injective"
   ],
   "note": ""
  },
  {
   "property": "C135",
   "status": "proved",
   "theorems": [
    "C135_carry_over",
    "C135_feb_29"
   ],
   "note": ""
  },
  {
   "property": "C136",
   "status": "proved",
   "theorems": [
    "C136_named_zone",
    "C136_no_zone"
   ],
   "note": ""
  },
  {
   "property": "C137",
   "status": "partial",
   "theorems": [
    "C137_statement_refuted",
    "C137_offset_partial",
    "C137_minus_one_minute_partial",
    "C137_hours_partial"
   ],
   "note": "refuted by the zone -0001, read as +0000; proved for every other offset"
  },
  {
   "property": "C138",
   "status": "proved",
   "theorems": [
    "C138_iso8601",
    "C138_any_fraction",
    "C138_small_years_differ"
   ],
   "note": ""
  },
  {
   "property": "C139",
   "status": "proved",
   "theorems": [
    "C139_implode",
    "C139_normalize",
    "C139_idempotent"
   ],
   "note": ""
  },
  {
   "property": "C140",
   "status": "partial",
   "theorems": [
    "C140_statement_refuted",
    "C140_from_year_one_partial"
   ],
   "note": "refuted: 31 Dec 0000 = 1 Jan 0001; proved for years 1-9999"
  },
  {
   "property": "C141",
   "status": "proved",
   "theorems": [
    "C141_in_order",
    "C141_posted_in_order"
   ],
   "note": ""
  },
  {
   "property": "C142",
   "status": "partial",
   "theorems": [
    "C142_statement_refuted",
    "C142_stuck",
    "C142_unsent_waits_partial"
   ],
   "note": ""
  },
  {
   "property": "C143",
   "status": "partial",
   "theorems": [
    "C143_statement_refuted",
    "C143_all_sent_partial"
   ],
   "note": ""
  },
  {
   "property": "C144",
   "status": "partial",
   "theorems": [
    "C144_flush_after_free",
    "C144_event_after_free",
    "C144_flush_tail_after_free",
    "C144_coroutine_after_disconnect",
    "C144_statement_refuted",
    "C144_open_is_safe_partial",
    "C144_one_loop_partial"
   ],
   "note": ""
  },
  {
   "property": "C145",
   "status": "partial",
   "theorems": [
    "C145_reported_twice",
    "C145_statement_refuted",
    "C145_keep_alive_partial"
   ],
   "note": ""
  },
  {
   "property": "C146",
   "status": "partial",
   "theorems": [
    "C146_statement_refuted",
    "C146_at_once_partial"
   ],
   "note": ""
  },
  {
   "property": "C147",
   "status": "partial",
   "theorems": [
    "C147_statement_refuted",
    "C147_guarded_partial"
   ],
   "note": ""
  },
  {
   "property": "C148",
   "status": "proved",
   "theorems": [
    "C148_bad_request_is_final",
    "C148_answer_400"
   ],
   "note": ""
  },
  {
   "property": "C149",
   "status": "proved",
   "theorems": [
    "C149_query_exact"
   ],
   "note": ""
  },
  {
   "property": "C150",
   "status": "partial",
   "theorems": [
    "C150_word_multiple_aborts",
    "C150_every_document_wants",
    "C150_statement_refuted",
    "C150_returns_iff_partial"
   ],
   "note": ""
  },
  {
   "property": "C151",
   "status": "partial",
   "theorems": [
    "C151_every_checksum_fails",
    "C151_wrong_answer",
    "C151_fresh_list_partial"
   ],
   "note": ""
  },
  {
   "property": "C152",
   "status": "proved",
   "theorems": [
    "C152_set_clear",
    "C152_union_difference"
   ],
   "note": ""
  },
  {
   "property": "C153",
   "status": "partial",
   "theorems": [
    "C153_statement_refuted",
    "C153_intersect_partial"
   ],
   "note": ""
  },
  {
   "property": "C154",
   "status": "partial",
   "theorems": [
    "C154_never_found",
    "C154_lower_bound_ignored_partial",
    "C154_statement_refuted"
   ],
   "note": ""
  },
  {
   "property": "C155",
   "status": "proved",
   "theorems": [
    "C155_order_irrelevant",
    "C155_built_is_final"
   ],
   "note": ""
  },
  {
   "property": "C156",
   "status": "proved",
   "theorems": [
    "C156_checked_cast"
   ],
   "note": ""
  },
  {
   "property": "C157",
   "status": "proved",
   "theorems": [
    "C157_saturated_cast"
   ],
   "note": ""
  },
  {
   "property": "C158",
   "status": "proved",
   "theorems": [
    "C158_comparisons"
   ],
   "note": ""
  },
  {
   "property": "C159",
   "status": "proved",
   "theorems": [
    "C159_checked_expressions"
   ],
   "note": ""
  },
  {
   "property": "C160",
   "status": "partial",
   "theorems": [
    "C160_statement_refuted",
    "C160_division_partial"
   ],
   "note": ""
  },
  {
   "property": "C161",
   "status": "partial",
   "theorems": [
    "C161_statement_refuted",
    "C161_mod_partial"
   ],
   "note": ""
  },
  {
   "property": "C162",
   "status": "proved",
   "theorems": [
    "C162_checked_shifts"
   ],
   "note": ""
  },
  {
   "property": "C163",
   "status": "proved",
   "theorems": [
    "C163_clamped_shifts"
   ],
   "note": ""
  },
  {
   "property": "C164",
   "status": "proved",
   "theorems": [
    "C164_clamped_sub_mul"
   ],
   "note": ""
  },
  {
   "property": "C165",
   "status": "partial",
   "theorems": [
    "C165_statement_refuted",
    "C165_clamp_add_partial"
   ],
   "note": ""
  },
  {
   "property": "C166",
   "status": "partial",
   "theorems": [
    "C166_statement_refuted",
    "C166_clamp_div_partial"
   ],
   "note": ""
  },
  {
   "property": "C167",
   "status": "partial",
   "theorems": [
    "C167_statement_refuted",
    "C167_checked_neg_partial"
   ],
   "note": ""
  },
  {
   "property": "C168",
   "status": "proved",
   "theorems": [
    "C168_max_min"
   ],
   "note": ""
  },
  {
   "property": "C169",
   "status": "proved",
   "theorems": [
    "C169_callback_order",
    "C169_silent_after_close"
   ],
   "note": ""
  },
  {
   "property": "C170",
   "status": "partial",
   "theorems": [
    "C170_statement_refuted",
    "C170_never_opens",
    "C170_server_opens_partial",
    "C170_client_opens_partial"
   ],
   "note": ""
  },
  {
   "property": "C171",
   "status": "partial",
   "theorems": [
    "C171_statement_refuted",
    "C171_close_and_eof",
    "C171_close_count_partial",
    "C171_close_reported_partial"
   ],
   "note": ""
  },
  {
   "property": "C172",
   "status": "partial",
   "theorems": [
    "C172_statement_refuted",
    "C172_later_reads_partial"
   ],
   "note": ""
  },
  {
   "property": "C173",
   "status": "partial",
   "theorems": [
    "C173_statement_refuted",
    "C173_pong_before_partial",
    "C173_pong_count_partial"
   ],
   "note": ""
  },
  {
   "property": "C174",
   "status": "partial",
   "theorems": [
    "C174_statement_refuted",
    "C174_mask_partial"
   ],
   "note": ""
  },
  {
   "property": "C175",
   "status": "partial",
   "theorems": [
    "C175_statement_refuted",
    "C175_some_accept_partial"
   ],
   "note": ""
  },
  {
   "property": "C176",
   "status": "proved",
   "theorems": [
    "C176_frames_after_open",
    "C176_client_send"
   ],
   "note": ""
  },
  {
   "property": "C177",
   "status": "partial",
   "theorems": [
    "C177_statement_refuted",
    "C177_called_after_release",
    "C177_release_connected_partial",
    "C177_while_alive_partial"
   ],
   "note": ""
  },
  {
   "property": "C178",
   "status": "partial",
   "theorems": [
    "C178_statement_refuted",
    "C178_proper_request",
    "C178_same_topic_partial"
   ],
   "note": ""
  },
  {
   "property": "C179",
   "status": "partial",
   "theorems": [
    "C179_statement_refuted",
    "C179_upgrade_header_partial"
   ],
   "note": ""
  },
  {
   "property": "C180",
   "status": "proved",
   "theorems": [
    "C180_server_delivers",
    "C180_client_delivers",
    "C180_server_close"
   ],
   "note": ""
  },
  {
   "property": "C181",
   "status": "partial",
   "theorems": [
    "C181_statement_refuted",
    "C181_client_partial"
   ],
   "note": ""
  },
  {
   "property": "C182",
   "status": "proved",
   "theorems": [
    "C182_count_and_sum",
    "C182_report"
   ],
   "note": ""
  },
  {
   "property": "C183",
   "status": "partial",
   "theorems": [
    "C183_statement_refuted",
    "C183_min_max_with_zero_partial"
   ],
   "note": ""
  },
  {
   "property": "C184",
   "status": "partial",
   "theorems": [
    "C184_statement_refuted",
    "C184_negative_range_refuted",
    "C184_empty_range_refuted",
    "C184_buckets_partial",
    "C184_bucket_meaning_partial"
   ],
   "note": ""
  },
  {
   "property": "C185",
   "status": "proved",
   "theorems": [
    "C185_percentile"
   ],
   "note": ""
  },
  {
   "property": "C186",
   "status": "partial",
   "theorems": [
    "C186_statement_refuted",
    "C186_median_and_lower_bound_partial"
   ],
   "note": ""
  },
  {
   "property": "C187",
   "status": "partial",
   "theorems": [
    "C187_statement_refuted",
    "C187_gauges_partial"
   ],
   "note": ""
  },
  {
   "property": "C188",
   "status": "partial",
   "theorems": [
    "C188_statement_refuted",
    "C188_one_kind_per_name_partial"
   ],
   "note": ""
  },
  {
   "property": "C189",
   "status": "proved",
   "theorems": [
    "C189_each_value_once"
   ],
   "note": ""
  },
  {
   "property": "C190",
   "status": "partial",
   "theorems": [
    "C190_statement_refuted",
    "C190_five_seconds_partial"
   ],
   "note": ""
  },
  {
   "property": "C191",
   "status": "partial",
   "theorems": [
    "C191_statement_refuted",
    "C191_nonnegative_partial"
   ],
   "note": ""
  },
  {
   "property": "C192",
   "status": "partial",
   "theorems": [
    "C192_statement_refuted",
    "C192_accounted_at_stop_partial"
   ],
   "note": ""
  },
  {
   "property": "C193",
   "status": "proved",
   "theorems": [
    "C193_tls_stream"
   ],
   "note": ""
  },
  {
   "property": "C194",
   "status": "partial",
   "theorems": [
    "C194_statement_refuted",
    "C194_full_socket_closes_partial",
    "C194_moving_buffers_partial",
    "C194_no_backpressure_partial"
   ],
   "note": ""
  },
  {
   "property": "C195",
   "status": "partial",
   "theorems": [
    "C195_statement_refuted",
    "C195_idle_write_partial"
   ],
   "note": ""
  },
  {
   "property": "C196",
   "status": "proved",
   "theorems": [
    "C196_reading",
    "C196_history"
   ],
   "note": ""
  },
  {
   "property": "C197",
   "status": "proved",
   "theorems": [
    "C197_interest",
    "C197_no_spin",
    "C197_no_spin_send"
   ],
   "note": ""
  },
  {
   "property": "C198",
   "status": "partial",
   "theorems": [
    "C198_statement_refuted",
    "C198_queued_partial",
    "C198_reading_partial"
   ],
   "note": ""
  },
  {
   "property": "C199",
   "status": "partial",
   "theorems": [
    "C199_statement_refuted",
    "C199_single_ca_fails_partial",
    "C199_settings_partial"
   ],
   "note": ""
  },
  {
   "property": "C200",
   "status": "partial",
   "theorems": [
    "C200_statement_refuted",
    "C200_file_only_partial",
    "C200_directory_partial"
   ],
   "note": ""
  },
  {
   "property": "C201",
   "status": "partial",
   "theorems": [
    "C201_statement_refuted",
    "C201_shared_partial"
   ],
   "note": ""
  },
  {
   "property": "C202",
   "status": "proved",
   "theorems": [
    "C202_alpn_safe",
    "C202_alpn_select",
    "C202_own_offer"
   ],
   "note": ""
  },
  {
   "property": "C203",
   "status": "partial",
   "theorems": [
    "C203_statement_refuted",
    "C203_no_body_partial",
    "C203_with_body_partial",
    "C203_trailers_partial"
   ],
   "note": ""
  },
  {
   "property": "C204",
   "status": "proved",
   "theorems": [
    "C204_lookup_token"
   ],
   "note": ""
  },
  {
   "property": "C205",
   "status": "proved",
   "theorems": [
    "C205_streams_independent",
    "C205_no_phantom"
   ],
   "note": ""
  },
  {
   "property": "C206",
   "status": "partial",
   "theorems": [
    "C206_statement_refuted",
    "C206_no_body_partial",
    "C206_with_body_partial"
   ],
   "note": ""
  },
  {
   "property": "C207",
   "status": "partial",
   "theorems": [
    "C207_statement_refuted",
    "C207_overread_partial",
    "C207_prefix_dropped_partial",
    "C207_plain_partial"
   ],
   "note": ""
  },
  {
   "property": "C208",
   "status": "partial",
   "theorems": [
    "C208_statement_refuted",
    "C208_small_partial",
    "C208_large_partial"
   ],
   "note": ""
  },
  {
   "property": "C209",
   "status": "partial",
   "theorems": [
    "C209_statement_refuted",
    "C209_nothing_sent_partial"
   ],
   "note": ""
  },
  {
   "property": "C210",
   "status": "partial",
   "theorems": [
    "C210_push_partial",
    "C210_closed_partial",
    "C210_statement_refuted",
    "C210_dropped_partial",
    "C210_notified_partial"
   ],
   "note": ""
  },
  {
   "property": "C211",
   "status": "proved",
   "theorems": [
    "C211_first_notification"
   ],
   "note": ""
  },
  {
   "property": "C212",
   "status": "partial",
   "theorems": [
    "C212_statement_refuted",
    "C212_after_wait_refuted",
    "C212_while_waiting_partial"
   ],
   "note": ""
  },
  {
   "property": "C213",
   "status": "partial",
   "theorems": [
    "C213_statement_refuted",
    "C213_zero_waits_forever",
    "C213_positive_limit_partial"
   ],
   "note": ""
  },
  {
   "property": "C214",
   "status": "partial",
   "theorems": [
    "C214_statement_refuted",
    "C214_no_cancel_partial"
   ],
   "note": ""
  },
  {
   "property": "C215",
   "status": "proved",
   "theorems": [
    "C215_cancel_is_final"
   ],
   "note": ""
  },
  {
   "property": "C216",
   "status": "partial",
   "theorems": [
    "C216_statement_refuted",
    "C216_careful_partial"
   ],
   "note": ""
  },
  {
   "property": "C217",
   "status": "partial",
   "theorems": [
    "C217_statement_refuted",
    "C217_positive_intervals_partial",
    "C217_zero_interval_aborts"
   ],
   "note": ""
  },
  {
   "property": "C218",
   "status": "proved",
   "theorems": [
    "C218_never_sleeps_over",
    "C218_exact_without_cancel"
   ],
   "note": ""
  },
  {
   "property": "C219",
   "status": "proved",
   "theorems": [
    "C219_references",
    "C219_deleted_with_last_reference"
   ],
   "note": ""
  },
  {
   "property": "C220",
   "status": "partial",
   "theorems": [
    "C220_statement_refuted",
    "C220_move_aborts",
    "C220_move_forgets_cancel",
    "C220_guard_copies",
    "C220_unmoved_partial"
   ],
   "note": ""
  },
  {
   "property": "C221",
   "status": "partial",
   "theorems": [
    "C221_statement_refuted",
    "C221_target_partial"
   ],
   "note": ""
  },
  {
   "property": "C222",
   "status": "proved",
   "theorems": [
    "C222_once_in_order"
   ],
   "note": ""
  },
  {
   "property": "C223",
   "status": "partial",
   "theorems": [
    "C223_statement_refuted",
    "C223_without_quit_partial"
   ],
   "note": ""
  },
  {
   "property": "C224",
   "status": "partial",
   "theorems": [
    "C224_statement_refuted",
    "C224_pieces_partial"
   ],
   "note": ""
  },
  {
   "property": "C225",
   "status": "partial",
   "theorems": [
    "C225_statement_refuted",
    "C225_readable_partial"
   ],
   "note": ""
  },
  {
   "property": "C226",
   "status": "partial",
   "theorems": [
    "C226_statement_refuted",
    "C226_result_partial"
   ],
   "note": ""
  },
  {
   "property": "C227",
   "status": "partial",
   "theorems": [
    "C227_statement_refuted",
    "C227_one_character_partial"
   ],
   "note": ""
  },
  {
   "property": "C228",
   "status": "proved",
   "theorems": [
    "C228_wrong_number_of_fields"
   ],
   "note": ""
  },
  {
   "property": "C229",
   "status": "partial",
   "theorems": [
    "C229_statement_refuted",
    "C229_no_effect_partial"
   ],
   "note": ""
  },
  {
   "property": "C230",
   "status": "partial",
   "theorems": [
    "C230_statement_refuted",
    "C230_json_partial"
   ],
   "note": ""
  },
  {
   "property": "C231",
   "status": "proved",
   "theorems": [
    "C231_table"
   ],
   "note": ""
  },
  {
   "property": "C232",
   "status": "partial",
   "theorems": [
    "C232_statement_refuted",
    "C232_no_int_partial"
   ],
   "note": ""
  },
  {
   "property": "C233",
   "status": "proved",
   "theorems": [
    "C233_deflate_roundtrip"
   ],
   "note": ""
  },
  {
   "property": "C234",
   "status": "partial",
   "theorems": [
    "C234_padded_partial",
    "C234_never_exact",
    "C234_statement_refuted"
   ],
   "note": ""
  },
  {
   "property": "C235",
   "status": "proved",
   "theorems": [
    "C235_complete_iff_zero"
   ],
   "note": ""
  },
  {
   "property": "C236",
   "status": "partial",
   "theorems": [
    "C236_four_gib_lost",
    "C236_statement_refuted",
    "C236_below_partial"
   ],
   "note": ""
  },
  {
   "property": "C237",
   "status": "partial",
   "theorems": [
    "C237_padded_partial",
    "C237_deflate_partial",
    "C237_statement_refuted"
   ],
   "note": ""
  },
  {
   "property": "C238",
   "status": "proved",
   "theorems": [
    "C238_uniform_below_range"
   ],
   "note": ""
  },
  {
   "property": "C239",
   "status": "proved",
   "theorems": [
    "C239_int_uniform"
   ],
   "note": ""
  },
  {
   "property": "C240",
   "status": "proved",
   "theorems": [
    "C240_double_uniform"
   ],
   "note": ""
  },
  {
   "property": "C241",
   "status": "proved",
   "theorems": [
    "C241_all_or_abort"
   ],
   "note": ""
  },
  {
   "property": "C242",
   "status": "proved",
   "theorems": [
    "C242_text"
   ],
   "note": ""
  },
  {
   "property": "C243",
   "status": "partial",
   "theorems": [
    "C243_statement_refuted",
    "C243_bounds_partial"
   ],
   "note": ""
  },
  {
   "property": "C244",
   "status": "proved",
   "theorems": [
    "C244_each_once_in_order"
   ],
   "note": ""
  },
  {
   "property": "C245",
   "status": "proved",
   "theorems": [
    "C245_progress"
   ],
   "note": ""
  },
  {
   "property": "C246",
   "status": "partial",
   "theorems": [
    "C246_statement_refuted",
    "C246_v4_partial"
   ],
   "note": ""
  },
  {
   "property": "C247",
   "status": "partial",
   "theorems": [
    "C247_statement_refuted",
    "C247_hang_partial"
   ],
   "note": ""
  },
  {
   "property": "C248",
   "status": "proved",
   "theorems": [
    "C248_restart"
   ],
   "note": ""
  },
  {
   "property": "C249",
   "status": "partial",
   "theorems": [
    "C249_statement_refuted",
    "C249_abort_partial"
   ],
   "note": ""
  },
  {
   "property": "C250",
   "status": "partial",
   "theorems": [
    "C250_cut_partial",
    "C250_statement_refuted"
   ],
   "note": ""
  },
  {
   "property": "C251",
   "status": "partial",
   "theorems": [
    "C251_abort_partial",
    "C251_statement_refuted"
   ],
   "note": ""
  },
  {
   "property": "C252",
   "status": "partial",
   "theorems": [
    "C252_closes_others_partial",
    "C252_statement_refuted"
   ],
   "note": ""
  },
  {
   "property": "C253",
   "status": "partial",
   "theorems": [
    "C253_abort_partial",
    "C253_statement_refuted"
   ],
   "note": ""
  },
  {
   "property": "C254",
   "status": "proved",
   "theorems": [
    "C254_last_registration"
   ],
   "note": ""
  },
  {
   "property": "C255",
   "status": "partial",
   "theorems": [
    "C255_statement_refuted",
    "C255_all_but_rawssl_partial",
    "C255_without_tls_partial"
   ],
   "note": ""
  },
  {
   "property": "C256",
   "status": "partial",
   "theorems": [
    "C256_statement_refuted",
    "C256_plain_partial"
   ],
   "note": ""
  },
  {
   "property": "C257",
   "status": "partial",
   "theorems": [
    "C257_statement_refuted",
    "C257_served_partial"
   ],
   "note": ""
  },
  {
   "property": "C258",
   "status": "partial",
   "theorems": [
    "C258_statement_refuted",
    "C258_abort_partial"
   ],
   "note": ""
  },
  {
   "property": "C259",
   "status": "partial",
   "theorems": [
    "C259_bound_partial",
    "C259_reached_partial",
    "C259_statement_refuted"
   ],
   "note": ""
  },
  {
   "property": "C260",
   "status": "partial",
   "theorems": [
    "C260_statement_refuted",
    "C260_rounds_partial"
   ],
   "note": ""
  },
  {
   "property": "C261",
   "status": "partial",
   "theorems": [
    "C261_statement_refuted",
    "C261_wrap_partial",
    "C261_in_turn_partial"
   ],
   "note": ""
  },
  {
   "property": "C262",
   "status": "proved",
   "theorems": [
    "C262_first_answer"
   ],
   "note": ""
  },
  {
   "property": "C263",
   "status": "proved",
   "theorems": [
    "C263_exactly_once"
   ],
   "note": ""
  },
  {
   "property": "C264",
   "status": "partial",
   "theorems": [
    "C264_statement_refuted",
    "C264_rows_partial",
    "C264_garbage"
   ],
   "note": ""
  },
  {
   "property": "C265",
   "status": "partial",
   "theorems": [
    "C265_statement_refuted",
    "C265_rows_determined_partial"
   ],
   "note": ""
  },
  {
   "property": "C266",
   "status": "partial",
   "theorems": [
    "C266_statement_refuted",
    "C266_close_partial"
   ],
   "note": ""
  },
  {
   "property": "C267",
   "status": "partial",
   "theorems": [
    "C267_statement_refuted",
    "C267_lost_partial",
    "C267_fetch"
   ],
   "note": ""
  },
  {
   "property": "C268",
   "status": "partial",
   "theorems": [
    "C268_statement_refuted",
    "C268_silent_partial"
   ],
   "note": ""
  },
  {
   "property": "C269",
   "status": "partial",
   "theorems": [
    "C269_statement_refuted",
    "C269_closing_ends_partial",
    "C269_no_retry"
   ],
   "note": ""
  },
  {
   "property": "C270",
   "status": "partial",
   "theorems": [
    "C270_statement_refuted",
    "C270_once_partial"
   ],
   "note": ""
  },
  {
   "property": "C271",
   "status": "partial",
   "theorems": [
    "C271_statement_refuted",
    "C271_rotation_partial",
    "C271_no_connections"
   ],
   "note": ""
  },
  {
   "property": "C272",
   "status": "partial",
   "theorems": [
    "C272_statement_refuted",
    "C272_complete_partial"
   ],
   "note": ""
  },
  {
   "property": "C273",
   "status": "partial",
   "theorems": [
    "C273_statement_refuted",
    "C273_shares_partial"
   ],
   "note": ""
  },
  {
   "property": "C274",
   "status": "partial",
   "theorems": [
    "C274_statement_refuted",
    "C274_zero_partial"
   ],
   "note": ""
  },
  {
   "property": "C275",
   "status": "proved",
   "theorems": [
    "C275_parts",
    "C275_access"
   ],
   "note": ""
  },
  {
   "property": "C276",
   "status": "proved",
   "theorems": [
    "C276_compare",
    "C276_order"
   ],
   "note": ""
  },
  {
   "property": "C277",
   "status": "proved",
   "theorems": [
    "C277_starts_ends"
   ],
   "note": ""
  },
  {
   "property": "C278",
   "status": "partial",
   "theorems": [
    "C278_statement_refuted",
    "C278_find_partial",
    "C278_empty_at_end"
   ],
   "note": ""
  },
  {
   "property": "C279",
   "status": "proved",
   "theorems": [
    "C279_rfind"
   ],
   "note": ""
  },
  {
   "property": "C280",
   "status": "proved",
   "theorems": [
    "C280_any_of"
   ],
   "note": ""
  },
  {
   "property": "C281",
   "status": "proved",
   "theorems": [
    "C281_none_of"
   ],
   "note": ""
  },
  {
   "property": "C282",
   "status": "proved",
   "theorems": [
    "C282_conversions"
   ],
   "note": ""
  },
  {
   "property": "C283",
   "status": "partial",
   "theorems": [
    "C283_statement_refuted",
    "C283_targets_partial"
   ],
   "note": ""
  },
  {
   "property": "C284",
   "status": "partial",
   "theorems": [
    "C284_dangling_refuted",
    "C284_new_refuted",
    "C284_stale_refuted",
    "C284_statement_refuted",
    "C284_path_partial"
   ],
   "note": ""
  },
  {
   "property": "C285",
   "status": "proved",
   "theorems": [
    "C285_parts"
   ],
   "note": ""
  },
  {
   "property": "C286",
   "status": "partial",
   "theorems": [
    "C286_statement_refuted",
    "C286_own_params_partial"
   ],
   "note": ""
  },
  {
   "property": "C287",
   "status": "partial",
   "theorems": [
    "C287_statement_refuted",
    "C287_once_per_thread_partial",
    "C287_serial_partial"
   ],
   "note": ""
  },
  {
   "property": "C288",
   "status": "proved",
   "theorems": [
    "C288_as_asked",
    "C288_strings",
    "C288_first_wins"
   ],
   "note": ""
  },
  {
   "property": "C289",
   "status": "partial",
   "theorems": [
    "C289_statement_refuted",
    "C289_in_loop_partial"
   ],
   "note": ""
  },
  {
   "property": "C290",
   "status": "proved",
   "theorems": [
    "C290_loop_thread",
    "C290_fifo"
   ],
   "note": ""
  },
  {
   "property": "C291",
   "status": "proved",
   "theorems": [
    "C291_responsed",
    "C291_sent",
    "C291_call_completes",
    "C291_broken"
   ],
   "note": ""
  },
  {
   "property": "C292",
   "status": "partial",
   "theorems": [
    "C292_statement_refuted",
    "C292_file_partial"
   ],
   "note": ""
  },
  {
   "property": "C293",
   "status": "proved",
   "theorems": [
    "C293_started_once",
    "C293_submitted_once"
   ],
   "note": ""
  },
  {
   "property": "C294",
   "status": "proved",
   "theorems": [
    "C294_posted_task_starts",
    "C294_nested_task_starts",
    "C294_scheduled_task_starts"
   ],
   "note": ""
  },
  {
   "property": "C295",
   "status": "proved",
   "theorems": [
    "C295_right_loop"
   ],
   "note": ""
  },
  {
   "property": "C296",
   "status": "proved",
   "theorems": [
    "C296_loop_order",
    "C296_shared_order",
    "C296_taken_order"
   ],
   "note": ""
  },
  {
   "property": "C297",
   "status": "partial",
   "theorems": [
    "C297_statement_refuted",
    "C297_taken_partial",
    "C297_taken_starts_partial"
   ],
   "note": "refuted in full; proved if no other thread submits during that Run()"
  },
  {
   "property": "C298",
   "status": "partial",
   "theorems": [
    "C298_statement_refuted",
    "C298_background_partial"
   ],
   "note": "refuted in full for loop threads without a runner; proved for threads without a loop"
  },
  {
   "property": "C299",
   "status": "partial",
   "theorems": [
    "C299_statement_refuted",
    "C299_quit_partial"
   ],
   "note": "refuted in full; proved for tasks given by other threads before the quit"
  },
  {
   "property": "C300",
   "status": "proved",
   "theorems": [
    "C300_sched_returns"
   ],
   "note": ""
  },
  {
   "property": "C301",
   "status": "partial",
   "theorems": [
    "C301_statement_refuted",
    "C301_one_at_a_time_partial",
    "C301_each_thread_partial"
   ],
   "note": "refuted in full; proved if calls do not overlap, and at most one answer for each thread"
  },
  {
   "property": "C302",
   "status": "proved",
   "theorems": [
    "C302_as_passed",
    "C302_only_given",
    "C302_first_call",
    "C302_responded"
   ],
   "note": ""
  },
  {
   "property": "C303",
   "status": "proved",
   "theorems": [
    "C303_nothing_lost",
    "C303_own_thread",
    "C303_in_order"
   ],
   "note": ""
  },
  {
   "property": "C304",
   "status": "proved",
   "theorems": [
    "C304_closed_after_failure"
   ],
   "note": ""
  },
  {
   "property": "C305",
   "status": "proved",
   "theorems": [
    "C305_ready_iff_accepted",
    "C305_not_before"
   ],
   "note": ""
  },
  {
   "property": "C306",
   "status": "proved",
   "theorems": [
    "C306_init_replies_not_mixed"
   ],
   "note": ""
  }
 ]
}