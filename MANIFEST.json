{
 "claims": [
  {
   "property": "C01",
   "status": "proved",
   "theorems": [
    "C01_read_never_panics",
    "C01_stream_never_panics"
   ],
   "note": "Also for reading from an io.Reader (Message.Read)."
  },
  {
   "property": "C02",
   "status": "proved",
   "theorems": [
    "C02_only_frame_bytes"
   ],
   "note": "For messages as left by NewMessage or Close; see C14 for messages that were not closed."
  },
  {
   "property": "C03",
   "status": "proved",
   "theorems": [
    "C03_accepts_exactly_the_format",
    "C03_unambiguous"
   ],
   "note": ""
  },
  {
   "property": "C04",
   "status": "proved",
   "theorems": [
    "C04_signal_roundtrip"
   ],
   "note": ""
  },
  {
   "property": "C05",
   "status": "partial",
   "theorems": [
    "C05_signal_accepts",
    "C05_signal_calls",
    "C05_signal_delivered_partial",
    "C05_signal_refuted"
   ],
   "note": "The unchanged code violates it: a UTF-16 signal with a name and no payload is accepted by Connection.Signal and refused by every reader (C05_signal_refuted). Proved for all other accepted signals."
  },
  {
   "property": "C06",
   "status": "proved",
   "theorems": [
    "C06_request_roundtrip"
   ],
   "note": ""
  },
  {
   "property": "C07",
   "status": "proved",
   "theorems": [
    "C07_reply_roundtrip"
   ],
   "note": ""
  },
  {
   "property": "C08",
   "status": "partial",
   "theorems": [
    "C08_error_roundtrip_partial",
    "C08_error_encoding_refuted"
   ],
   "note": "Identifier, code and message proved; the encoding is always reported as binary instead of UTF-8 (C08_error_encoding_refuted)."
  },
  {
   "property": "C09",
   "status": "proved",
   "theorems": [
    "C09_special_roundtrip",
    "C09_restore_roundtrip",
    "C09_close_roundtrip",
    "C09_created_roundtrip",
    "C09_closed_roundtrip",
    "C09_heartbeat_roundtrip"
   ],
   "note": ""
  },
  {
   "property": "C10",
   "status": "proved",
   "theorems": [
    "C10_conf_roundtrip"
   ],
   "note": ""
  },
  {
   "property": "C11",
   "status": "partial",
   "theorems": [
    "C11_signal_closes",
    "C11_request_closes",
    "C11_reply_closes",
    "C11_error_closes_partial",
    "C11_others_close",
    "C11_special_rejects",
    "C11_error_refuted",
    "C11_nameless_refuted"
   ],
   "note": "Proved for every writer function and every pattern of failing calls, except two panicking argument ranges (code longer than 255 bytes without safe mode; WriteMsgNamelessRequest with a foreign type), which are refuted."
  },
  {
   "property": "C12",
   "status": "proved",
   "theorems": [
    "C12_signal_length",
    "C12_request_length"
   ],
   "note": ""
  },
  {
   "property": "C13",
   "status": "proved",
   "theorems": [
    "C13_request_accepts",
    "C13_signal_accepts",
    "C13_reply_accepts",
    "C13_error_accepts"
   ],
   "note": ""
  },
  {
   "property": "C14",
   "status": "partial",
   "theorems": [
    "C14_pool_history",
    "C14_reread_after_close",
    "C14_unclosed_refuted",
    "C14_unclosed_partial",
    "C14_identifier"
   ],
   "note": "Proved for every pool history and for re-reading after Close; refuted for messages re-read without Close."
  },
  {
   "property": "C15",
   "status": "partial",
   "theorems": [
    "C15_chunking",
    "C15_empty",
    "C15_overflow_partial",
    "C15_reader_error",
    "C15_overflow_refuted"
   ],
   "note": "Proved for all chunkings; overflow detection fails for readers that deliver data together with EOF on a full buffer (C15_overflow_refuted)."
  },
  {
   "property": "C16",
   "status": "proved",
   "theorems": [
    "C16_get_exclusive_blank",
    "C16_holders_no_panic",
    "C16_isolation",
    "C16_read_after_close",
    "C16_unpooled",
    "C16_double_close"
   ],
   "note": "C16_double_close shows that the at-most-one-Close hypothesis is necessary."
  },
  {
   "property": "C17",
   "status": "partial",
   "theorems": [
    "C17_utf8_output_wf",
    "C17_utf8_fails",
    "C17_utf8_pass",
    "C17_utf8_text_partial",
    "C17_utf8_text_exact",
    "C17_utf8_text_refuted",
    "C17_rune"
   ],
   "note": "Characters outside the basic multilingual plane become two U+FFFD (C17_utf8_text_exact, C17_utf8_text_refuted)."
  },
  {
   "property": "C18",
   "status": "proved",
   "theorems": [
    "C18_unique_ids",
    "C18_valid_id"
   ],
   "note": "For all runs with fewer than 2^64 Create calls."
  },
  {
   "property": "C19",
   "status": "proved",
   "theorems": [
    "C19_reply_belongs",
    "C19_conservation",
    "C19_delivered",
    "C19_context_seen",
    "C19_context_returned"
   ],
   "note": ""
  },
  {
   "property": "C20",
   "status": "partial",
   "theorems": [
    "C20_serial_once",
    "C20_serial_no_block",
    "C20_twice_refuted",
    "C20_blocks_refuted"
   ],
   "note": "Proved when Fulfill/Fail calls for one identifier do not overlap (the client calls them from one goroutine); for overlapping calls the unchanged code violates both halves: C20_twice_refuted, C20_blocks_refuted."
  },
  {
   "property": "C21",
   "status": "proved",
   "theorems": [
    "C21_is_pending",
    "C21_pending_requests",
    "C21_after_await",
    "C21_after_resolved",
    "C21_fulfill_finds",
    "C21_fail_finds",
    "C21_calls",
    "C21_steps",
    "C21_waiting"
   ],
   "note": ""
  },
  {
   "property": "C22",
   "status": "partial",
   "theorems": [
    "C22_never_over_admits",
    "C22_release_panics_iff",
    "C22_acquire",
    "C22_try_acquire",
    "C22_fifo",
    "C22_no_lost_wakeup",
    "C22_idle",
    "C22_no_lost_wakeup_uniform",
    "C22_cancel",
    "C22_calls",
    "C22_steps",
    "C22_returns",
    "C22_waiting",
    "C22_lost_wakeup_refuted"
   ],
   "note": "For weights >= 0. After a cancelled wait a waiter that would fit can be left waiting when weights differ (refuted); the library itself only uses weight 1 without cancellation."
  },
  {
   "property": "C23",
   "status": "proved",
   "theorems": [
    "C23_concurrency_limit",
    "C23_waits_only_at_limit"
   ],
   "note": ""
  },
  {
   "property": "C24",
   "status": "proved",
   "theorems": [
    "C24_in_order",
    "C24_numbers",
    "C24_none_lost",
    "C24_no_stuck",
    "C24_prompt"
   ],
   "note": ""
  },
  {
   "property": "C25",
   "status": "partial",
   "theorems": [
    "C25_shutdown_waits_partial",
    "C25_shutdown_returns_partial",
    "C25_late_signal_refuted"
   ],
   "note": "Full statement fails: a signal that arrives while Shutdown waits is still handled, and its end closes the channel Shutdown waits on although another handler is running (C25_late_signal_refuted). Proved for schedules on which no signal is registered once the shutdown flag is set and fewer than 2^32 messages are handled at once."
  },
  {
   "property": "C26",
   "status": "partial",
   "theorems": [
    "C26_requests_refused",
    "C26_shutdown_reply",
    "C26_signals_refuted",
    "C26_crash_refuted",
    "C26_slot_leak"
   ],
   "note": "Requests: proved for every schedule. Signals are not dropped (C26_signals_refuted), and refusing a request on a socket without a writer panics (C26_crash_refuted). Each refused request also leaks its handler slot (C26_slot_leak)."
  },
  {
   "property": "C27",
   "status": "proved",
   "theorems": [
    "C27_counter_exact",
    "C27_counter_modulo",
    "C27_no_underrun",
    "C27_only_before_shutdown"
   ],
   "note": "Exact modulo 2^32 in general, exact when fewer than 2^32 messages are handled at once. C27_only_before_shutdown shows that the hypothesis 'no shutdown requested' is needed."
  },
  {
   "property": "C28",
   "status": "partial",
   "theorems": [
    "C28_unlink_once_partial",
    "C28_unlink_happens_partial",
    "C28_unlink_decision",
    "C28_tasks_exact",
    "C28_second_close",
    "C28_closed_ignores",
    "C28_race_refuted"
   ],
   "note": "Full statement fails: the read loop checks for activity before it waits for a slot, so a message can be registered after the connection was unlinked, and the connection is then unlinked twice (C28_race_refuted). Proved for schedules on which a connection is not closed between that check and the registration; the decision to unlink and the task counter are proved for all schedules."
  },
  {
   "property": "C29",
   "status": "proved",
   "theorems": [
    "C29_hooks_paired",
    "C29_disconnect_follows",
    "C29_failed_read_ends",
    "C29_frames",
    "C29_malformed_not_handled",
    "C29_handled_once",
    "C29_handled_valid"
   ],
   "note": ""
  },
  {
   "property": "C30",
   "status": "proved",
   "theorems": [
    "C30_limit"
   ],
   "note": "All runs, no restriction on interleavings."
  },
  {
   "property": "C31",
   "status": "partial",
   "theorems": [
    "C31_registry",
    "C31_deregister",
    "C31_counts_partial",
    "C31_restore_over_refuted"
   ],
   "note": "In every run the numbers are those of the registered connections (C31_registry). They are those of the connections having the session in quiet states of orderly runs; restoring a session over another one leaves a stale registration (C31_restore_over_refuted)."
  },
  {
   "property": "C32",
   "status": "partial",
   "theorems": [
    "C32_agree_partial",
    "C32_sound_partial",
    "C32_join",
    "C32_otherwise_unchanged",
    "C32_disconnect_partial",
    "C32_stale_refuted",
    "C32_unlisted_refuted",
    "C32_race_refuted"
   ],
   "note": "Proved for connections without call in progress in orderly runs: session requests and disconnection do not overlap other calls on that connection, sessions are restored only on connections without session, and a created key has room. Each restriction is needed: C32_stale_refuted, C32_unlisted_refuted, C32_race_refuted."
  },
  {
   "property": "C33",
   "status": "partial",
   "theorems": [
    "C33_leave_partial",
    "C33_exactly_partial",
    "C33_exactly_quiet_partial",
    "C33_alone_partial",
    "C33_close_partial",
    "C33_revival_refuted"
   ],
   "note": "Orderly runs (see C32): OnSessionClosed exactly once per last departure by a call, none by disconnection. 'Never while another connection has the session' fails if the session is restored between the last departure and the hook (C33_revival_refuted), and holds otherwise (C33_alone_partial)."
  },
  {
   "property": "C34",
   "status": "partial",
   "theorems": [
    "C34_server_close_partial",
    "C34_errors",
    "C34_stale_refuted"
   ],
   "note": "Proved for calls that run without interference in quiet states of orderly runs, for every number of connections and error pattern. With a stale registration another session is closed (C34_stale_refuted)."
  },
  {
   "property": "C35",
   "status": "partial",
   "theorems": [
    "C35_create",
    "C35_disconnected",
    "C35_unlisted_refuted"
   ],
   "note": "Proved for calls without interference, in every state. If the generated key belongs to a session with the maximum of connections CreateSession succeeds without registering the connection (C35_unlisted_refuted)."
  },
  {
   "property": "C36",
   "status": "proved",
   "theorems": [
    "C36_decision"
   ],
   "note": "Every state, every lookup result, every writer; includes the reply on the wire."
  },
  {
   "property": "C37",
   "status": "partial",
   "theorems": [
    "C37_race_refuted",
    "C37_causes_partial",
    "C37_no_crash_partial"
   ],
   "note": "Refuted by two restorations racing between limit check and registration. When calls on one connection do not overlap, that and panics caused by the application are the only ways to crash."
  },
  {
   "property": "C38",
   "status": "partial",
   "theorems": [
    "C38_settled_once",
    "C38_reply_frame",
    "C38_dropped_only_if_closed",
    "C38_one_reply_partial",
    "C38_unsendable_refuted",
    "C38_no_reply_unless_wanted",
    "C38_routing",
    "C38_session_replies",
    "C38_session_reply_owner",
    "C38_closing_request"
   ],
   "note": "Proved for every handler result that can be encoded; a reply with an odd number of UTF-16 bytes, an invalid error code or a nil *ErrRequest is never answered (C38_unsendable_refuted). C38_settled_once: on all schedules a request is settled exactly once."
  },
  {
   "property": "C39",
   "status": "proved",
   "theorems": [
    "C39_foreign_errors_hidden",
    "C39_error_replies"
   ],
   "note": ""
  },
  {
   "property": "C40",
   "status": "partial",
   "theorems": [
    "C40_write_fits",
    "C40_flush_partial",
    "C40_messages",
    "C40_messages_flushed",
    "C40_messages_run",
    "C40_overflow_refuted"
   ],
   "note": "Every run: a write succeeds exactly if it fits, a flush is what was written since the last write that did not fit; for the WriteMsg* functions it is exactly their frame. A caller that goes on after an overflow delivers the rest of its message (C40_overflow_refuted). After Close without data the buffer is not reusable (C41)."
  },
  {
   "property": "C41",
   "status": "partial",
   "theorems": [
    "C41_wedged_refuted",
    "C41_empty_refuted",
    "C41_next_partial"
   ],
   "note": "Refuted for every WriteMsg* call with invalid arguments or with a message that does not fit: no later GetWriter on that socket returns. Otherwise the next writer is obtained at once (C41_next_partial)."
  },
  {
   "property": "C42",
   "status": "partial",
   "theorems": [
    "C42_writers",
    "C42_prefix_partial",
    "C42_readers_partial",
    "C42_never_full_partial",
    "C42_redial_refuted"
   ],
   "note": "Writers exclude one another in every run. Order, exactly once and unmodified: in runs where no pair is dialed while it is in use; otherwise refuted (C42_redial_refuted)."
  },
  {
   "property": "C43",
   "status": "partial",
   "theorems": [
    "C43_send_refuted",
    "C43_causes_partial",
    "C43_redial_refuted",
    "C43_writer_refuted",
    "C43_reader_refuted",
    "C43_no_panic_partial",
    "C43_unblocks_partial",
    "C43_close_runs_partial"
   ],
   "note": "Refuted in four ways (panic on send, panic on close, hanging writer, hanging reader). Proved when Close does not start while a writer is between its status check and waiting, or while a message waited for is being read."
  },
  {
   "property": "C44",
   "status": "partial",
   "theorems": [
    "C44_connects_partial",
    "C44_shutting_refuted",
    "C44_closed_refuted"
   ],
   "note": "Refuted for the last two errors Dial can return; proved for the other two."
  },
  {
   "property": "C45",
   "status": "partial",
   "theorems": [
    "C45_closes_partial",
    "C45_refused_partial",
    "C45_again",
    "C45_race_refuted",
    "C45_early_refuted"
   ],
   "note": "Proved when no Dial is under way while Shutdown runs and none failed before leaving its pair connected (C44); both restrictions are necessary (C45_race_refuted, C44_closed_refuted)."
  },
  {
   "property": "C46",
   "status": "partial",
   "theorems": [
    "C46_inside_partial",
    "C46_distinct_partial",
    "C46_generated",
    "C46_distinct_refuted",
    "C46_inside_refuted"
   ],
   "note": "For keys without a slash, which includes all generated keys: each file is an entry of the session directory named after the key, different keys have different files. The server takes keys from clients unchecked; for these both halves are refuted: './k' and 'k' share a file, and every file name ending in .wwrsess anywhere in the file system belongs to some key."
  },
  {
   "property": "C47",
   "status": "partial",
   "theorems": [
    "C47_map_partial",
    "C47_found_partial",
    "C47_gone_partial",
    "C47_total",
    "C47_no_access",
    "C47_map_refuted"
   ],
   "note": "Hooks called one after the other return exactly what a map of sessions returns (serve), for keys without a slash, accessible files and an encoder that is faithful up to a normalisation norm (JSON turns numbers into float64 etc., so info comes back as norm info, not as it was). Refuted for keys with a slash ('./k' finds session k)."
  },
  {
   "property": "C48",
   "status": "partial",
   "theorems": [
    "C48_others",
    "C48_lookup_partial",
    "C48_lookup_refuted",
    "C48_create",
    "C48_close"
   ],
   "note": "Other sessions survive any crash, failure or overlap at any point (others). The looked up session itself does not: every lookup has a point (after the file was truncated) after which the session cannot be read any more (lookup_refuted); lookup_partial says exactly what is found after a crash."
  },
  {
   "property": "C49",
   "status": "proved",
   "theorems": [
    "C49_shape",
    "C49_injective",
    "C49_surjective",
    "C49_exact",
    "C49_padding",
    "C49_session"
   ],
   "note": "Random bytes are a parameter; base64 encoding is modelled in full."
  },
  {
   "property": "C50",
   "status": "proved",
   "theorems": [
    "C50_copy",
    "C50_isolated",
    "C50_unique",
    "C50_fields",
    "C50_value",
    "C50_value_isolated",
    "C50_var_map",
    "C50_var_map_nil",
    "C50_clone",
    "C50_nil_key",
    "C50_cyclic",
    "C50_opaque"
   ],
   "note": "For all acyclic values without nil map keys: Copy, Value, SessionInfoToVarMap and Clone end, return a value that looks the same (same tree of types, lengths, capacities, keys, scalars), leave the original untouched, and are independent of it under any later writes. Plain data (maps, slices, scalars) shares nothing. Structs, arrays and pointers are copied as they are (C50_opaque), nil keys panic, cyclic values do not end; these are outside the property's quantifier."
  },
  {
   "property": "C51",
   "status": "proved",
   "theorems": [
    "C51_prepare",
    "C51_idempotent",
    "C51_flags"
   ],
   "note": "Loggers, parsers, generators and managers are opaque values (nil, default or given)."
  },
  {
   "property": "C52",
   "status": "partial",
   "theorems": [
    "C52_server",
    "C52_no_server",
    "C52_fits_partial",
    "C52_fits_refuted",
    "C52_handshake_partial",
    "C52_handshake_refuted"
   ],
   "note": "The server sends its configuration only as far as it fits the buffer: partial theorems say when it does, refuted ones give the configurations for which it does not."
  },
  {
   "property": "C53",
   "status": "partial",
   "theorems": [
    "C53_hook_panic_refuted"
   ],
   "note": "The recovering function uses asr.server, which newSessionRegistry never sets."
  },
  {
   "property": "C54",
   "status": "partial",
   "theorems": [
    "C54_create_close_refuted",
    "C54_restore_close_refuted"
   ],
   "note": "Two interleavings that crash; C37_causes_partial characterises the crashes when calls on a connection do not overlap."
  },
  {
   "property": "C55",
   "status": "proved",
   "theorems": [
    "C55_progress"
   ],
   "note": "Every run."
  },
  {
   "property": "C56",
   "status": "partial",
   "theorems": [
    "C56_distinct",
    "C56_same_refuted"
   ],
   "note": "Proved for calls with different keys (any number, any interleaving). Refuted for one key: of two overlapping lookups of a stored session one can fail."
  },
  {
   "property": "C57",
   "status": "partial",
   "theorems": [
    "C57_closed_refuted"
   ],
   "note": "Refuted: a lookup that overlaps with OnSessionClosed writes the file again; the session is back. Without overlap C47_gone_partial holds."
  },
  {
   "property": "C58",
   "status": "partial",
   "theorems": [
    "C58_root_partial",
    "C58_user_refuted",
    "C58_nested_refuted",
    "C58_access",
    "C58_exists"
   ],
   "note": "Holds for root. Refuted for others: the directory is made with mode 0640, without search permission, so no session can be stored in a directory made by the constructor, and a nested directory cannot be made at all (panic)."
  },
  {
   "property": "C59",
   "status": "proved",
   "theorems": [
    "C59_accessors",
    "C59_replies",
    "C59_reply_is_result",
    "C59_replied_before_release",
    "C59_handled_once",
    "C59_session_keys",
    "C59_session_answers",
    "C59_shutdown_replies",
    "C59_frames_distinct",
    "C59_exclusive",
    "C59_message_kept",
    "C59_not_leaked",
    "C59_released_once",
    "C59_released_reusable",
    "C59_answered_before_release",
    "C59_hook_kinds",
    "C59_no_panic"
   ],
   "note": "ModelServe composes the message pool, the read loops and the handlers of any number of connections (addresses of messages are explicit). Hypothesis polite: no handler calls Close on its message (see C60); C59_no_panic also assumes no nil *ErrRequest (C38) and an available writer for the shutdown reply (C26)."
  },
  {
   "property": "C60",
   "status": "partial",
   "theorems": [
    "C60_closed_request_refuted",
    "C60_wrong_reply_refuted"
   ],
   "note": "Refuted: after Close() in the handler an error result is not sent at all, a successful one goes out without identifier, and once the message is recycled the reply carries the identifier of another client's request and the other handler panics."
  },
  {
   "property": "C61",
   "status": "proved",
   "theorems": [
    "C61_until_return",
    "C61_until_release"
   ],
   "note": "The slice also stays valid until the message is released, after the reply was sent (C61_until_release). The example shows that it changes afterwards, as the documentation warns."
  },
  {
   "property": "C62",
   "status": "partial",
   "theorems": [
    "C62_timeouts_partial",
    "C62_stale_tick_refuted",
    "C62_gets_message",
    "C62_gets_closed",
    "C62_returns_outcome",
    "C62_failed_closes",
    "C62_ends",
    "C62_goes",
    "C62_parked"
   ],
   "note": "With the timers of Go 1.22 and before (the project is built with 1.11) a tick left in the timer channel by an earlier Read makes the next Read time out at once (C62_stale_tick_refuted); the theorem names that exception exactly. With the timers since Go 1.23 the property holds without exception (fixed = true)."
  },
  {
   "property": "C63",
   "status": "partial",
   "theorems": [
    "C63_agree",
    "C63_listed_partial",
    "C63_waits",
    "C63_created_hook_partial",
    "C63_closure_hook_partial",
    "C63_closed_hook_refuted"
   ],
   "note": "Proved: agreement of the getters in every run (session requests being received frames), waiting exactly while CreateSession/CloseSession change the session, use in OnSessionCreated and in OnSessionClosed of a closure request (calls concerning one connection not overlapping). Partial: listing needs orderly runs, see C31. Refuted: in OnSessionClosed invoked by connection.CloseSession or Server.CloseSession the connection's sessionLock is held, so its getters block until the hook returns."
  },
  {
   "property": "C64",
   "status": "proved",
   "theorems": [
    "C64_own_reply",
    "C64_in_order",
    "C64_handled_once",
    "C64_handler_sees",
    "C64_no_loss",
    "C64_no_double",
    "C64_serial",
    "C64_never_stuck",
    "C64_resolved_once",
    "C64_resolved",
    "C64_delivered"
   ],
   "note": "The client is a model of its own (the repository has none): it creates requests, writes each once, and gives every reply read to Fulfill or Fail. Assumes fewer than 2^64 requests per client and handlers that do not close messages (C60)."
  },
  {
   "property": "C65",
   "status": "partial",
   "theorems": [
    "C65_work_ends",
    "C65_finishes",
    "C65_at_rest",
    "C65_handlers_returned",
    "C65_requests_settled_partial",
    "C65_messages_settled_partial",
    "C65_connected_hook",
    "C65_disconnected_hook",
    "C65_unlinked_partial",
    "C65_shutdown_returned_partial",
    "C65_crash_exact",
    "C65_no_crash_partial",
    "C65_starved",
    "C65_starved_refuted"
   ],
   "note": "Proved: at most twelve own steps per goroutine from any state, a state at rest is always reached, exact description of the goroutines at rest and of the steps that panic. Partial: a connection whose handler slots were all lost by refusing requests during shutdown keeps its next message for ever (C65_starved, C65_starved_refuted); unlinking and the return of Shutdown carry the restrictions of C28 and C25; no panic in calm runs where requests are refused only with a writer at hand and no handler returns a nil *ErrRequest."
  },
  {
   "property": "C66",
   "status": "partial",
   "theorems": [
    "C66_blocks",
    "C66_graceful_partial",
    "C66_returns",
    "C66_no_error",
    "C66_refused",
    "C66_begins",
    "C66_handler_runs_refuted",
    "C66_early_refuted"
   ],
   "note": "Run blocks, returns after Shutdown, fails afterwards: all runs. That handlers have returned when Run does: runs without signals registered after the shutdown flag was set (and fewer than 2^32 handlers); two refuting runs: Run returns nil while a late signal's handler runs, and while Shutdown is still closing connections."
  },
  {
   "property": "C67",
   "status": "partial",
   "theorems": [
    "C67_accepted",
    "C67_dialed",
    "C67_sockets",
    "C67_configured_partial",
    "C67_handshake_failed",
    "C67_unlinked",
    "C67_late",
    "C67_after_shutdown_refuted"
   ],
   "note": "Correspondence of dials and calls of handleConnection and rejection of late dials: all runs. Configuration message read by the client: runs in which pairs are not dialed while in use. Refuted: a dial that had asked before Shutdown is accepted, and OnClientConnected invoked, after Shutdown has returned."
  },
  {
   "property": "C68",
   "status": "partial",
   "theorems": [
    "C68_own_socket",
    "C68_read_failed",
    "C68_in_order_partial",
    "C68_number_partial",
    "C68_handled_partial",
    "C68_other_connection_refuted"
   ],
   "note": "Own socket: all runs. Order, completeness and handlers: runs in which a pair is dialed again only when the server has left the read loop of its last connection; refuting run without that."
  },
  {
   "property": "C69",
   "status": "partial",
   "theorems": [
    "C69_reply",
    "C69_refusal",
    "C69_reply_read_partial",
    "C69_refusal_read_partial",
    "C69_round_trip_partial",
    "C69_refusal_trip_partial",
    "C69_other_connection_refuted"
   ],
   "note": "All of the reply or nothing, once, to the own socket: all runs. Read by the client on success: runs in which pairs are not dialed while in use. Round trip: as C68. Refuted: after dialing again the reply arrives over the new connection."
  },
  {
   "property": "C70",
   "status": "partial",
   "theorems": [
    "C70_answer_partial",
    "C70_clock",
    "C70_hooks_partial",
    "C70_created_partial",
    "C70_closed_partial",
    "C70_genuine_partial",
    "C70_kept_partial",
    "C70_gone_partial",
    "C70_overlap_refuted",
    "C70_closed_refuted",
    "C70_restart_refuted",
    "C70_failing_refuted",
    "C70_alias_refuted",
    "C70_alias_close_refuted",
    "C70_create_close_refuted",
    "C70_panic_refuted"
   ],
   "note": "Holds when calls of the hooks for one key do not overlap, the system calls of the hooks work, the process does not end within a hook, keys name files in the folder, and session calls on one connection do not overlap; each of these conditions is shown necessary by a refuting run."
  },
  {
   "property": "C71",
   "status": "proved",
   "theorems": [
    "C71_call",
    "C71_bounded",
    "C71_at_rest",
    "C71_unlocked",
    "C71_finishes"
   ],
   "note": ""
  },
  {
   "property": "C72",
   "status": "partial",
   "theorems": [
    "C72_rest_partial",
    "C72_open_partial",
    "C72_shutdown_partial",
    "C72_call",
    "C72_listing",
    "C72_rest_refuted",
    "C72_reader_refuted"
   ],
   "note": "Proved for runs in which pairs are not dialed while in use and Close does not start while a writer is between its check of the status and its wait, or while a message is being answered; C72_rest_refuted and C72_reader_refuted are runs without the latter in which a writer and a reader wait for ever on a disconnected pair."
  },
  {
   "property": "C73",
   "status": "partial",
   "theorems": [
    "C73_links",
    "C73_ends",
    "C73_others",
    "C73_close",
    "C73_dial",
    "C73_offline",
    "C73_panics",
    "C73_address",
    "C73_address_stays",
    "C73_handed",
    "C73_connection",
    "C73_no_socket",
    "C73_info",
    "C73_address_refuted"
   ],
   "note": "Full except that RemoteAddr is never nil: socket.go:31-33 documents nil for a socket that is not connected (C73_address_refuted). Calls do not overlap in this model; C42-C45 and C72 have them overlap on the pairs it describes."
  },
  {
   "property": "C74",
   "status": "partial",
   "theorems": [
    "C74_goes",
    "C74_calls",
    "C74_ends",
    "C74_rest_partial",
    "C74_done_partial",
    "C74_shutdown_partial",
    "C74_run_partial",
    "C74_session",
    "C74_unread_refuted"
   ],
   "note": "Proved for all runs: when a goroutine goes on, the bound on steps, session replies. The state at rest is described for runs in which pairs are dialed only while not in use, clients close politely and no signal is registered after the shutdown flag was set (faults of C25, C42, C43). C74_unread_refuted: a client that does not read its reply keeps Shutdown and Run waiting for ever."
  },
  {
   "property": "C75",
   "status": "partial",
   "theorems": [
    "C75_writes",
    "C75_races_partial",
    "C75_session_partial",
    "C75_session_refuted",
    "C75_unlock",
    "C75_accesses",
    "C75_bytes_partial",
    "C75_bytes_writers",
    "C75_bytes_refuted"
   ],
   "note": "Proved for all fields but con.session and the bytes of transport buffers (C75_races_partial), write/write races and unlocking for all; con.session is read without its lock by Close, CreateSession and the session requests (C75_session_refuted); C75_session_partial: no race for connections these are not called on. The bytes of transport buffers: C75_bytes_partial, if pairs are not dialed again while in use, and C75_bytes_refuted otherwise. C75_accesses is the complete table of accesses."
  },
  {
   "property": "C76",
   "status": "partial",
   "theorems": [
    "C76_finish_partial",
    "C76_free_partial",
    "C76_hook_refuted",
    "C76_empty_refuted"
   ],
   "note": "Proved if hooks that run while locks are held make no calls that take the lock of a session, and no writer is closed without a write; both conditions are needed (C76_hook_refuted, C76_empty_refuted)."
  },
  {
   "property": "C77",
   "status": "proved",
   "theorems": [
    "C77_translate",
    "C77_timeout",
    "C77_canceled",
    "C77_await",
    "C77_text",
    "C77_speaks",
    "C77_reports",
    "C77_distinct",
    "C77_made",
    "C77_made_kinds",
    "C77_handler_errors",
    "C77_failed",
    "C77_seen"
   ],
   "note": "What package fmt prints for an error whose Error() panics is a parameter of the theorems. The list of places that make errors (made) was read off the sources by hand."
  },
  {
   "property": "C78",
   "status": "partial",
   "theorems": [
    "C78_reasons_partial",
    "C78_sure_reasons",
    "C78_closed",
    "C78_redial_refuted"
   ],
   "note": "Needs that pairs are not dialed while they are in use (calm); without that only the results listed by [sure] keep their reasons (C78_sure_reasons), and C78_redial_refuted shows a Read that reports a closed socket though the socket was connected during the whole call."
  },
  {
   "property": "C79",
   "status": "partial",
   "theorems": [
    "C79_shows",
    "C79_stays",
    "C79_exclusive",
    "C79_closes",
    "C79_reader",
    "C79_given_back",
    "C79_nil_from_fail",
    "C79_closed_refuted",
    "C79_nil_refuted"
   ],
   "note": "The reader is the user's: it gives to Fulfill only messages it holds, and replies are closed at most once (moves in SpecReply). Two parts of the statement fail: Fail with a nil error yields a reply without a message, whose methods panic (C79_nil_refuted; C79_nil_from_fail shows it is the only way), and a closed reply shows, and can close, the message of another reply that reuses it (C79_closed_refuted)."
  },
  {
   "property": "C80",
   "status": "partial",
   "theorems": [
    "C80_grammar",
    "C80_quoted",
    "C80_unquoted",
    "C80_strings",
    "C80_no_markup",
    "C80_maps",
    "C80_wrote",
    "C80_carried",
    "C80_file_text",
    "C80_file_fails_iff",
    "C80_file_read",
    "C80_faithful",
    "C80_found_partial",
    "C80_same",
    "C80_read_again",
    "C80_same_refuted"
   ],
   "note": "The full statement (infos come back with the same values) is refuted: integers come back as float64, nil slices as nil, invalid UTF-8 as U+FFFD, and entries whose names become equal are lost (C80_same_refuted). Proved: exactly what is written and read, what infos become, which infos come back unchanged; C80_found_partial is C47 for this codec, with C47's restriction to usable keys. How floats and times are printed is a parameter bound by sound."
  },
  {
   "property": "C81",
   "status": "partial",
   "theorems": [
    "C81_text",
    "C81_fails_iff",
    "C81_told",
    "C81_read",
    "C81_key_partial",
    "C81_generated",
    "C81_key_refuted"
   ],
   "note": "Refuted for keys that are not UTF-8, which only user-defined generators make: the client is told another key. The default generator's keys are told as they are (C81_generated)."
  },
  {
   "property": "C82",
   "status": "proved",
   "theorems": [
    "C82_same_kinds",
    "C82_signal",
    "C82_request",
    "C82_reply",
    "C82_error",
    "C82_special",
    "C82_others",
    "C82_same_calls",
    "C82_connection_signal",
    "C82_read",
    "C82_socket"
   ],
   "note": ""
  },
  {
   "property": "C83",
   "status": "partial",
   "theorems": [
    "C83_reply",
    "C83_error_reply",
    "C83_special_reply",
    "C83_no_writer",
    "C83_request",
    "C83_restore",
    "C83_restore_others",
    "C83_no_writer_handlers",
    "C83_closure",
    "C83_hook_refuted",
    "C83_created_and_read",
    "C83_config",
    "C83_config_no_writer",
    "C83_same_replies"
   ],
   "note": "Refuted for OnSessionClosed: if it returns an error, the entry is the constant text 'session registry ' (newServer.go:81); if it panics, the recovering function uses a nil server and panics itself (sessionRegistry.go:88-95, cf. C53). Everything else holds as stated."
  },
  {
   "property": "C84",
   "status": "proved",
   "theorems": [
    "C84_create_thread",
    "C84_close_thread",
    "C84_created",
    "C84_lookup",
    "C84_closed",
    "C84_directory",
    "C84_same_hooks",
    "C84_create",
    "C84_create_sent",
    "C84_close",
    "C84_close_sent",
    "C84_disk_to_log"
   ],
   "note": ""
  },
  {
   "property": "C85",
   "status": "proved",
   "theorems": [
    "C85_start",
    "C85_conf",
    "C85_duration",
    "C85_stop",
    "C85_close"
   ],
   "note": "ModelStart gives the functions of ModelOptions their error values; Duration.String is modelled for durations of at least one second, the only ones NewServer prints."
  },
  {
   "property": "C86",
   "status": "proved",
   "theorems": [
    "C86_getwriter",
    "C86_blocks",
    "C86_signal",
    "C86_request",
    "C86_reply",
    "C86_error",
    "C86_special",
    "C86_others",
    "C86_connection_signal",
    "C86_session_too_large",
    "C86_session",
    "C86_get_thread",
    "C86_write_thread",
    "C86_flush_thread",
    "C86_any_run"
   ],
   "note": ""
  },
  {
   "property": "C87",
   "status": "proved",
   "theorems": [
    "C87_request",
    "C87_restore",
    "C87_closure",
    "C87_shutdown"
   ],
   "note": ""
  },
  {
   "property": "C88",
   "status": "proved",
   "theorems": [
    "C88_series",
    "C88_only",
    "C88_closed",
    "C88_interrupted",
    "C88_interrupted_only",
    "C88_long_code"
   ],
   "note": "send_all composes GetWriter of ModelSend with the message functions of ModelReport; sequential calls on one socket. Error codes above 255 bytes written without the check panic (C22) and are excluded."
  },
  {
   "property": "C89",
   "status": "proved",
   "theorems": [
    "C89_config",
    "C89_close_session"
   ],
   "note": "start (handleConnection.go:8-46) and CloseSession (connection.go:279-297) over the socket of ModelSend; a panicking OnSessionClosed hook is excluded (C83)."
  },
  {
   "property": "C90",
   "status": "proved",
   "theorems": [
    "C90_delivered",
    "C90_readable",
    "C90_interrupted",
    "C90_covered"
   ],
   "note": "Composition of C88 with the reader of C03; identifiers of eight bytes."
  },
  {
   "property": "C91",
   "status": "proved",
   "theorems": [
    "C91_requests",
    "C91_only"
   ],
   "note": "Sequential handlers on one connected socket; nil *ErrRequest excluded (panics, C83); the log is in C87."
  }
 ]
}