{
 "claims": [
  {
   "property": "C01",
   "status": "proved",
   "theorems": [
    "C01_pack_unpack",
    "C01_unpack_pack",
    "C01_field7_onto"
   ],
   "note": ""
  },
  {
   "property": "C02",
   "status": "proved",
   "theorems": [
    "C02_header_written",
    "C02_header_read",
    "C02_round_trip"
   ],
   "note": ""
  },
  {
   "property": "C03",
   "status": "proved",
   "theorems": [
    "C03_sent_frame",
    "C03_sendOneFrame_true",
    "C03_null_is_empty"
   ],
   "note": ""
  },
  {
   "property": "C04",
   "status": "proved",
   "theorems": [
    "C04_round_trip",
    "C04_prefix_always"
   ],
   "note": ""
  },
  {
   "property": "C05",
   "status": "proved",
   "theorems": [
    "C05_segmentation"
   ],
   "note": ""
  },
  {
   "property": "C06",
   "status": "proved",
   "theorems": [
    "C06_only_a_prefix",
    "C06_iterateFrame"
   ],
   "note": ""
  },
  {
   "property": "C07",
   "status": "proved",
   "theorems": [
    "C07_chunk_sizes",
    "C07_iterateFrame"
   ],
   "note": ""
  },
  {
   "property": "C08",
   "status": "proved",
   "theorems": [
    "C08_complete_frame",
    "C08_any_failure",
    "C08_truncated"
   ],
   "note": ""
  },
  {
   "property": "C09",
   "status": "proved",
   "theorems": [
    "C09_consumes_the_frame",
    "C09_any_failure"
   ],
   "note": ""
  },
  {
   "property": "C10",
   "status": "proved",
   "theorems": [
    "C10_unmasked",
    "C10_pointwise",
    "C10_involution"
   ],
   "note": ""
  },
  {
   "property": "C100",
   "status": "proved",
   "theorems": [
    "C100_blocking",
    "C100_async",
    "C100_any_schedule",
    "C100_completion",
    "C100_adaptive",
    "C100_only_a_prefix",
    "C100_told"
   ],
   "note": "C100_told: for any writes, a callback's coroutine is told that its send succeeded exactly if the whole frame is on the wire when it is told. Listeners that do not listen themselves (C99 is about those, for the blocking socket). C100_any_schedule and C100_completion are for listeners that only send (and throw); on the asynchronous socket looking at the data is C31, changing the configuration C45 and C54. Comparing the two sockets under failing writes: C28."
  },
  {
   "property": "C101",
   "status": "proved",
   "theorems": [
    "C101_between_frames",
    "C101_quiescent",
    "C101_ends",
    "C101_all_frames",
    "C101_goes_on",
    "C101_which_listening",
    "C101_close_refuted",
    "C101_error_refuted"
   ],
   "note": "Asynchronous counterpart of C99. The callbacks send, listen and throw (only between frames); which listening a Close ends is said exactly, for every stream, by C101_which_listening (listeners that listen on every ping); the clause on rejected frames is shown by one run (C101_error_refuted)."
  },
  {
   "property": "C102",
   "status": "proved",
   "theorems": [
    "C102_threads",
    "C102_coroutines",
    "C102_async"
   ],
   "note": "No hypotheses: any world, any listeners, any work of other threads and coroutines, any schedule. C102_async is listenAsync on its own with the arrivals of its run."
  },
  {
   "property": "C11",
   "status": "proved",
   "theorems": [
    "C11_close_round_trip"
   ],
   "note": ""
  },
  {
   "property": "C12",
   "status": "proved",
   "theorems": [
    "C12_close_is_last_call",
    "C12_returns_and_stops_reading",
    "C12_several_threads",
    "C12_async",
    "C12_several_coroutines"
   ],
   "note": "several_threads, async, several_coroutines: the first half for every listener code, any number of threads or coroutines doing anything, every schedule and every write behaviour, on both sockets."
  },
  {
   "property": "C13",
   "status": "proved",
   "theorems": [
    "C13_stop_after_current_frame"
   ],
   "note": ""
  },
  {
   "property": "C14",
   "status": "partial",
   "theorems": [
    "C14_stop_by_frame_end_partial",
    "C14_blocked_read_refuted",
    "C14_early_stop_refuted"
   ],
   "note": "False of the code as documented: a stop on an idle connection leaves listen() blocked in read(), and a stop before listen() is lost (both refuted for every listener and socket). Proved: a stop made before the last byte of a frame arrives ends listening at the end of that frame at the latest."
  },
  {
   "property": "C15",
   "status": "proved",
   "theorems": [
    "C15_no_exception",
    "C15_blocked_in_the_connection",
    "C15_returns_or_blocks",
    "C15_threads",
    "C15_threads_safe"
   ],
   "note": "C15_threads: the same with any number of other threads in any order, each kind of undefined behaviour traced to the call without which it cannot happen (setListener(nullptr) in another thread, setConfig, a message of 2^31 bytes)."
  },
  {
   "property": "C16",
   "status": "partial",
   "theorems": [
    "C16_oversized_control_partial",
    "C16_never_called",
    "C16_top_bit_control_refuted"
   ],
   "note": "Proved for declared lengths 126..2^63-1; false for lengths with the top bit set, which count as 0 (refuted universally)."
  },
  {
   "property": "C17",
   "status": "proved",
   "theorems": [
    "C17_unknown_opcode",
    "C17_never_called"
   ],
   "note": ""
  },
  {
   "property": "C18",
   "status": "proved",
   "theorems": [
    "C18_stray_continuation",
    "C18_interrupted_message",
    "C18_control_between_fragments"
   ],
   "note": ""
  },
  {
   "property": "C19",
   "status": "partial",
   "theorems": [
    "C19_survives_partial",
    "C19_next_message_rejected_refuted"
   ],
   "note": "False of the code: after any fragmented message the next text/binary frame is always rejected (refuted universally). Partial: pings/pongs still work, and messages before the first fragmented one."
  },
  {
   "property": "C20",
   "status": "partial",
   "theorems": [
    "C20_unfragmented_partial",
    "C20_continuation_opcode_refuted"
   ],
   "note": "False of the code: continuation data is always reported under opcode 0 (refuted universally). Proved for streams without continuation frames, under any failure."
  },
  {
   "property": "C21",
   "status": "partial",
   "theorems": [
    "C21_top_bit_accepted_refuted"
   ],
   "note": "False of the code: every such frame is accepted as an empty one and its payload is read as frames (refuted universally)."
  },
  {
   "property": "C22",
   "status": "partial",
   "theorems": [
    "C22_not_validated_refuted",
    "C47_until_first_violation"
   ],
   "note": "False of the code: RSV, FIN of control frames and masking make no observable difference (refuted universally). What is guaranteed is C47: everything up to the first violation is read as the RFC prescribes."
  },
  {
   "property": "C23",
   "status": "partial",
   "theorems": [
    "C23_send_reported_and_prefix",
    "C23_sendOneFrame_reported_and_prefix",
    "C23_stops_listening_partial",
    "C23_stops_listening_exact",
    "C23_stops_listening_refuted"
   ],
   "note": "Reporting and the prefix property are proved in full. 'the socket stops listening' is false of the code when a header write fails and for sendOneFrame (refuted for every such call); C23_stops_listening_exact says exactly when it holds: a convenience call fails after its header was written completely."
  },
  {
   "property": "C24",
   "status": "proved",
   "theorems": [
    "C24_masking_of_everything_sent",
    "C24_constructed",
    "C24_async",
    "C24_async_server",
    "C24_server"
   ],
   "note": "C24_async* for messages below 2 GiB."
  },
  {
   "property": "C25",
   "status": "partial",
   "theorems": [
    "C25_safe_partial",
    "C25_only_way",
    "C25_overflow_refuted",
    "C25_overflow_by_thread_refuted",
    "C25_negative_count_refuted"
   ],
   "note": "Proved for every input, listener and schedule as long as the read buffer size is not changed; false if setConfig changes it while a payload is read (refuted for every data frame and every buffer size, from a callback and from another thread). C25_only_way: no other way to undefined behaviour exists while receiving (besides C26's)."
  },
  {
   "property": "C26",
   "status": "partial",
   "theorems": [
    "C26_send_no_ub_partial",
    "C26_send_ub_refuted"
   ],
   "note": "False of the code: masking a message of 2^31 bytes or more overflows the v_int32 loop counter (refuted, universally). Proved UB-free below that size and for unmasked messages."
  },
  {
   "property": "C27",
   "status": "proved",
   "theorems": [
    "C27_silent",
    "C27_async"
   ],
   "note": "C27_silent for listen, C27_async for listenAsync under every schedule (listeners that do nothing)."
  },
  {
   "property": "C28",
   "status": "partial",
   "theorems": [
    "C28_any_schedule_partial",
    "C28_completion_partial",
    "C28_before_failure_partial",
    "C28_up_to_failure_partial",
    "C28_swallowed_failure_refuted",
    "C28_raw_send_failure_refuted"
   ],
   "note": "Proved for every schedule, input, segmentation, retry and failure pattern and every listener reaction made of sends and throws, as long as listener code does not ignore the failure of a send (or no write fails; a peer that stops taking data is allowed). For listeners that do anything about failures: both sockets agree completely, or both have had a write fail and agree in everything up to it (C28_before_failure_partial, C28_up_to_failure_partial). False of the code from that moment on: a blocking socket stops listening after a swallowed send failure, the async one goes on; sendOneFrame returns false where the async version raises an error (both refuted). C52 says what does hold for these listeners."
  },
  {
   "property": "C29",
   "status": "proved",
   "theorems": [
    "C29_any_schedule",
    "C29_completion",
    "C29_frame_on_the_wire"
   ],
   "note": ""
  },
  {
   "property": "C30",
   "status": "partial",
   "theorems": [
    "C30_call_is_its_writes",
    "C30_locked_partial",
    "C30_async_locked_partial",
    "C30_bytes_kept_partial",
    "C30_async_bytes_kept_partial",
    "C30_any_connection_partial",
    "C30_async_any_connection_partial",
    "C30_unlocked_refuted",
    "C30_async_unlocked_refuted"
   ],
   "note": "False of the code: there is no lock, so the writes of two calls interleave (refuted for every two short ASCII texts, both sockets). Proved for any number of callers: with a lock around each call the peer receives a merge of intact frames; without it no byte is lost, invented or reordered within a caller, and whatever the connection does, each failure it answers ends at most one caller."
  },
  {
   "property": "C31",
   "status": "partial",
   "theorems": [
    "C31_masked_refuted",
    "C31_unmasked_partial",
    "C31_only_way"
   ],
   "note": "The only way to a dangling use, for any listener and schedule, is listener code looking at the data of a readMessage call (C31_only_way). False of the code for masked frames (the decoded copy is freed before the listener's coroutine runs; refuted for every masked message and segmentation); true for unmasked frames for every schedule, input and listener."
  },
  {
   "property": "C32",
   "status": "proved",
   "theorems": [
    "C32_sha1",
    "C32_from_file",
    "C32_digest_length",
    "C32_history"
   ],
   "note": "The 80-line unrolled transform, the buffering of update and the padding of finalBinary compute FIPS 180-4 SHA-1 for every split of every message below 2^61 bytes."
  },
  {
   "property": "C33",
   "status": "proved",
   "theorems": [
    "C33_reusable",
    "C33_next_digest"
   ],
   "note": "After any history ending in finalBinary every member equals that of a new object; the next digest is that of the following updates alone."
  },
  {
   "property": "C34",
   "status": "proved",
   "theorems": [
    "C34_sound",
    "C34_decision",
    "C34_decision_rfc",
    "C34_complete_repeated"
   ],
   "note": "Header lookup of the core is any choice among repeated lines; the token set of Connection is the core's parser, with an RFC 7230 contract for well-formed lists. Keys below 2^60 bytes."
  },
  {
   "property": "C35",
   "status": "proved",
   "theorems": [
    "C35_decision",
    "C35_sound",
    "C35_total"
   ],
   "note": "Decision table for unrepeated response fields; soundness and totality for every header set."
  },
  {
   "property": "C36",
   "status": "proved",
   "theorems": [
    "C36_handshake_completes"
   ],
   "note": "For every nonce, application header set, reordering and added non-handshake lines in either direction."
  },
  {
   "property": "C37",
   "status": "proved",
   "theorems": [
    "C37_binding"
   ],
   "note": ""
  },
  {
   "property": "C38",
   "status": "proved",
   "theorems": [
    "C38_well_formed",
    "C38_injective"
   ],
   "note": ""
  },
  {
   "property": "C39",
   "status": "partial",
   "theorems": [
    "C39_token_list_rejected_refuted",
    "C39_single_token_partial"
   ],
   "note": "False of the code: every valid response whose Connection field lists more than the token upgrade is rejected (refuted universally). True for the single token."
  },
  {
   "property": "C40",
   "status": "proved",
   "theorems": [
    "C40_connect_sound",
    "C40_connect_iff",
    "C40_async_same",
    "C40_async_null_handle_refuted"
   ],
   "note": "Holds as stated; beyond it, connectAsync does not check for a null handle where connect throws (refuted variant recorded)."
  },
  {
   "property": "C41",
   "status": "partial",
   "theorems": [
    "C41_valid_iff_partial",
    "C41_caller_key_refuted",
    "C41_own_server_partial",
    "C41_own_server_refuted"
   ],
   "note": "False of the code: handshake fields supplied by the caller are sent in addition to the library's. Proved: the request is a valid opening handshake iff the caller supplies neither Sec-WebSocket-Key nor Sec-WebSocket-Version; and this library's own server answers it, whatever entry the header map finds among repeated fields, iff every handshake field the caller supplied would be acceptable on its own (a Connection list without \"upgrade\" makes it refuse, universally)."
  },
  {
   "property": "C42",
   "status": "proved",
   "theorems": [
    "C42_paired",
    "C42_destroyed",
    "C42_safe",
    "C42_no_listener",
    "C42_assign_over_holder_refuted"
   ],
   "note": "For every legal history of constructions, moves, runs, destructions and listener changes. If onAfterCreate itself throws no task object exists and onBeforeDestroy is not called. Move-assignment over a task that holds a connection (which std::thread never does) would lose a callback, in every history and whatever follows; recorded as refuted variant."
  },
  {
   "property": "C43",
   "status": "proved",
   "theorems": [
    "C43_paired",
    "C43_never_without_start",
    "C43_all_dropped"
   ],
   "note": ""
  },
  {
   "property": "C44",
   "status": "partial",
   "theorems": [
    "C44_exactly",
    "C44_exactly_async",
    "C44_unacceptable_refuted",
    "C44_long_ping_refuted",
    "C04_round_trip",
    "C11_close_round_trip"
   ],
   "note": "False of the code: control frames above 125 bytes, frames with unknown opcodes, data frames after a fragmented message and stray continuation frames are sent without complaint and end the peer's listening (refuted universally). C44_exactly says for every sequence of sending calls exactly what a listening peer makes of it (C44_exactly_async for listenAsync under any schedule): whole messages, pings/pongs up to 125 bytes and closes with reasons up to 123 bytes are always accepted (C04, C11)."
  },
  {
   "property": "C45",
   "status": "partial",
   "theorems": [
    "C45_next_call",
    "C45_other_thread",
    "C45_async_who",
    "C45_async_next_frame_partial",
    "C45_async_installed",
    "C45_async_external_install_refuted"
   ],
   "note": "Blocking mode proved in full: listeners installed by callbacks and by other threads at any point of the input. Async mode, any schedule: control callbacks go to the listener installed when the socket turned to the frame, data callbacks to the one installed at one moment of that frame (C45_async_who), and if no other thread interferes during the frame all its calls go to the listener installed at its start and the callbacks' last installation is in force for the next one (C45_async_installed). Missing: a listener installed by another thread while the socket already waits for the next frame does not get that frame if it is a control frame (refuted)."
  },
  {
   "property": "C46",
   "status": "partial",
   "theorems": [
    "C46_stray_continuation_accepted_refuted",
    "C18_stray_continuation"
   ],
   "note": "False of the code after a completed fragmented message (refuted universally); true while no fragmented message was ever started (C18)."
  },
  {
   "property": "C47",
   "status": "proved",
   "theorems": [
    "C47_conforming_stream",
    "C47_until_first_violation"
   ],
   "note": ""
  },
  {
   "property": "C48",
   "status": "proved",
   "theorems": [
    "C48_causality"
   ],
   "note": ""
  },
  {
   "property": "C49",
   "status": "proved",
   "theorems": [
    "C49_replies"
   ],
   "note": ""
  },
  {
   "property": "C50",
   "status": "proved",
   "theorems": [
    "C50_echo"
   ],
   "note": ""
  },
  {
   "property": "C51",
   "status": "proved",
   "theorems": [
    "C51_closing_handshake"
   ],
   "note": ""
  },
  {
   "property": "C52",
   "status": "proved",
   "theorems": [
    "C52_any_schedule",
    "C52_completion"
   ],
   "note": "Extends C28 to listener code that handles or checks failing sends: it is the same as blocking listener code using sendOneFrame for those sends. The exception for a freed data pointer is characterised by C31_only_way."
  },
  {
   "property": "C53",
   "status": "proved",
   "theorems": [
    "C53_only_a_prefix",
    "C53_delivery"
   ],
   "note": ""
  },
  {
   "property": "C54",
   "status": "proved",
   "theorems": [
    "C54_chunk_sizes",
    "C54_close_is_last_call",
    "C54_no_ub",
    "C54_overflow_refuted"
   ],
   "note": "For listeners that do not reconfigure the socket; C54_overflow_refuted records the buffer overrun for every one that raises the buffer size at the first piece of a frame, under every schedule."
  },
  {
   "property": "C55",
   "status": "proved",
   "theorems": [
    "C55_never_delivered",
    "C55_fails"
   ],
   "note": ""
  },
  {
   "property": "C56",
   "status": "proved",
   "theorems": [
    "C56_replies",
    "C56_completion"
   ],
   "note": ""
  },
  {
   "property": "C57",
   "status": "proved",
   "theorems": [
    "C57_shared_any_time",
    "C57_shared_fair",
    "C57_any_time",
    "C57_fair"
   ],
   "note": "The shared theorems have the client's two coroutines on one socket object, the others on two copies."
  },
  {
   "property": "C58",
   "status": "proved",
   "theorems": [
    "C58_deterministic",
    "C58_fair"
   ],
   "note": ""
  },
  {
   "property": "C59",
   "status": "proved",
   "theorems": [
    "C59_shared_any_time",
    "C59_shared_fair",
    "C59_any_time",
    "C59_fair"
   ],
   "note": "As C57."
  },
  {
   "property": "C60",
   "status": "proved",
   "theorems": [
    "C60_any_time",
    "C60_fair"
   ],
   "note": ""
  },
  {
   "property": "C61",
   "status": "proved",
   "theorems": [
    "C61_round_trip",
    "C61_any_time",
    "C61_fair"
   ],
   "note": "At most one fragmented message per connection: what the library does with a message after a fragmented one is C19, which opcode the fragments are reported with is C20."
  },
  {
   "property": "C62",
   "status": "proved",
   "theorems": [
    "C62_streamed_frame",
    "C62_round_trip"
   ],
   "note": ""
  },
  {
   "property": "C63",
   "status": "proved",
   "theorems": [
    "C63_connects"
   ],
   "note": ""
  },
  {
   "property": "C64",
   "status": "proved",
   "theorems": [
    "C64_config",
    "C64_config_async"
   ],
   "note": "What happens when a callback enlarges the buffer in the middle of a frame is C54: the run ends there with the overrun, and the theorems describe it up to that point. C64_config_async: at every moment of every schedule what is written is a beginning of the required bytes, and all of them when the coroutine waits or has ended."
  },
  {
   "property": "C65",
   "status": "proved",
   "theorems": [
    "C65_pump"
   ],
   "note": ""
  },
  {
   "property": "C66",
   "status": "proved",
   "theorems": [
    "C66_blocking",
    "C66_async",
    "C66_threads",
    "C66_coroutines"
   ],
   "note": ""
  },
  {
   "property": "C67",
   "status": "proved",
   "theorems": [
    "C67_isolation"
   ],
   "note": "two histories that agree on connection i (own events in the same order) give i the same view, output and socket state, and both are defined. Listener programs are per connection (no application state shared between connections); connection numbers are not reused."
  },
  {
   "property": "C68",
   "status": "proved",
   "theorems": [
    "C68_service",
    "C68_faithful",
    "C68_completion"
   ],
   "note": "service: view and output of a connection in every history; faithful: prefix of the RFC reading; completion: everything delivered and answered, destroyed exactly when the bytes end the connection. onAfterCreate code is setListener/setConfig calls or a throw; with coroutines the application starts itself: C88."
  },
  {
   "property": "C69",
   "status": "proved",
   "theorems": [
    "C69_delivery",
    "C69_whole_frames",
    "C69_undisturbed",
    "C69_alone"
   ],
   "note": "delivery: arbitrary listener code and calls; whole_frames: harmless listener code, no setListener(nullptr) by others; undisturbed: moreover no stopListening; alone: without other threads the model coincides with WebSocket.v. Accesses are atomic: data races of the C++ memory model are outside."
  },
  {
   "property": "C70",
   "status": "partial",
   "theorems": [
    "C70_who",
    "C70_safe_partial",
    "C70_null_race_refuted"
   ],
   "note": "who: the listener called is always the current one. Refuted part: whenever a listener is notified at all, one setListener(nullptr) of another thread between the test and the call makes the code dereference null. safe_partial: that and setConfig are the only dangers. Not covered: the lifetime of the replaced listener object and data races on the shared pointer itself."
  },
  {
   "property": "C71",
   "status": "proved",
   "theorems": [
    "C71_no_further_frame",
    "C69_whole_frames",
    "C71_several_threads",
    "C71_stopped_by_a_thread"
   ],
   "note": "several_threads, stopped_by_a_thread: with any number of other threads that send, stop and reconfigure at single steps, listeners that do too, and writes that fail or block, whatever is told after m_listening has gone down is of one frame. no_further_frame: for every listener code and every placement of calls; whole_frames: every frame begun is delivered completely and listen() returns at the boundary, unless the connection fails or the rest of the frame has not arrived."
  },
  {
   "property": "C72",
   "status": "proved",
   "theorems": [
    "C72_header_on_the_wire",
    "C72_header_completes",
    "C72_send_header_on_the_wire",
    "C72_send_header_completes"
   ],
   "note": "sizes up to 2^63-1 and 4-bit opcodes; on_the_wire: every schedule and write behaviour; completes: a connection that accepts bytes (with partial writes and retries)."
  },
  {
   "property": "C73",
   "status": "proved",
   "theorems": [
    "C73_isolation"
   ],
   "note": ""
  },
  {
   "property": "C74",
   "status": "proved",
   "theorems": [
    "C74_service",
    "C74_faithful",
    "C74_completion"
   ],
   "note": ""
  },
  {
   "property": "C75",
   "status": "partial",
   "theorems": [
    "C75_never_down_partial",
    "C75_farewell_refuted"
   ],
   "note": "False of the code if onBeforeDestroy lets an exception out: ~Task is noexcept, so a send in onBeforeDestroy on a connection that no longer takes data ends the process (refuted for every such run). Proved for every instance listener whose onBeforeDestroy catches what its sends throw."
  },
  {
   "property": "C76",
   "status": "proved",
   "theorems": [
    "C76_notifications",
    "C76_everything",
    "C76_whole_frames",
    "C76_safe"
   ],
   "note": "PropProcess.v, PropProcess2.v. told s: the listener calls made by the listening thread so far; on_its_own w: the same received bytes, undisturbed, with a listener that takes notes. Callbacks and other threads: any commands but setConfig and setListener(nullptr) (that those are dangerous is C25 and C70)."
  },
  {
   "property": "C77",
   "status": "proved",
   "theorems": [
    "C77_bytes"
   ],
   "note": "PropProcess.v. lab: the bytes with the thread that wrote each; put_all: pieces of the frames of the given sends (sent_wire is the RFC frame). drawn: which thread has drawn each byte of the random source, in order; own_random: the bytes one thread gets, whatever the source yields later; at most one key per message. That pieces of different threads may be mixed is C30."
  },
  {
   "property": "C78",
   "status": "proved",
   "theorems": [
    "C78_one_sender",
    "C78_replies",
    "C78_nobody_waits",
    "C78_full_duplex"
   ],
   "note": "PropProcess2.v. everybody f: the infinite schedule f lets every thread run again and again; after f n: the state after n moves."
  },
  {
   "property": "C79",
   "status": "proved",
   "theorems": [
    "C79_notifications",
    "C79_safe",
    "C79_causes"
   ],
   "note": "C79_causes: no hypotheses; what each kind of undefined behaviour takes (taking the listener away is harmless here). PropCoroutines.v. notified s: the listener calls so far; arrived evs: what arrived; stream_reading: the specification's reading of a byte stream. Callbacks and other coroutines: any commands but setConfig and setListener(nullptr); messages below 2^31 bytes (C26)."
  },
  {
   "property": "C80",
   "status": "proved",
   "theorems": [
    "C80_bytes"
   ],
   "note": "PropCoroutines.v. lab: the bytes with the coroutine that wrote each; begun: the frames begun with their keys, in the order begun; to_send: what a coroutine is to send (replies of callbacks for coroutine 0). That frames of different coroutines may be mixed is C30; C79_nonvacuous shows it."
  },
  {
   "property": "C81",
   "status": "proved",
   "theorems": [
    "C81_one_sender",
    "C81_nobody_waits",
    "C81_listener_rests",
    "C81_full_duplex"
   ],
   "note": "PropCoroutines.v. everybody f: the infinite schedule f runs every coroutine again and again; kafter f n: the state after n turns."
  },
  {
   "property": "C82",
   "status": "proved",
   "theorems": [
    "C82_memory",
    "C82_several_coroutines"
   ],
   "note": "Counts received bytes held by the coroutine objects and the control payload stream; the messages the application itself is sending and the connection's own buffers are not counted."
  },
  {
   "property": "C83",
   "status": "proved",
   "theorems": [
    "C83_work",
    "C83_linear",
    "C83_yields",
    "C83_several_coroutines",
    "C83_several_linear"
   ],
   "note": "C83_work is the accounting identity for every program; C83_linear and C83_yields for callbacks of at most k commands (any k)."
  },
  {
   "property": "C84",
   "status": "proved",
   "theorems": [
    "C44_exactly",
    "C44_exactly_async"
   ],
   "note": "`understood` in SpecAccept.v is the rule book, as a function of the calls only. Asynchronous: for every schedule there is a number of further turns after which it holds for good."
  },
  {
   "property": "C85",
   "status": "proved",
   "theorems": [
    "C85_alive"
   ],
   "note": "The reference counted object is the one in ReadPayloadCoroutine / HandleFrameCoroutine (AsyncWebSocket.cpp:229, 341). The blocking WebSocket calls through its own m_listener (WebSocket.cpp:175-262) and holds no second reference, so this guarantee does not hold for it: see C93. The data race of an assignment to m_listener with its copying is outside the model."
  },
  {
   "property": "C86",
   "status": "proved",
   "theorems": [
    "C86_race_free",
    "C86_only_the_flag",
    "C86_stop_races",
    "C86_config_races",
    "C86_failure_races"
   ],
   "note": "Reading a field means that what the thread does next depends on it. Fields of the socket object only: the connection is used for reading by one and writing by other threads, which its own implementation must allow (C30 for the order of the writes)."
  },
  {
   "property": "C87",
   "status": "proved",
   "theorems": [
    "C87_threaded_server",
    "C87_async_server"
   ],
   "note": "told_of is the meaning of a call sequence by recursion on the calls (SpecAccept.v), without frames or bytes. The client listens in blocking mode after (or while: C48) the bytes come back; its own answers go nowhere in this statement."
  },
  {
   "property": "C88",
   "status": "proved",
   "theorems": [
    "C88_isolation",
    "C88_service",
    "C88_faithful",
    "C88_bytes",
    "C88_completion"
   ],
   "note": "PropPushServer.v. history: handover of connection i, first iteration of its coroutine, the rest; alone_run: the socket with its coroutines alone, given the turns and data of that history (turns, SpecPushServer.v). A coroutine started before the socket exists is not one; a message of another connection that makes the application push is a PStart event, so application state shared between connections is covered for pushes (callbacks themselves react to their own socket)."
  },
  {
   "property": "C89",
   "status": "proved",
   "theorems": [
    "C89_isolation",
    "C89_service",
    "C89_safe",
    "C89_careless",
    "C89_faithful",
    "C89_bytes",
    "C89_completion"
   ],
   "note": "PropPushThreads.v, PropPushThreads2.v, PropPushThreads3.v. waits l: instance listener l waits in onBeforeDestroy. C89_safe: the run is UOk, i.e. neither UUndef (use after free, undefined behaviour) nor UTerminate. C89_careless is the converse, and the only obligation the code leaves to the application; frames of different threads may interleave (C30, C77), so C89_bytes and C89_completion speak of each thread's bytes."
  },
  {
   "property": "C90",
   "status": "proved",
   "theorems": [
    "C90_race_free",
    "C90_parallel",
    "C90_setListener_races",
    "C90_setConfig_races"
   ],
   "note": "PropParallel.v. Methods are the unit of execution (Coroutines.v); C90_parallel is why treating them as atomic loses nothing although the executor has several threads. Two coroutines both in the middle of a send share the outgoing side of the connection and the random source, which are not fields of the socket: their frames may mix (C30, C79)."
  },
  {
   "property": "C91",
   "status": "proved",
   "theorems": [
    "C91_deterministic",
    "C91_fair"
   ],
   "note": "PropMixed.v. Generalises C58 (both asynchronous, applications that do not throw). A blocking endpoint runs its thread until it waits or listen() has returned; stopping earlier is the same as the network not yet having delivered or taken bytes."
  },
  {
   "property": "C92",
   "status": "partial",
   "theorems": [
    "C92_handover_partial",
    "C92_after_response_partial",
    "C92_at_once_refuted"
   ],
   "note": "The property is false of the code: C92_at_once_refuted, for every response and every sequence of sends that arrive together with it. Proved instead: exactly what is lost and what is heard for every cutting (C92_handover_partial), and that a server which waits until the client has read the response is heard in full (C92_after_response_partial). Rests on the contract of HttpRequestExecutor (Upgrade.v), which is not part of the repository: it reads the response through a buffer and keeps what it read too far in the response."
  },
  {
   "property": "C93",
   "status": "partial",
   "theorems": [
    "C93_only_way",
    "C93_safe_partial",
    "C93_self_replacing_refuted"
   ],
   "note": "The property is false of the code: C93_self_replacing_refuted (WebSocket.cpp:175-262 call through m_listener, WebSocket.hpp:175-177 assigns it). Proved instead: that is the only way a listener can be destroyed while it runs (C93_only_way), so an application that keeps its listeners, or whose callbacks replace the listener as their last action, is safe (C93_safe_partial). Calls of setListener from other threads during a callback are the data race of C70."
  },
  {
   "property": "C94",
   "status": "proved",
   "theorems": [
    "C94_response",
    "C94_request",
    "C94_no_splitting",
    "C94_request_no_splitting"
   ],
   "note": "C94_request_no_splitting assumes that the fields the application passed to Connector::connect contain no line breaks themselves. How the core serialises a response (start line, fields, empty line) is part of the statement (SpecField.head)."
  },
  {
   "property": "C95",
   "status": "proved",
   "theorems": [
    "C95_resume",
    "C95_round_trip"
   ],
   "note": "Streams with a frame the library refuses are excluded: listen() swallows the exception, so the application can not tell a refusal from a stop, and a further call would read from the middle of the refused frame. A stop while listen() is blocked for input takes effect with the next frame only (C14)."
  },
  {
   "property": "C96",
   "status": "partial",
   "theorems": [
    "C96_untouched",
    "C96_close_partial",
    "C96_any_change_partial",
    "C96_in_place_partial",
    "C96_finished",
    "C96_resized_refuted",
    "C96_reassigned_refuted"
   ],
   "note": "False of the code (AsyncWebSocket.cpp:488, 500, 511-527 keep the oatpp::String, not its content). Proved: what is true of every history of changes (C96_any_change_partial: header for the size of one of the contents, then one content in full if masked, a mixture otherwise; undefined behaviour only without masking and only if the string was reallocated), that overwriting in place always gives one well-formed frame, that a close message is copied at the call, that a completed call is unaffected. Refuted for every message: C96_resized_refuted, C96_reassigned_refuted."
  },
  {
   "property": "C97",
   "status": "proved",
   "theorems": [
    "C97_exactly",
    "C97_conversation",
    "C97_conversation_close",
    "C97_replies",
    "C97_replies_never_refused",
    "C97_replies_async",
    "C97_completion_async",
    "C97_offence_refuted",
    "C97_masking_refuted"
   ],
   "note": "UTF-8 validity of text and validity of close codes are not among the rules of the strict peer (the library checks neither; the application supplies both). The two theorems named _refuted are universal: they say where the library does not protect the application."
  },
  {
   "property": "C98",
   "status": "proved",
   "theorems": [
    "C98_listen",
    "C98_iterate",
    "C98_round_trip",
    "C98_close_is_last_call",
    "C98_never_refused",
    "C98_echo",
    "C98_histories"
   ],
   "note": "Blocking socket. Callbacks that listen themselves are C99."
  },
  {
   "property": "C99",
   "status": "proved",
   "theorems": [
    "C99_total",
    "C99_iterate_total",
    "C99_between_frames",
    "C99_all_frames",
    "C99_close_refuted",
    "C99_error_refuted",
    "C99_data_refuted"
   ],
   "note": "Blocking socket. The three _refuted theorems are the exceptions the property names: they hold for all frames and listeners of the kind described."
  }
 ]
}