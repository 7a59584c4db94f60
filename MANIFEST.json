{
 "claims": [
  {
   "property": "C01",
   "status": "proved",
   "theorems": [
    "C01_resp_round_trip"
   ],
   "note": ""
  },
  {
   "property": "C02",
   "status": "proved",
   "theorems": [
    "C02_truncated_is_eof",
    "C02_read_local"
   ],
   "note": ""
  },
  {
   "property": "C03",
   "status": "partial",
   "theorems": [
    "C03_reader_crash_refuted",
    "C03_reader_total_partial",
    "C03_reader_terminates"
   ],
   "note": "REFUTED: a bulk header '$-2' panics. Proved: the reader terminates on every input, and returns an object or an error on every input without a bulk length -2."
  },
  {
   "property": "C04",
   "status": "proved",
   "theorems": [
    "C04_reencode"
   ],
   "note": ""
  },
  {
   "property": "C05",
   "status": "proved",
   "theorems": [
    "C05_format_parse",
    "C05_parse_exact",
    "C05_format_denotes",
    "C05_format_canonical"
   ],
   "note": ""
  },
  {
   "property": "C06",
   "status": "proved",
   "theorems": [
    "C06_set",
    "C06_get",
    "C06_mset",
    "C06_mget",
    "C06_last_write",
    "C06_never_written",
    "C06_history"
   ],
   "note": ""
  },
  {
   "property": "C07",
   "status": "proved",
   "theorems": [
    "C07_exists",
    "C07_strlen"
   ],
   "note": ""
  },
  {
   "property": "C08",
   "status": "partial",
   "theorems": [
    "C08_incrby_partial",
    "C08_decrby_partial",
    "C08_incr_partial",
    "C08_decr_partial",
    "C08_errors",
    "C08_errors_one",
    "C08_overflow_refuted",
    "C08_wraps",
    "C08_wraps_decrby",
    "C08_wraps_incr",
    "C08_wraps_decr"
   ],
   "note": "REFUTED: overflow wraps silently. Proved when the result fits int64, with all error cases; the wrapped value in general is in C27's reference machine."
  },
  {
   "property": "C09",
   "status": "proved",
   "theorems": [
    "C09_append"
   ],
   "note": ""
  },
  {
   "property": "C10",
   "status": "proved",
   "theorems": [
    "C10_getrange"
   ],
   "note": ""
  },
  {
   "property": "C11",
   "status": "proved",
   "theorems": [
    "C11_index",
    "C11_slice"
   ],
   "note": ""
  },
  {
   "property": "C12",
   "status": "partial",
   "theorems": [
    "C12_lpush",
    "C12_rpush",
    "C12_lpop",
    "C12_rpop",
    "C12_pop_empty",
    "C12_llen",
    "C12_lindex",
    "C12_lset",
    "C12_lset_absent",
    "C12_history_partial",
    "C12_history_refuted"
   ],
   "note": "REFUTED through LTRIM with an empty range (keeps everything). Proved per command and for whole histories of commands on which the ideal list is defined."
  },
  {
   "property": "C13",
   "status": "partial",
   "theorems": [
    "C13_lrem_partial",
    "C13_remove_first",
    "C13_lrem_refuted"
   ],
   "note": "REFUTED for count -2^63 (removes nothing) and the reserved text 'dummy string' (crash). Proved otherwise."
  },
  {
   "property": "C14",
   "status": "partial",
   "theorems": [
    "C14_linsert_partial",
    "C14_insert_near",
    "C14_absent",
    "C14_linsert_refuted"
   ],
   "note": "REFUTED for the pivot 'dummy string'. Proved otherwise."
  },
  {
   "property": "C15",
   "status": "partial",
   "theorems": [
    "C15_range_of",
    "C15_lrange_partial",
    "C15_ltrim_partial",
    "C15_lrange_refuted",
    "C15_ltrim_refuted"
   ],
   "note": "REFUTED: an end before the first element is resolved twice; an empty LTRIM keeps everything. Proved otherwise."
  },
  {
   "property": "C16",
   "status": "partial",
   "theorems": [
    "C16_no_crash_partial",
    "C16_no_crash_refuted"
   ],
   "note": "REFUTED for the reserved text 'dummy string'. Proved otherwise."
  },
  {
   "property": "C17",
   "status": "partial",
   "theorems": [
    "C17_hset_partial",
    "C17_hdel",
    "C17_hget_partial",
    "C17_hmget",
    "C17_hexists_partial",
    "C17_hlen",
    "C17_hstrlen_partial",
    "C17_history_partial",
    "C17_empty_field_refuted"
   ],
   "note": "REFUTED for the empty field: it can be stored but HGET/HEXISTS/HSTRLEN reject it. Proved for every other field, and for whole histories; the empty key crashes HSET (C22)."
  },
  {
   "property": "C18",
   "status": "proved",
   "theorems": [
    "C18_hkeys",
    "C18_hvals",
    "C18_hgetall",
    "C18_absent"
   ],
   "note": ""
  },
  {
   "property": "C19",
   "status": "partial",
   "theorems": [
    "C19_sadd_partial",
    "C19_srem_partial",
    "C19_sismember_partial",
    "C19_scard",
    "C19_smembers",
    "C19_smembers_absent",
    "C19_history_partial",
    "C19_empty_member_refuted"
   ],
   "note": "REFUTED for the empty member: it can be added but SISMEMBER rejects it. Proved otherwise, and for whole histories; the empty key crashes SADD/SREM (C22)."
  },
  {
   "property": "C20",
   "status": "proved",
   "theorems": [
    "C20_sdiff",
    "C20_sinter",
    "C20_sunion"
   ],
   "note": ""
  },
  {
   "property": "C21",
   "status": "partial",
   "theorems": [
    "C21_srandmember",
    "C21_spop",
    "C21_srandmember1_partial",
    "C21_spop1_partial",
    "C21_absent",
    "C21_empty_set_refuted"
   ],
   "note": "REFUTED for the forms without a count: they crash on an existing empty set. Proved for every other case."
  },
  {
   "property": "C22",
   "status": "partial",
   "theorems": [
    "C22_no_crash_refuted",
    "C22_crash_conditions",
    "C22_total_partial",
    "C22_reply",
    "C22_crash_causes"
   ],
   "note": "REFUTED: six crash patterns. The exact crash condition is proved (C22_crash_conditions), everything else is total. C22_crash_causes lists all causes of a crash of the server, for all runs of its goroutines."
  },
  {
   "property": "C23",
   "status": "partial",
   "theorems": [
    "C23_read_only_partial",
    "C23_ltrim_refuted"
   ],
   "note": "REFUTED for LTRIM. Proved for every other access command."
  },
  {
   "property": "C24",
   "status": "partial",
   "theorems": [
    "C24_error_effect_partial",
    "C24_error_effect_refuted"
   ],
   "note": "REFUTED: HSET with only a key replies an error and creates an empty hash. Proved that this is the only exception."
  },
  {
   "property": "C25",
   "status": "proved",
   "theorems": [
    "C25_frame"
   ],
   "note": ""
  },
  {
   "property": "C26",
   "status": "proved",
   "theorems": [
    "C26_unknown",
    "C26_invalid",
    "C26_empty",
    "C26_nameless",
    "C26_known",
    "C26_letter_case",
    "C26_words"
   ],
   "note": ""
  },
  {
   "property": "C27",
   "status": "proved",
   "theorems": [
    "C27_refines",
    "C27_contents"
   ],
   "note": ""
  },
  {
   "property": "C28",
   "status": "proved",
   "theorems": [
    "C28_packs",
    "C28_log_round_trip",
    "C28_sequence_round_trip"
   ],
   "note": ""
  },
  {
   "property": "C29",
   "status": "proved",
   "theorems": [
    "C29_crash_prefix",
    "C29_flushed_is_in_the_file"
   ],
   "note": ""
  },
  {
   "property": "C30",
   "status": "partial",
   "theorems": [
    "C30_many_sessions_partial",
    "C30_restart_rebuilds_partial",
    "C30_same_contents_same_answers",
    "C30_restart_refuted",
    "C30_spop_refuted"
   ],
   "note": "REFUTED by LTRIM (not logged) and SPOP (another member may be popped on replay). Proved for UTF-8 histories without these, logged in execution order and flushed: same contents, hence the answers of the reference machine on them. Also over any number of sessions, ended by stop or death between records."
  },
  {
   "property": "C31",
   "status": "partial",
   "theorems": [
    "C31_write_logged_partial",
    "C31_ltrim_refuted",
    "C31_binary_refuted"
   ],
   "note": "REFUTED by LTRIM (never logged) and arguments that are not UTF-8 (record dropped). Proved for every other request that changes the data."
  },
  {
   "property": "C32",
   "status": "partial",
   "theorems": [
    "C32_log_is_a_permutation_partial",
    "C32_nothing_invented_partial",
    "C32_calm_order_partial",
    "C32_order_refuted"
   ],
   "note": "REFUTED: log writes run in unordered goroutines, two SETs can be swapped. Proved: the log is always a permutation of the executed records once nothing is pending, and in order when each record is written before the next request is handled."
  },
  {
   "property": "C33",
   "status": "partial",
   "theorems": [
    "C33_torn_tail_refuted",
    "C33_torn_tail_loses_everything_refuted",
    "C33_untorn_partial",
    "C33_earlier_records_partial"
   ],
   "note": "REFUTED: after a torn tail every later append is swallowed. Proved: records before the tear are kept, and an untorn file appends cleanly."
  },
  {
   "property": "C34",
   "status": "partial",
   "theorems": [
    "C34_stop_refuted",
    "C34_stop_with_replication_partial",
    "C34_pending_refuted"
   ],
   "note": "REFUTED: Stop flushes only when replication is on. Even then a record whose goroutine has not run yet is missing. Proved: with replication on, everything written so far is flushed."
  },
  {
   "property": "C35",
   "status": "proved",
   "theorems": [
    "C35_replica_gets_the_log",
    "C35_cut_connection_applies_nothing",
    "C35_copy_during_writes",
    "C35_master_flushes"
   ],
   "note": ""
  },
  {
   "property": "C36",
   "status": "partial",
   "theorems": [
    "C36_any_size_refuted",
    "C36_big_logs_refuted"
   ],
   "note": "REFUTED: content of 2^32 bytes or more has a truncated length header."
  },
  {
   "property": "C37",
   "status": "proved",
   "theorems": [
    "C37_get_is_the_tasks_result",
    "C37_wait_nil_after_finish",
    "C37_cancelled_only_if_cancelled",
    "C37_one_result",
    "C37_only_these_results",
    "C37_calls_can_return"
   ],
   "note": ""
  },
  {
   "property": "C38",
   "status": "partial",
   "theorems": [
    "C38_decisive_refuted",
    "C38_crash_refuted",
    "C38_succeeds_once_partial",
    "C38_early_cancel_partial",
    "C38_crash_needs_overlap_partial"
   ],
   "note": "REFUTED: Cancel racing with the task's completion is not decisive, and two overlapping Cancels can crash (close of a closed channel). Proved: Cancel succeeds at most once per crash-free run, a Cancel that returned before the task finished is decisive, a crash needs overlapping Cancels."
  },
  {
   "property": "C39",
   "status": "proved",
   "theorems": [
    "C39_fifo",
    "C39_once_per_call",
    "C39_send_result",
    "C39_receive_result",
    "C39_order_seen",
    "C39_received_once",
    "C39_failed_never_received",
    "C39_unbuffered_handed_over",
    "C39_room",
    "C39_send_can_return"
   ],
   "note": ""
  },
  {
   "property": "C40",
   "status": "partial",
   "theorems": [
    "C40_receive_after_close",
    "C40_close_is_safe",
    "C40_close_can_return",
    "C40_send_success_refuted",
    "C40_send_expired_refuted",
    "C40_waiting_receiver_refuted",
    "C40_send_after_close_partial"
   ],
   "note": "REFUTED for Send (after Close it may still succeed into the buffer, or expire) and for receivers already waiting. Proved: Receive after Close gets the closed error, Close never crashes, is idempotent and can always return; the possible results of a Send after Close."
  },
  {
   "property": "C41",
   "status": "proved",
   "theorems": [
    "C41_at_most_one_copy",
    "C41_result_counts",
    "C41_only_published",
    "C41_offered",
    "C41_no_crash",
    "C41_missing_topic",
    "C41_bus_returns",
    "C41_bus_safe",
    "C41_bus_rest",
    "C41_bus_bound",
    "C41_bus_accepts",
    "C41_bus_finish",
    "C41_bus_overlap"
   ],
   "note": ""
  },
  {
   "property": "C42",
   "status": "partial",
   "theorems": [
    "C42_live_subscription_refuted",
    "C42_removed_was_closed_partial",
    "C42_never_closed_stays_partial"
   ],
   "note": "REFUTED: the delayed cleanup deletes by name and removes a later subscription under the same name. Proved: only names that had a closed channel are ever removed; others are offered every later event."
  },
  {
   "property": "C43",
   "status": "proved",
   "theorems": [
    "C43_one_at_a_time",
    "C43_handled_once",
    "C43_handled_was_read",
    "C43_reply_to_requester",
    "C43_reply_once",
    "C43_nothing_else_sent"
   ],
   "note": "Over the composite transition system of connections, topics, data channels, engine loop and response worker."
  },
  {
   "property": "C44",
   "status": "partial",
   "theorems": [
    "C44_pipelined_order_refuted",
    "C44_waiting_client_partial"
   ],
   "note": "REFUTED: a run in which GET, pipelined after SET, is executed and answered first. Proved: a client that waits for a reply before sending the next request has them handled in order."
  },
  {
   "property": "C45",
   "status": "partial",
   "theorems": [
    "C45_progress_partial",
    "C45_dropped_refuted",
    "C45_not_array_refuted",
    "C45_array_replied_partial",
    "C45_request_kept_partial",
    "C45_reply_kept_partial"
   ],
   "note": "REFUTED: a request whose send expires is never answered, whatever follows; nor is one that is not an array. Proved: every handled array request has a reply; every delivered request is handled or held by the engine; every delivered reply is written or held; and from every state of every run without crash and stop, an array request that was read, and of which no send was given up, can still be answered by going on, unless the worker is blocked (C65) or the engine meets a request it cannot execute (C22). That every schedule without expiry goes on to an answer is C84 and C85. A write to a client ends here, if only by failing; writes that wait for the client to read are C97."
  },
  {
   "property": "C46",
   "status": "partial",
   "theorems": [
    "C46_one_close",
    "C46_close_answers",
    "C46_one_closer",
    "C46_no_crash",
    "C46_write_after_close",
    "C46_silent_after_close",
    "C46_write_ok",
    "C46_write_blocks_refuted",
    "C46_read_blocks_refuted",
    "C46_write_returns_partial"
   ],
   "note": "REFUTED in part: the last clause is false (C46_write_blocks_refuted: a Write past its closed check when a Close wins never returns, whatever happens next; C46_read_blocks_refuted: a Read after close never returns). Proved: one closer, the answers of Close, no panic, writes after a Close fail and send nothing, and Write can return while nobody closes."
  },
  {
   "property": "C47",
   "status": "partial",
   "theorems": [
    "C47_simple",
    "C47_locked_answers",
    "C47_locked_returns",
    "C47_locked_safe",
    "C47_locked_rest",
    "C47_locked_bound",
    "C47_locked_accepts",
    "C47_locked_finish",
    "C47_locked_overlap",
    "C47_sync_rest",
    "C47_sync_bound",
    "C47_sync_len_refuted",
    "C47_sync_values_partial",
    "C47_sync_returns_partial",
    "C47_sync_len_partial"
   ],
   "note": "REFUTED for the sync map's Len (two overlapping Sets of one new key count twice). Proved in full for the simple map (sequential) and the locked map (linearizable, no clash); for the sync map: every answer but Len, and Len when writers do not overlap. Every call of either map ends: at most six (five) steps each, and nothing is left to do only when all have returned."
  },
  {
   "property": "C48",
   "status": "proved",
   "theorems": [
    "C48_pipeline"
   ],
   "note": ""
  },
  {
   "property": "C49",
   "status": "proved",
   "theorems": [
    "C49_get_after_set",
    "C49_one_set_one_value",
    "C49_get_can_return",
    "C49_one_set_returns",
    "C49_second_set_crashes",
    "C49_crash_needs_two_sets"
   ],
   "note": ""
  },
  {
   "property": "C50",
   "status": "partial",
   "theorems": [
    "C50_lexical_compare_refuted",
    "C50_lexical_compare_partial",
    "C50_position"
   ],
   "note": "REFUTED when exactly one string is empty (returns 0). Proved for every other pair."
  },
  {
   "property": "C51",
   "status": "partial",
   "theorems": [
    "C51_deleted_stays_refuted",
    "C51_empty_name_refuted",
    "C51_add_again_refuted",
    "C51_history_partial",
    "C51_additions_partial",
    "C51_equal_levels_partial",
    "C51_levels",
    "C51_levels_drawn"
   ],
   "note": "REFUTED: deleting a member that is on fewer levels than a later one leaves it in the list (the next PopMin crashes); the empty name is out of order; adding a present member keeps the old score. Proved: all histories in which no removed member is followed by a taller one (in particular all add-only histories with any levels, and all histories with equal levels), without NaN scores or empty names."
  },
  {
   "property": "C52",
   "status": "partial",
   "theorems": [
    "C52_pop_min_refuted",
    "C52_pop_max_refuted",
    "C52_pop_min_partial",
    "C52_pop_max_partial"
   ],
   "note": "REFUTED: a second PopMin can crash when the other member is on more levels; a second PopMax always crashes. Proved under the conditions stated in the theorems."
  },
  {
   "property": "C53",
   "status": "partial",
   "theorems": [
    "C53_rank_refuted",
    "C53_absent_partial"
   ],
   "note": "REFUTED for every member of every set: Rank crashes. Proved: an absent member is reported as not found."
  },
  {
   "property": "C54",
   "status": "partial",
   "theorems": [
    "C54_typed_words_partial",
    "C54_empty_dropped",
    "C54_total",
    "C54_empty_word_refuted"
   ],
   "note": "REFUTED for the empty quoted string, which is left out of the request. Proved for every line of non-empty words, and the exact effect of empty ones."
  },
  {
   "property": "C55",
   "status": "proved",
   "theorems": [
    "C55_nil",
    "C55_integer",
    "C55_string",
    "C55_error",
    "C55_array"
   ],
   "note": ""
  },
  {
   "property": "C58",
   "status": "partial",
   "theorems": [
    "C58_restart_refuted",
    "C58_uncrashed_partial"
   ],
   "note": "REFUTED: a crashing request may already be in the log; every restart then crashes. Proved for logs of histories that did not crash."
  },
  {
   "property": "C60",
   "status": "partial",
   "theorems": [
    "C60_nested_refuted",
    "C60_flat_refuted",
    "C60_scalar_partial"
   ],
   "note": "REFUTED: nested arrays, and strings with quotes and newlines, are ambiguous. Proved for replies that are not arrays."
  },
  {
   "property": "C56",
   "status": "proved",
   "theorems": [
    "C56_in_order",
    "C56_objects",
    "C56_as_sent",
    "C56_stops"
   ],
   "note": ""
  },
  {
   "property": "C57",
   "status": "partial",
   "theorems": [
    "C57_framed_partial",
    "C57_stream_partial",
    "C57_nameless_refuted",
    "C57_one_request_two_replies_refuted"
   ],
   "note": "REFUTED: a request whose first element is not a string is answered by an error quoting it with its line breaks, so one request yields what reads as several replies. Proved: every reply of every history whose text is not such an internal error (at most 2^62 bytes of requests) is read back exactly, and so is the whole stream of replies."
  },
  {
   "property": "C59",
   "status": "partial",
   "theorems": [
    "C59_replica_copies_partial",
    "C59_unopened",
    "C59_no_file_refuted",
    "C59_ltrim_refuted"
   ],
   "note": "REFUTED when the master used LTRIM (or SPOP), and for a server without a database file, which never asks. Proved otherwise, for logs below 4 GiB in execution order. A server whose database file cannot be opened starts from exactly what the master sends."
  },
  {
   "property": "C61",
   "status": "partial",
   "theorems": [
    "C61_copy_lost_refuted"
   ],
   "note": "REFUTED: copied records are not in the replica's file. Nothing positive beyond C59 holds."
  },
  {
   "property": "C62",
   "status": "partial",
   "theorems": [
    "C62_only_reads_partial",
    "C62_own_write_lost_refuted"
   ],
   "note": "REFUTED when the replica has writes of its own: its log is replayed before the master's. Proved for a replica that was only read."
  },
  {
   "property": "C63",
   "status": "partial",
   "theorems": [
    "C63_flushed_writes_survive_partial",
    "C63_small_logs_unsaved_refuted",
    "C63_acknowledged_refuted"
   ],
   "note": "REFUTED: an answered write is only buffered; logs of at most 4096 bytes never reach the file without a flush. Proved: wherever the process ends, the contents after some first part of the requests come back, with everything that was flushed (no LTRIM, no SPOP, logged in execution order)."
  },
  {
   "property": "C64",
   "status": "partial",
   "theorems": [
    "C64_session_partial",
    "C64_expired_refuted",
    "C64_expired_silent",
    "C64_quit",
    "C64_quit_closed",
    "C64_only_quit"
   ],
   "note": "REFUTED when the session pauses for ten minutes: the closing message is not a reply and the client exits at the next line. Proved exactly (what is shown, and that it is possible) while the connection stays open, for lines without empty quoted words (C54) and internal-error texts without line breaks (C57). Also proved: a line that is exactly quit ends the session, nothing more is sent or shown, and no other line does so while the connection is open."
  },
  {
   "property": "C65",
   "status": "partial",
   "theorems": [
    "C65_silenced_refuted",
    "C65_worker_goes_on_partial"
   ],
   "note": "REFUTED: a client that leaves while its reply is about to be written blocks the response worker; then nobody ever gets a reply, and Serve never returns. Proved: as long as nobody began to close the connection written to, the worker has finished the write or can finish it. A write to a client ends here, if only by failing; writes that wait for the client to read are C97."
  },
  {
   "property": "C66",
   "status": "partial",
   "theorems": [
    "C66_not_executed",
    "C66_not_answered_refuted"
   ],
   "note": "REFUTED except its first part, which is proved: no request read after the stop began is executed. Refuted: an executed request is never answered, and its connection is still open when the stop is over."
  },
  {
   "property": "C67",
   "status": "partial",
   "theorems": [
    "C67_file_prefix",
    "C67_flushed_partial",
    "C67_records_kept",
    "C67_record_read",
    "C67_record_once",
    "C67_executed_recorded",
    "C67_exit_after_stop",
    "C67_exit_order",
    "C67_exit_replies",
    "C67_lost_refuted"
   ],
   "note": "REFUTED: the process ends after the stop closed the topics and before it flushed, with an acknowledged SET in no file. Proved: the file is a beginning of the stream of records, complete up to the last flush if no write failed; records are made once for each logged request, before it is executed; the process ends by itself only after a stop was asked for. The process ends only after the request topic was told to end and its distributor finished, then the same for the response topic (C67_exit_order), and with no reply half written (C67_exit_replies)."
  },
  {
   "property": "C68",
   "status": "partial",
   "theorems": [
    "C68_sent_partial",
    "C68_received_partial",
    "C68_quiet_partial",
    "C68_torn_refuted"
   ],
   "note": "REFUTED: a record that spills out of the write buffer between the flush and the end of the copy is sent in part; the replica then applies nothing, though nothing failed. Proved: what is sent is always a beginning of the log that includes everything logged before the flush; what a replica can read is a prefix of the records including those; and it can read it if nothing is logged during the copy."
  },
  {
   "property": "C69",
   "status": "partial",
   "theorems": [
    "C69_closes_partial",
    "C69_changes_exclusive",
    "C69_crash_races_partial",
    "C69_waits_partial",
    "C69_silent",
    "C69_crash_refuted",
    "C69_served_after_refuted"
   ],
   "note": "REFUTED: Stop goes through the table without the mutex and can crash the process; and a replica connecting after Stop is served. Proved: registered replicas not yet served are disconnected when Stop returns; changes of the table exclude each other; a crash happens only in that race. Stop goes through the table only after the changes of it that had begun before the stop are done (C69_waits_partial). A replica that was disconnected or given up is sent nothing more (C69_silent)."
  },
  {
   "property": "C70",
   "status": "partial",
   "theorems": [
    "C70_forgotten_partial",
    "C70_closed_partial",
    "C70_kept_refuted",
    "C70_open_refuted"
   ],
   "note": "REFUTED: a replica given up stays in the table forever, and a master without a log file never closes a connection. Proved: a replica that was sent everything is forgotten; with a log file every connection is closed when its goroutine ends."
  },
  {
   "property": "C71",
   "status": "proved",
   "theorems": [
    "C71_replies_explained",
    "C71_same_contents",
    "C71_same_crash"
   ],
   "note": "Total: for all histories below 2^62 bytes. The same-contents and same-crash parts are stated without SPOP, as the property says; the replies part includes SPOP."
  },
  {
   "property": "C72",
   "status": "proved",
   "theorems": [
    "C72_rebuilds",
    "C72_any_end",
    "C72_patient"
   ],
   "note": "Conditions as in the property: UTF-8 text, no LTRIM, no SPOP, no clashing request handled while a record is pending."
  },
  {
   "property": "C73",
   "status": "proved",
   "theorems": [
    "C73_lives",
    "C73_flushed",
    "C73_complete",
    "C73_history"
   ],
   "note": "Conditions as listed in the property. `history` relates a run to the requests it executed; C73_history shows that every run has one."
  },
  {
   "property": "C74",
   "status": "partial",
   "theorems": [
    "C74_crossed_refuted",
    "C74_patient_partial"
   ],
   "note": "REFUTED: a client sets a to 1, gets its reply, sets a to 2; the second record is written first, and a is 1 after the restart. Proved: it holds if no log goroutine is started while one for a clashing request is still running."
  },
  {
   "property": "C75",
   "status": "partial",
   "theorems": [
    "C75_listens",
    "C75_no_port",
    "C75_replicas",
    "C75_file",
    "C75_silent_refuted",
    "C75_last_port_refuted",
    "C75_configured_port_refuted",
    "C75_always_6789"
   ],
   "note": "REFUTED: a server whose replication port is taken, or is port 65536, comes up without replication and says nothing; main ignores its arguments and the configuration file (always port 6789). Proved: the clients' port and the data file are as configured; without the clients' port the process ends with status 1; when exactly replicas are listened for, and never on the clients' port."
  },
  {
   "property": "C76",
   "status": "partial",
   "theorems": [
    "C76_exact",
    "C76_no_crash_partial",
    "C76_refuted"
   ],
   "note": "REFUTED: a server without replication, or whose data file cannot be opened, comes up, and crashes when it is stopped. Proved: the exact condition under which stopping cannot crash it, and that such a server crashes only by C03 or C22. The crash of C69 during a stop is outside this statement's model (Server.v); see C80 and C82 for the program with replicas."
  },
  {
   "property": "C77",
   "status": "partial",
   "theorems": [
    "C77_process",
    "C77_only_signals",
    "C77_further_signals",
    "C77_received",
    "C77_ends_partial",
    "C77_early_refuted",
    "C77_blocked_refuted"
   ],
   "note": "REFUTED: a signal that comes before the handler waits is lost (C77_early_refuted), and after C65 the process never ends, whatever signals come (C77_blocked_refuted). Proved: no stop and no exit without a signal; further signals change nothing; from every state in which the handler waits and the response worker is not blocked, a signal can be followed by the end of the process with every packable record written and, unless a write failed before, in the file. Possibility only: schedulers and write failures after the signal are chosen. A write to a client ends here, if only by failing; writes that wait for the client to read are C97."
  },
  {
   "property": "C78",
   "status": "partial",
   "theorems": [
    "C78_levels_partial",
    "C78_debug_mode",
    "C78_other_text",
    "C78_debug_refuted"
   ],
   "note": "REFUTED for DEBUG outside debug mode: the text DEBUG means INFO. Proved for all other levels, for debug mode and for all other texts."
  },
  {
   "property": "C79",
   "status": "partial",
   "theorems": [
    "C79_errors",
    "C79_errors_plain",
    "C79_others",
    "C79_no_place",
    "C79_more",
    "C79_fewer",
    "C79_refuted"
   ],
   "note": "REFUTED for all but the error level: the argument list is handed on as one argument. Proved: error messages read as written, and the exact text of all others. Only %s and %% and string arguments. Also the texts when there are more or fewer arguments than places, and for templates without places."
  },
  {
   "property": "C80",
   "status": "proved",
   "theorems": [
    "C80_parts",
    "C80_ends",
    "C80_unsignalled"
   ],
   "note": ""
  },
  {
   "property": "C81",
   "status": "partial",
   "theorems": [
    "C81_replica_partial"
   ],
   "note": "Partial as C73: careful runs (C74), no LTRIM and SPOP (C30, C31), log below 4 GiB (C35), the replica starts with an empty file (C59 for others). Whether the replica can read what it received is a hypothesis: C68 shows that it may not."
  },
  {
   "property": "C82",
   "status": "partial",
   "theorems": [
    "C82_ends_partial",
    "C82_flush_last",
    "C82_race_refuted",
    "C82_lost_refuted"
   ],
   "note": "REFUTED: from every state in which a replica has just connected, a signal can be followed by a crash with no more in the file than before (C82_race_refuted); an acknowledged and logged SET is lost though nothing failed (C82_lost_refuted). Proved: from every state in which the handler waits and the response worker is not blocked, the program can also end with all records in the file, whatever replicas are connected. A write to a client ends here, if only by failing; writes that wait for the client to read are C97."
  },
  {
   "property": "C83",
   "status": "proved",
   "theorems": [
    "C83_served"
   ],
   "note": ""
  },
  {
   "property": "C84",
   "status": "proved",
   "theorems": [
    "C84_bounded",
    "C84_input",
    "C84_counts"
   ],
   "note": "A step is a step of the model: one channel operation, atomic access or lock-free part of a goroutine; handling one request and parsing one object are one step each (their loops end by C27 and C03)."
  },
  {
   "property": "C85",
   "status": "proved",
   "theorems": [
    "C85_comes_to_rest",
    "C85_rest"
   ],
   "note": "For a server whose data come from a history of requests and whose requests stay below 2^62 in total size (C27), with a Go map order that is a permutation. What counts as coming from outside is RestSpec.v. A write to a client ends here, if only by failing; writes that wait for the client to read are C97."
  },
  {
   "property": "C86",
   "status": "partial",
   "theorems": [
    "C86_memory_refuted",
    "C86_square_refuted",
    "C86_bounded",
    "C86_flat",
    "C86_shorter"
   ],
   "note": "REFUTED: n arrays nested in each other take 4n bytes to send and 4n(n+1) bytes of text to keep. Proved: the bound by size and depth, a depth of at most a quarter of the bytes, five times the bytes for arrays that hold no arrays, and that an object is never longer than what it was read from."
  },
  {
   "property": "C87",
   "status": "proved",
   "theorems": [
    "C87_data",
    "C87_step"
   ],
   "note": "Counts the bytes of the texts and one per item, not Go's own overhead (map buckets, slice capacity, pointers); what a parsed request keeps is C86."
  },
  {
   "property": "C88",
   "status": "proved",
   "theorems": [
    "C88_bound",
    "C88_record",
    "C88_never_shrinks",
    "C88_never_compacted"
   ],
   "note": "The bytes of the packed records in the file. Requests are counted by the length of their canonical encoding, which a request as sent never undercuts (C86)."
  },
  {
   "property": "C89",
   "status": "partial",
   "theorems": [
    "C89_serves_partial",
    "C89_bound_partial",
    "C89_rest_partial",
    "C89_deaf_refuted"
   ],
   "note": "REFUTED: from every state in which the accept loop runs, one error of Accept (start, master.go:68-73) leaves a master that never accepts again, though nobody stopped it. Proved: while the loop runs and the log has no write error, a new replica can be served from every reachable state; the bound on steps; and what holds at rest. Unless the process crashes in the race of C69."
  },
  {
   "property": "C90",
   "status": "partial",
   "theorems": [
    "C90_confined_partial",
    "C90_header_refuted",
    "C90_unnoticed_refuted"
   ],
   "note": "REFUTED twice: a changed length loses every later record, and one changed byte behind the length can give another record, read without an error, from which another database is rebuilt. Proved: damage behind the length of one record leaves all other records as they were and adds at most one."
  },
  {
   "property": "C91",
   "status": "proved",
   "theorems": [
    "C91_linearizable",
    "C91_program"
   ],
   "note": "What is sent on one connection without waiting may be handled in another order (C44); the history need not keep that order. At most 2^62 bytes of requests."
  },
  {
   "property": "C92",
   "status": "partial",
   "theorems": [
    "C92_quote",
    "C92_line",
    "C92_record",
    "C92_record_line",
    "C92_text_partial",
    "C92_text_refuted"
   ],
   "note": "Proved for the records the server makes (C92_record, C92_record_line) and for any record whose id, host and name hold no comma (C92_text_partial); false in general (C92_text_refuted). strconv.IsPrint is an oracle, used only in that control characters are not printable."
  },
  {
   "property": "C93",
   "status": "partial",
   "theorems": [
    "C93_host",
    "C93_unknown",
    "C93_error",
    "C93_reachable_refuted",
    "C93_distinct",
    "C93_id",
    "C93_apart",
    "C93_line"
   ],
   "note": "False if the addresses of an interface cannot be read (C93_error, C93_reachable_refuted); otherwise proved. The UUID generators are oracles that may panic."
  },
  {
   "property": "C94",
   "status": "proved",
   "theorems": [
    "C94_record",
    "C94_unambiguous",
    "C94_written",
    "C94_later_version",
    "C94_file"
   ],
   "note": ""
  },
  {
   "property": "C95",
   "status": "proved",
   "theorems": [
    "C95_channel_rest",
    "C95_channel_bound",
    "C95_topic_rest",
    "C95_topic_bound",
    "C95_future_rest",
    "C95_future_bound",
    "C95_broadcast_rest",
    "C95_broadcast_bound",
    "C95_conn_rest",
    "C95_conn_bound"
   ],
   "note": "A write to a client ends here, if only by failing; writes that wait for the client to read are C97."
  },
  {
   "property": "C96",
   "status": "partial",
   "theorems": [
    "C96_unharmed",
    "C96_alive",
    "C96_reported",
    "C96_never_again",
    "C96_recovers_refuted",
    "C96_success_refuted"
   ],
   "note": "REFUTED but for the first sentence, which is proved: after one failed write nothing is ever written again before the process ends, even if the disk has recovered (every attempt is reported as failed, C96_reported); and a record that was buffered is reported as written though the flush that follows fails, which nobody looks at (engine.go:201)."
  },
  {
   "property": "C97",
   "status": "partial",
   "theorems": [
    "C97_silenced_refuted",
    "C97_server",
    "C97_rest",
    "C97_delivered",
    "C97_bounded",
    "C97_all",
    "C97_conn",
    "C97_waits",
    "C97_expiry_refuted",
    "C97_finishes",
    "C97_conn_rest",
    "C97_conn_bounded"
   ],
   "note": "REFUTED: whatever the room, a client can ask something whose answer is longer, take nothing, and then the response worker writes to nobody, does not end, and the connection is never closed (C97_silenced_refuted); the expiry worker wins and waits for the same lock (C97_expiry_refuted). The rest is proved. The room is a constant of the run; the peer's own buffer counts as part of it."
  },
  {
   "property": "C98",
   "status": "partial",
   "theorems": [
    "C98_idle",
    "C98_count",
    "C98_closed",
    "C98_left_refuted",
    "C98_open_refuted"
   ],
   "note": "REFUTED: a reader that hands over a request while the timer of its connection fires calls Read afterwards and waits for the expiry worker, which is gone, for ever (C98_left_refuted); after a request that is not understood the reader ends and the connection stays open until its timer fires (C98_open_refuted). The rest is proved. The table of clients, which keeps every connection ever accepted (server.go:188), and the goroutines of the accept loop and of the log are not in the count."
  },
  {
   "property": "C99",
   "status": "partial",
   "theorems": [
    "C99_runs",
    "C99_kept",
    "C99_answered",
    "C99_in_order",
    "C99_expiry",
    "C99_closed",
    "C99_at_once",
    "C99_goes_on",
    "C99_reading_refuted"
   ],
   "note": "REFUTED: the timer fires while the server waits in a Read (C99_reading_refuted), so a client that takes longer than the expiry time over one request is cut off. The rest is proved, for a clock that does not go on while the server works; writes that wait for a client (C97) would be such work."
  },
  {
   "property": "C100",
   "status": "proved",
   "theorems": [
    "C100_returns",
    "C100_stream",
    "C100_flushed",
    "C100_sizes",
    "C100_room",
    "C100_failed",
    "C100_write"
   ],
   "note": ""
  },
  {
   "property": "C101",
   "status": "partial",
   "theorems": [
    "C101_same",
    "C101_server",
    "C101_replies_refuted",
    "C101_spop_refuted"
   ],
   "note": "REFUTED: replies may differ in order and error text (C101_replies_refuted), and SPOP makes the data differ (C101_spop_refuted). The rest is proved."
  },
  {
   "property": "C102",
   "status": "partial",
   "theorems": [
    "C102_retry",
    "C102_server",
    "C102_others_refuted"
   ],
   "note": "REFUTED for APPEND, INCR, INCRBY, DECR, DECRBY, LPUSH, RPUSH, LPOP, RPOP, LREM with another count, LTRIM, LINSERT and SPOP (C102_others_refuted). Proved for all other commands that write."
  },
  {
   "property": "C103",
   "status": "partial",
   "theorems": [
    "C103_alike_partial",
    "C103_server_partial",
    "C103_one_partial",
    "C103_told_refuted",
    "C103_crash_refuted"
   ],
   "note": "REFUTED for the commands that the statement lists (C103_told_refuted, C103_crash_refuted). Proved for all others; in sequences, for requests other than SPOP, whose choice of elements may differ (SPOP with a count is treated as a single command, C103_one_partial)."
  },
  {
   "property": "C104",
   "status": "proved",
   "theorems": [
    "C104_each",
    "C104_possible",
    "C104_server"
   ],
   "note": ""
  },
  {
   "property": "C105",
   "status": "proved",
   "theorems": [
    "C105_undo",
    "C105_later",
    "C105_server"
   ],
   "note": ""
  }
 ]
}