{
 "C03": {
  "note": "REFUTED: a bulk header '$-2' panics. Proved: the reader terminates on every input, and returns an object or an error on every input without a bulk length -2."
 },
 "C50": {
  "note": "REFUTED when exactly one string is empty (returns 0). Proved for every other pair."
 },
 "C17": {
  "note": "REFUTED for the empty field: it can be stored but HGET/HEXISTS/HSTRLEN reject it. Proved for every other field, and for whole histories; the empty key crashes HSET (C22)."
 },
 "C19": {
  "note": "REFUTED for the empty member: it can be added but SISMEMBER rejects it. Proved otherwise, and for whole histories; the empty key crashes SADD/SREM (C22)."
 },
 "C21": {
  "note": "REFUTED for the forms without a count: they crash on an existing empty set. Proved for every other case."
 },
 "C22": {
  "note": "REFUTED: six crash patterns. The exact crash condition is proved (C22_crash_conditions), everything else is total. C22_crash_causes lists all causes of a crash of the server, for all runs of its goroutines."
 },
 "C23": {
  "note": "REFUTED for LTRIM. Proved for every other access command."
 },
 "C24": {
  "note": "REFUTED: HSET with only a key replies an error and creates an empty hash. Proved that this is the only exception."
 },
 "C08": {
  "note": "REFUTED: overflow wraps silently. Proved when the result fits int64, with all error cases; the wrapped value in general is in C27's reference machine."
 },
 "C12": {
  "note": "REFUTED through LTRIM with an empty range (keeps everything). Proved per command and for whole histories of commands on which the ideal list is defined."
 },
 "C13": {
  "note": "REFUTED for count -2^63 (removes nothing) and the reserved text 'dummy string' (crash). Proved otherwise."
 },
 "C14": {
  "note": "REFUTED for the pivot 'dummy string'. Proved otherwise."
 },
 "C15": {
  "note": "REFUTED: an end before the first element is resolved twice; an empty LTRIM keeps everything. Proved otherwise."
 },
 "C16": {
  "note": "REFUTED for the reserved text 'dummy string'. Proved otherwise."
 },
 "C30": {
  "note": "REFUTED by LTRIM (not logged) and SPOP (another member may be popped on replay). Proved for UTF-8 histories without these, logged in execution order and flushed: same contents, hence the answers of the reference machine on them. Also over any number of sessions, ended by stop or death between records."
 },
 "C31": {
  "note": "REFUTED by LTRIM (never logged) and arguments that are not UTF-8 (record dropped). Proved for every other request that changes the data."
 },
 "C32": {
  "note": "REFUTED: log writes run in unordered goroutines, two SETs can be swapped. Proved: the log is always a permutation of the executed records once nothing is pending, and in order when each record is written before the next request is handled."
 },
 "C33": {
  "note": "REFUTED: after a torn tail every later append is swallowed. Proved: records before the tear are kept, and an untorn file appends cleanly."
 },
 "C34": {
  "note": "REFUTED: Stop flushes only when replication is on. Even then a record whose goroutine has not run yet is missing. Proved: with replication on, everything written so far is flushed."
 },
 "C36": {
  "note": "REFUTED: content of 2^32 bytes or more has a truncated length header."
 },
 "C58": {
  "note": "REFUTED: a crashing request may already be in the log; every restart then crashes. Proved for logs of histories that did not crash."
 },
 "C38": {
  "note": "REFUTED: Cancel racing with the task's completion is not decisive, and two overlapping Cancels can crash (close of a closed channel). Proved: Cancel succeeds at most once per crash-free run, a Cancel that returned before the task finished is decisive, a crash needs overlapping Cancels."
 },
 "C40": {
  "note": "REFUTED for Send (after Close it may still succeed into the buffer, or expire) and for receivers already waiting. Proved: Receive after Close gets the closed error, Close never crashes, is idempotent and can always return; the possible results of a Send after Close."
 },
 "C47": {
  "note": "REFUTED for the sync map's Len (two overlapping Sets of one new key count twice). Proved in full for the simple map (sequential) and the locked map (linearizable, no clash); for the sync map: every answer but Len, and Len when writers do not overlap. Every call of either map ends: at most six (five) steps each, and nothing is left to do only when all have returned."
 },
 "C42": {
  "note": "REFUTED: the delayed cleanup deletes by name and removes a later subscription under the same name. Proved: only names that had a closed channel are ever removed; others are offered every later event."
 },
 "C46": {
  "note": "REFUTED in part: the last clause is false (C46_write_blocks_refuted: a Write past its closed check when a Close wins never returns, whatever happens next; C46_read_blocks_refuted: a Read after close never returns). Proved: one closer, the answers of Close, no panic, writes after a Close fail and send nothing, and Write can return while nobody closes."
 },
 "C54": {
  "note": "REFUTED for the empty quoted string, which is left out of the request. Proved for every line of non-empty words, and the exact effect of empty ones."
 },
 "C60": {
  "note": "REFUTED: nested arrays, and strings with quotes and newlines, are ambiguous. Proved for replies that are not arrays."
 },
 "C43": {
  "note": "Over the composite transition system of connections, topics, data channels, engine loop and response worker."
 },
 "C44": {
  "note": "REFUTED: a run in which GET, pipelined after SET, is executed and answered first. Proved: a client that waits for a reply before sending the next request has them handled in order."
 },
 "C45": {
  "note": "REFUTED: a request whose send expires is never answered, whatever follows; nor is one that is not an array. Proved: every handled array request has a reply; every delivered request is handled or held by the engine; every delivered reply is written or held; and from every state of every run without crash and stop, an array request that was read, and of which no send was given up, can still be answered by going on, unless the worker is blocked (C65) or the engine meets a request it cannot execute (C22). That every schedule without expiry goes on to an answer is C84 and C85. A write to a client ends here, if only by failing; writes that wait for the client to read are C97."
 },
 "C51": {
  "note": "REFUTED: deleting a member that is on fewer levels than a later one leaves it in the list (the next PopMin crashes); the empty name is out of order; adding a present member keeps the old score. Proved: all histories in which no removed member is followed by a taller one (in particular all add-only histories with any levels, and all histories with equal levels), without NaN scores or empty names."
 },
 "C52": {
  "note": "REFUTED: a second PopMin can crash when the other member is on more levels; a second PopMax always crashes. Proved under the conditions stated in the theorems."
 },
 "C53": {
  "note": "REFUTED for every member of every set: Rank crashes. Proved: an absent member is reported as not found."
 },
 "C57": {
  "note": "REFUTED: a request whose first element is not a string is answered by an error quoting it with its line breaks, so one request yields what reads as several replies. Proved: every reply of every history whose text is not such an internal error (at most 2^62 bytes of requests) is read back exactly, and so is the whole stream of replies."
 },
 "C59": {
  "note": "REFUTED when the master used LTRIM (or SPOP), and for a server without a database file, which never asks. Proved otherwise, for logs below 4 GiB in execution order. A server whose database file cannot be opened starts from exactly what the master sends."
 },
 "C61": {
  "note": "REFUTED: copied records are not in the replica's file. Nothing positive beyond C59 holds."
 },
 "C62": {
  "note": "REFUTED when the replica has writes of its own: its log is replayed before the master's. Proved for a replica that was only read."
 },
 "C63": {
  "note": "REFUTED: an answered write is only buffered; logs of at most 4096 bytes never reach the file without a flush. Proved: wherever the process ends, the contents after some first part of the requests come back, with everything that was flushed (no LTRIM, no SPOP, logged in execution order)."
 },
 "C64": {
  "note": "REFUTED when the session pauses for ten minutes: the closing message is not a reply and the client exits at the next line. Proved exactly (what is shown, and that it is possible) while the connection stays open, for lines without empty quoted words (C54) and internal-error texts without line breaks (C57). Also proved: a line that is exactly quit ends the session, nothing more is sent or shown, and no other line does so while the connection is open."
 },
 "C65": {
  "note": "REFUTED: a client that leaves while its reply is about to be written blocks the response worker; then nobody ever gets a reply, and Serve never returns. Proved: as long as nobody began to close the connection written to, the worker has finished the write or can finish it. A write to a client ends here, if only by failing; writes that wait for the client to read are C97."
 },
 "C66": {
  "note": "REFUTED except its first part, which is proved: no request read after the stop began is executed. Refuted: an executed request is never answered, and its connection is still open when the stop is over."
 },
 "C67": {
  "note": "REFUTED: the process ends after the stop closed the topics and before it flushed, with an acknowledged SET in no file. Proved: the file is a beginning of the stream of records, complete up to the last flush if no write failed; records are made once for each logged request, before it is executed; the process ends by itself only after a stop was asked for. The process ends only after the request topic was told to end and its distributor finished, then the same for the response topic (C67_exit_order), and with no reply half written (C67_exit_replies)."
 },
 "C68": {
  "note": "REFUTED: a record that spills out of the write buffer between the flush and the end of the copy is sent in part; the replica then applies nothing, though nothing failed. Proved: what is sent is always a beginning of the log that includes everything logged before the flush; what a replica can read is a prefix of the records including those; and it can read it if nothing is logged during the copy."
 },
 "C69": {
  "note": "REFUTED: Stop goes through the table without the mutex and can crash the process; and a replica connecting after Stop is served. Proved: registered replicas not yet served are disconnected when Stop returns; changes of the table exclude each other; a crash happens only in that race. Stop goes through the table only after the changes of it that had begun before the stop are done (C69_waits_partial). A replica that was disconnected or given up is sent nothing more (C69_silent)."
 },
 "C70": {
  "note": "REFUTED: a replica given up stays in the table forever, and a master without a log file never closes a connection. Proved: a replica that was sent everything is forgotten; with a log file every connection is closed when its goroutine ends."
 },
 "C71": {
  "note": "Total: for all histories below 2^62 bytes. The same-contents and same-crash parts are stated without SPOP, as the property says; the replies part includes SPOP."
 },
 "C72": {
  "note": "Conditions as in the property: UTF-8 text, no LTRIM, no SPOP, no clashing request handled while a record is pending."
 },
 "C73": {
  "note": "Conditions as listed in the property. `history` relates a run to the requests it executed; C73_history shows that every run has one."
 },
 "C74": {
  "note": "REFUTED: a client sets a to 1, gets its reply, sets a to 2; the second record is written first, and a is 1 after the restart. Proved: it holds if no log goroutine is started while one for a clashing request is still running."
 },
 "C75": {
  "note": "REFUTED: a server whose replication port is taken, or is port 65536, comes up without replication and says nothing; main ignores its arguments and the configuration file (always port 6789). Proved: the clients' port and the data file are as configured; without the clients' port the process ends with status 1; when exactly replicas are listened for, and never on the clients' port."
 },
 "C76": {
  "note": "REFUTED: a server without replication, or whose data file cannot be opened, comes up, and crashes when it is stopped. Proved: the exact condition under which stopping cannot crash it, and that such a server crashes only by C03 or C22. The crash of C69 during a stop is outside this statement's model (Server.v); see C80 and C82 for the program with replicas."
 },
 "C78": {
  "note": "REFUTED for DEBUG outside debug mode: the text DEBUG means INFO. Proved for all other levels, for debug mode and for all other texts."
 },
 "C79": {
  "note": "REFUTED for all but the error level: the argument list is handed on as one argument. Proved: error messages read as written, and the exact text of all others. Only %s and %% and string arguments. Also the texts when there are more or fewer arguments than places, and for templates without places."
 },
 "C77": {
  "note": "REFUTED: a signal that comes before the handler waits is lost (C77_early_refuted), and after C65 the process never ends, whatever signals come (C77_blocked_refuted). Proved: no stop and no exit without a signal; further signals change nothing; from every state in which the handler waits and the response worker is not blocked, a signal can be followed by the end of the process with every packable record written and, unless a write failed before, in the file. Possibility only: schedulers and write failures after the signal are chosen. A write to a client ends here, if only by failing; writes that wait for the client to read are C97."
 },
 "C81": {
  "note": "Partial as C73: careful runs (C74), no LTRIM and SPOP (C30, C31), log below 4 GiB (C35), the replica starts with an empty file (C59 for others). Whether the replica can read what it received is a hypothesis: C68 shows that it may not."
 },
 "C82": {
  "note": "REFUTED: from every state in which a replica has just connected, a signal can be followed by a crash with no more in the file than before (C82_race_refuted); an acknowledged and logged SET is lost though nothing failed (C82_lost_refuted). Proved: from every state in which the handler waits and the response worker is not blocked, the program can also end with all records in the file, whatever replicas are connected. A write to a client ends here, if only by failing; writes that wait for the client to read are C97."
 },
 "C85": {
  "note": "For a server whose data come from a history of requests and whose requests stay below 2^62 in total size (C27), with a Go map order that is a permutation. What counts as coming from outside is RestSpec.v. A write to a client ends here, if only by failing; writes that wait for the client to read are C97."
 },
 "C84": {
  "note": "A step is a step of the model: one channel operation, atomic access or lock-free part of a goroutine; handling one request and parsing one object are one step each (their loops end by C27 and C03)."
 },
 "C86": {
  "note": "REFUTED: n arrays nested in each other take 4n bytes to send and 4n(n+1) bytes of text to keep. Proved: the bound by size and depth, a depth of at most a quarter of the bytes, five times the bytes for arrays that hold no arrays, and that an object is never longer than what it was read from."
 },
 "C87": {
  "note": "Counts the bytes of the texts and one per item, not Go's own overhead (map buckets, slice capacity, pointers); what a parsed request keeps is C86."
 },
 "C88": {
  "note": "The bytes of the packed records in the file. Requests are counted by the length of their canonical encoding, which a request as sent never undercuts (C86)."
 },
 "C89": {
  "note": "REFUTED: from every state in which the accept loop runs, one error of Accept (start, master.go:68-73) leaves a master that never accepts again, though nobody stopped it. Proved: while the loop runs and the log has no write error, a new replica can be served from every reachable state; the bound on steps; and what holds at rest. Unless the process crashes in the race of C69."
 },
 "C90": {
  "note": "REFUTED twice: a changed length loses every later record, and one changed byte behind the length can give another record, read without an error, from which another database is rebuilt. Proved: damage behind the length of one record leaves all other records as they were and adds at most one."
 },
 "C91": {
  "note": "What is sent on one connection without waiting may be handled in another order (C44); the history need not keep that order. At most 2^62 bytes of requests."
 },
 "C92": {
  "note": "Proved for the records the server makes (C92_record, C92_record_line) and for any record whose id, host and name hold no comma (C92_text_partial); false in general (C92_text_refuted). strconv.IsPrint is an oracle, used only in that control characters are not printable."
 },
 "C93": {
  "note": "False if the addresses of an interface cannot be read (C93_error, C93_reachable_refuted); otherwise proved. The UUID generators are oracles that may panic."
 },
 "C96": {
  "note": "REFUTED but for the first sentence, which is proved: after one failed write nothing is ever written again before the process ends, even if the disk has recovered (every attempt is reported as failed, C96_reported); and a record that was buffered is reported as written though the flush that follows fails, which nobody looks at (engine.go:201)."
 },
 "C97": {
  "note": "REFUTED: whatever the room, a client can ask something whose answer is longer, take nothing, and then the response worker writes to nobody, does not end, and the connection is never closed (C97_silenced_refuted); the expiry worker wins and waits for the same lock (C97_expiry_refuted). The rest is proved. The room is a constant of the run; the peer's own buffer counts as part of it."
 },
 "C95": {
  "note": "A write to a client ends here, if only by failing; writes that wait for the client to read are C97."
 },
 "C98": {
  "note": "REFUTED: a reader that hands over a request while the timer of its connection fires calls Read afterwards and waits for the expiry worker, which is gone, for ever (C98_left_refuted); after a request that is not understood the reader ends and the connection stays open until its timer fires (C98_open_refuted). The rest is proved. The table of clients, which keeps every connection ever accepted (server.go:188), and the goroutines of the accept loop and of the log are not in the count."
 },
 "C99": {
  "note": "REFUTED: the timer fires while the server waits in a Read (C99_reading_refuted), so a client that takes longer than the expiry time over one request is cut off. The rest is proved, for a clock that does not go on while the server works; writes that wait for a client (C97) would be such work."
 },
 "C101": {
  "note": "REFUTED: replies may differ in order and error text (C101_replies_refuted), and SPOP makes the data differ (C101_spop_refuted). The rest is proved."
 },
 "C102": {
  "note": "REFUTED for APPEND, INCR, INCRBY, DECR, DECRBY, LPUSH, RPUSH, LPOP, RPOP, LREM with another count, LTRIM, LINSERT and SPOP (C102_others_refuted). Proved for all other commands that write."
 },
 "C103": {
  "note": "REFUTED for the commands that the statement lists (C103_told_refuted, C103_crash_refuted). Proved for all others; in sequences, for requests other than SPOP, whose choice of elements may differ (SPOP with a count is treated as a single command, C103_one_partial)."
 }
}