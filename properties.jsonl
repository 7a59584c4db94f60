{"id": "C01", "title": "RESP encode/decode round trip", "statement": "Writing any RESP object with String()/Byte() and reading it back with Parse/ReadObject yields an equal object and leaves exactly the bytes that followed it in the stream, provided every simple-string/error payload in it is one that fits on a RESP line (no LF directly after CR or LF) and every integer is an int64.", "quantifier": "every RESP object of any nesting depth, width and payload bytes, followed by any trailing bytes", "why_tests_cant": "objects nest without bound and payloads are arbitrary bytes (including CR, LF, '$', '*'); tests sample a handful", "anchors": ["pkg/protocol/resp.go:NewSimpleRedisString,NewBulkRedisString,NewNullBulkRedisString,NewRedisError,NewRedisInteger,NewRedisArray,NewNullRedisArray", "pkg/protocol/reader.go:readObject,readToken,readBytes,readString,readArray"]}
{"id": "C02", "title": "A truncated RESP message is never taken for a complete one", "statement": "If the connection ends strictly inside the encoding of an object, reading it reports end-of-file; no object (shorter, longer or different) is ever returned.", "quantifier": "every RESP object and every strict prefix of its encoding", "why_tests_cant": "there is one crash/cut point per byte of every possible message", "anchors": ["pkg/protocol/reader.go:readToken,readBytes,readObject", "pkg/network/conn.go:Read"]}
{"id": "C03", "title": "Reading arbitrary bytes never crashes or loops the server", "statement": "For any bytes a peer sends, reading an object terminates and returns an object or an error; it never panics. (Expected to be refuted: a bulk header '$-2' makes Parse slice with a negative bound.)", "quantifier": "every finite byte sequence", "why_tests_cant": "the input space is all byte strings; a fuzzer can miss the single bad header", "anchors": ["pkg/protocol/reader.go:readString,readBytes,readArray"]}
{"id": "C04", "title": "What the reader accepts re-encodes faithfully", "statement": "Whatever object the reader returns from any bytes, its String() form is read back as exactly the same object (so an argument logged by its String() form is recovered unchanged on replay).", "quantifier": "every byte sequence accepted by the reader", "why_tests_cant": "quantifies over all inputs the parser accepts, including non-canonical ones ('$+3', '*-7')", "anchors": ["pkg/protocol/reader.go:readObject", "pkg/log/log.go:NewLog", "pkg/db/engine.go:convertArguments"]}
{"id": "C05", "title": "Decimal text and int64 correspond exactly", "statement": "Formatting any int64 and parsing the text returns the same number; parsing accepts exactly an optional sign followed by one or more decimal digits whose value fits int64, and rejects everything else.", "quantifier": "every int64 and every byte string", "why_tests_cant": "2^64 values and all byte strings", "anchors": ["pkg/util/util.go:ParseInt64", "pkg/container/int_variant.go:newIntVariant,AsString", "pkg/protocol/resp.go:NewRedisInteger"]}
{"id": "C06", "title": "SET/MSET/GET/MGET behave as a map", "statement": "After SET k v (or MSET with pairs, last pair for a key wins) GET k / MGET return v for k until the next write to k; keys not named keep their value or absence; GET of an absent key is the null bulk string, and never an error.", "quantifier": "every key/value byte string, every database state and every history of commands", "why_tests_cant": "must hold for all histories and all interleavings of other commands", "anchors": ["pkg/command/global.go:setCommand,getCommand,msetCommand,mgetCommand", "pkg/container/string_map.go:Set,Get"]}
{"id": "C07", "title": "EXISTS and STRLEN report the string store truthfully", "statement": "EXISTS k1..kn replies with the number of argument positions whose key holds a string; STRLEN k replies with the byte length of the string at k, or 0 when absent; neither changes any state.", "quantifier": "every argument list (duplicates included) and every reachable database", "why_tests_cant": "unbounded argument lists and states", "anchors": ["pkg/command/global.go:existsCommand,strlenCommand", "pkg/container/string_map.go:Exists,StringLen"]}
{"id": "C08", "title": "INCR/DECR family is exact integer arithmetic", "statement": "INCRBY/DECRBY on a key holding an integer text replies with old value plus/minus the amount, and the key then holds the decimal text of that reply; on a non-integer value or non-integer amount, or an absent key, it replies an error and changes nothing. A result outside int64 must be an error, not a silent wrap. (The overflow clause is expected to be refuted.)", "quantifier": "every stored value, every amount in int64, every history of INCR/DECR/SET/APPEND on the key", "why_tests_cant": "the cached integer and the text can diverge only after particular histories; overflow happens at 2^63", "anchors": ["pkg/command/global.go:incrCommand,decrCommand", "pkg/container/string.go:Increase,Decrease", "pkg/container/int_variant.go"]}
{"id": "C09", "title": "APPEND concatenates", "statement": "APPEND k s makes the value of k its old value (empty if absent) followed by s, replies with the new byte length, and leaves every other key alone.", "quantifier": "every key, value, suffix and database state", "why_tests_cant": "all byte strings and histories", "anchors": ["pkg/command/global.go:appendCommand", "pkg/container/string_map.go:Append"]}
{"id": "C10", "title": "GETRANGE returns the inclusive slice", "statement": "GETRANGE k a b replies with the bytes of the value at positions a..b inclusive (negative counts from the end, b clipped to the end) when the resolved start is inside the string and not after the end, and with the empty string otherwise; it never changes state or fails.", "quantifier": "every value, all int64 a and b", "why_tests_cant": "the index space is 2^128 per value; boundaries depend on the length", "anchors": ["pkg/command/global.go:getRangeCommand", "pkg/container/string.go:GetRange", "pkg/util/index.go:Slice.Resolve"]}
{"id": "C11", "title": "Index and slice resolution stay in bounds", "statement": "Resolving an index against a size gives either -1 or a position in [0,size) equal to the index or index+size; resolving a slice gives either (-1,-1) or in-bounds left<=right, with right clipped; it is (-1,-1) exactly when the resolved left is outside or right precedes left or is negative.", "quantifier": "all integers and sizes", "why_tests_cant": "unbounded arithmetic domain", "anchors": ["pkg/util/index.go:Index.Resolve,Slice.Resolve"]}
{"id": "C12", "title": "A list behaves as a sequence", "statement": "Through any history of LPUSH/RPUSH/LPOP/RPOP/LINSERT/LSET/LREM/LTRIM, LLEN, LINDEX and LRANGE report exactly the sequence obtained by performing those operations on a mathematical list, and the length counter always equals the number of elements.", "quantifier": "every history of list operations with every argument", "why_tests_cant": "pointer-linked structure: correctness is an invariant over all histories", "anchors": ["pkg/container/list.go", "pkg/command/list.go"]}
{"id": "C13", "title": "LREM removes exactly the requested occurrences", "statement": "LREM k c v removes the first c occurrences of v when c>0, the last |c| when c<0, all when c=0, preserves the order of everything else, and replies with the number removed.", "quantifier": "every list, every value, every int64 count", "why_tests_cant": "unbounded lists and counts; the minimum int64 has no negation", "anchors": ["pkg/container/list.go:Remove,deleteFromHead,deleteFromTail", "pkg/command/list.go:lremCommand"]}
{"id": "C14", "title": "LINSERT inserts next to the first pivot occurrence", "statement": "LINSERT inserts the value immediately before/after the first element equal to the pivot and replies with the new length, or replies -1 and changes nothing when the pivot does not occur. (Expected to be refuted for the pivot text 'dummy string', which equals the sentinel.)", "quantifier": "every list, pivot and value", "why_tests_cant": "a single magic pivot among all byte strings misbehaves", "anchors": ["pkg/container/list.go:Insert", "pkg/command/list.go:linsertCommand"]}
{"id": "C15", "title": "LRANGE/LTRIM select the inclusive range", "statement": "LRANGE k a b returns, and LTRIM k a b keeps, exactly the elements at resolved positions a..b inclusive with b clipped to the end; an end before the start selects nothing. (Expected to be refuted: a too-negative end is resolved twice, and an empty LTRIM range keeps everything.)", "quantifier": "every list and all int64 a and b", "why_tests_cant": "boundary arithmetic over unbounded lengths", "anchors": ["pkg/container/list.go:extractSegment,Range,Trim", "pkg/command/list.go:lrangeCommand,ltrimCommand"]}
{"id": "C16", "title": "List operations never crash", "statement": "No list operation panics, whatever the elements, pivots and counts. (Expected to be refuted for the text 'dummy string'.)", "quantifier": "every reachable list and every argument", "why_tests_cant": "nil dereference occurs only for one particular value", "anchors": ["pkg/container/list.go:insertBefore,deleteNode"]}
{"id": "C17", "title": "A hash behaves as a finite map", "statement": "HSET/HDEL/HGET/HMGET/HEXISTS/HLEN/HSTRLEN report exactly the finite map from field to last value set; HSET replies the number of new distinct fields and HDEL the number of distinct present fields removed.", "quantifier": "every history of hash commands, every field list including duplicates", "why_tests_cant": "all histories and duplicate patterns", "anchors": ["pkg/container/hash.go", "pkg/command/hash.go"]}
{"id": "C18", "title": "HKEYS/HVALS/HGETALL enumerate each entry exactly once", "statement": "Whatever order the runtime iterates the map in, HKEYS lists every field once, HVALS the corresponding values, and HGETALL alternates each field with its own current value.", "quantifier": "every hash content and every map iteration order", "why_tests_cant": "Go randomises map order; tests see one order per run", "anchors": ["pkg/container/hash.go:Keys,Values,Entries", "pkg/command/hash.go:hgetallCommand,hkeysCommand,hvalsCommand"]}
{"id": "C19", "title": "A set behaves as a mathematical set", "statement": "SADD/SREM/SISMEMBER/SCARD/SMEMBERS report exactly the mathematical set; SADD replies the number of distinct new members, SREM the number of distinct members removed; SMEMBERS lists each member once in some order.", "quantifier": "every history of set commands, duplicates included, every iteration order", "why_tests_cant": "all histories and orders", "anchors": ["pkg/container/set.go:Add,Delete,IsMember,Members", "pkg/command/set.go"]}
{"id": "C20", "title": "SDIFF/SINTER/SUNION compute difference, intersection and union", "statement": "The reply lists exactly the difference of the first set and all others / the intersection of all / the union of all, each element once; the source sets are unchanged; absent keys count as empty sets; an empty result is the null array.", "quantifier": "every number of sets, all contents, every iteration order at every loop", "why_tests_cant": "combination of unbounded operands and iteration orders", "anchors": ["pkg/container/set.go:Diff,Intersect,Union", "pkg/command/set.go:sdiffCommand,sinterCommand,sunionCommand"]}
{"id": "C21", "title": "SPOP/SRANDMEMBER return distinct members, SPOP removes exactly those", "statement": "SRANDMEMBER k n returns min(|n|,card) distinct members and changes nothing; SPOP k n returns such members and removes exactly them. On an existing but empty set the reply is null. (The empty-set clause without count is expected to be refuted: it panics.)", "quantifier": "every set, every int64 count, every iteration order", "why_tests_cant": "random choice; the crash needs an emptied set", "anchors": ["pkg/container/set.go:RandomMember,Pop", "pkg/command/set.go:spopCommand,srandmemberCommand"]}
{"id": "C22", "title": "No request can crash the server", "statement": "For every reachable database and every request object, handling the request terminates with a reply. (Expected to be refuted: several requests panic; the exact crash conditions are to be characterised.)", "quantifier": "every reachable database and request", "why_tests_cant": "crash conditions combine a history with a magic argument", "anchors": ["pkg/db/engine.go:handleRequest", "pkg/db/db.go:ExecuteCommand", "pkg/command"]}
{"id": "C23", "title": "Read commands leave the database unchanged", "statement": "Every command classified as an access (not logged) command leaves all observable data unchanged. (Expected to be refuted for LTRIM, which is classified as access but trims.)", "quantifier": "every access command, argument list and database", "why_tests_cant": "universally quantified over states and arguments", "anchors": ["pkg/command/command.go:CommandType", "pkg/command/list.go:ltrimCommand.Type"]}
{"id": "C24", "title": "A command that replies an error has no effect", "statement": "If a request is answered by an error, the observable database is the same as before. (Expected to be refuted: HSET with only a key creates an empty hash.)", "quantifier": "every request and database", "why_tests_cant": "must hold for every failing path", "anchors": ["pkg/db/db.go:ExecuteCommand", "pkg/command/hash.go:hsetCommand"]}
{"id": "C25", "title": "Commands affect only the keys they name, and each data type has its own namespace", "statement": "A command changes nothing under any key it does not name, and a command of one type (string/list/hash/set) never changes data of another type even under the same key.", "quantifier": "every command, argument list and database", "why_tests_cant": "frame property over all other keys", "anchors": ["pkg/container/container.go", "pkg/db/db.go:resolveName"]}
{"id": "C26", "title": "Command lookup is case-insensitive and total", "statement": "A request's command name is recognised exactly when it equals, up to letter case, one of the documented names; an unknown name gets 'ERR no such command', wrong arity or non-string arguments get 'ERR invalid argument', both without touching the data.", "quantifier": "every name, every argument list", "why_tests_cant": "all byte strings", "anchors": ["pkg/command/command.go:NewCommand", "pkg/db/engine.go:handleError"]}
{"id": "C27", "title": "The command engine refines the abstract database", "statement": "Starting from the empty database, any sequence of requests that does not crash produces exactly the replies and final contents of the reference machine over (string map, list map, hash map, set map).", "quantifier": "every finite sequence of requests and every iteration order", "why_tests_cant": "whole-history refinement", "anchors": ["pkg/db/engine.go:handleRequest", "pkg/db/db.go", "pkg/command", "pkg/container"]}
{"id": "C28", "title": "Log records round trip", "statement": "Packing any log record whose strings are valid UTF-8 and reading the bytes back gives the same record; packing several and concatenating reads back the same sequence.", "quantifier": "every sequence of non-empty records whose packed size fits the 4-byte length", "why_tests_cant": "all field contents, all sequences", "anchors": ["pkg/log/log.go:PackLog,ParseLog,readLog", "pkg/log/log.proto"]}
{"id": "C29", "title": "After a crash, recovery sees a prefix of the log", "statement": "Whatever moment the process dies, the records recovered from the file are exactly the first n records written, for some n, in order; no torn, reordered or invented record appears, and everything flushed before the crash is included.", "quantifier": "every sequence of writes and flushes and every crash point between file-system writes or inside one", "why_tests_cant": "one crash point per byte", "anchors": ["pkg/log/persistent.go", "pkg/log/log.go:ParseLog", "pkg/network/server.go:fromFile"]}
{"id": "C30", "title": "Restart rebuilds the database", "statement": "After any history of commands followed by a flush and restart from the file, the rebuilt database answers every query as the original would. (Expected to be refuted: LTRIM is not logged, SPOP is random, writes are logged asynchronously; to be proved for histories without those.)", "quantifier": "every history of requests", "why_tests_cant": "all histories and schedules", "anchors": ["pkg/db/engine.go:BuildFromLog,writeLog,handleRequest", "pkg/network/server.go:fromFile"]}
{"id": "C31", "title": "Every effective write is logged", "statement": "Each command that changed the data appears in the log. (Expected to be refuted: LTRIM is not logged; arguments that are not UTF-8 make packing fail and are dropped.)", "quantifier": "every command and argument bytes", "why_tests_cant": "all byte strings", "anchors": ["pkg/db/engine.go:writeLog", "pkg/log/log.go:PackLog", "pkg/command/list.go:ltrimCommand.Type"]}
{"id": "C32", "title": "The log order is the execution order", "statement": "The order of records in the log is the order in which the commands were executed. (Expected to be refuted: each write is a separate goroutine; the log is only a permutation.)", "quantifier": "every goroutine schedule", "why_tests_cant": "depends on scheduling", "anchors": ["pkg/db/engine.go:handleRequest,writeLog"]}
{"id": "C33", "title": "Writes after recovering from a torn log are durable", "statement": "After recovering a log with a torn tail, records appended later are recovered by the next restart. (Expected to be refuted: the torn tail is not cut and swallows later records.)", "quantifier": "every torn tail and every later record", "why_tests_cant": "needs crash, restart, write, restart", "anchors": ["pkg/network/server.go:fromFile", "pkg/log/log.go:ParseLog"]}
{"id": "C34", "title": "A clean stop makes every logged write durable", "statement": "When the server is stopped, all log records written so far reach the file. (Expected to be refuted with replication disabled: Stop dereferences the nil master before flushing.)", "quantifier": "every configuration and buffered content", "why_tests_cant": "configuration dependent crash at shutdown", "anchors": ["pkg/db/engine.go:Stop"]}
{"id": "C35", "title": "A replica receives exactly the master's log or nothing", "statement": "A replica that connects receives precisely the records in the master's log file (size below 4 GiB); if the connection is cut at any byte, it receives an error and applies nothing.", "quantifier": "every log and every cut point", "why_tests_cant": "one cut point per byte", "anchors": ["pkg/replication/master.go:handleConn", "pkg/replication/replica.go:Receive", "pkg/network/server.go:fromMaster"]}
{"id": "C36", "title": "Replication of any log size is faithful", "statement": "The previous property holds for logs of any size. (Expected to be refuted: the length header is truncated to 32 bits; the replica then reads only size mod 2^32 bytes.)", "quantifier": "every file size", "why_tests_cant": "needs >4GiB files", "anchors": ["pkg/replication/master.go:handleConn"]}
{"id": "C37", "title": "A Future delivers the task's own result", "statement": "Get returns without cancellation only after the task finished, and returns exactly the task's result and error; Wait/WaitFor return nil only after the task finished; ErrCancelled is returned only if Cancel was called.", "quantifier": "every number of callers and every schedule", "why_tests_cant": "all interleavings", "anchors": ["pkg/concurrency/future.go"]}
{"id": "C38", "title": "Cancelling a Future is decisive", "statement": "If Cancel returned nil, no later Get returns the task's result; Cancel succeeds at most once and never crashes. (Expected to be refuted: select-then-close is not atomic.)", "quantifier": "every schedule of task completion and callers", "why_tests_cant": "race windows of a few instructions", "anchors": ["pkg/concurrency/future.go:Cancel,start"]}
{"id": "C39", "title": "A data channel is a lossless FIFO", "statement": "Events are received in the order of their successful sends, each exactly once; a send reported Expired or Closed is never received.", "quantifier": "every buffer size, number of senders/receivers, and schedule", "why_tests_cant": "all interleavings", "anchors": ["pkg/concurrency/data_channel.go"]}
{"id": "C40", "title": "Closing a data channel is final", "statement": "After Close returns, every later Receive gets ErrChannelClosed and every later Send returns Closed; Close is idempotent. (Send clause expected to be refuted: select may still buffer or expire; a receiver already waiting stays blocked.)", "quantifier": "every schedule and buffer size", "why_tests_cant": "select chooses among ready cases at random", "anchors": ["pkg/concurrency/data_channel.go:Receive,Send,Close"]}
{"id": "C41", "title": "Publish delivers at most one copy per subscriber and counts successes", "statement": "The future of Publish yields the number of subscribers whose channel accepted the event; each current subscriber gets the event at most once, and removed/absent topics yield ErrNoSuchTopic.", "quantifier": "every subscriber set and every outcome of each send", "why_tests_cant": "all send outcomes/schedules", "anchors": ["pkg/concurrency/topic.go:Publish,distributeEvent", "pkg/concurrency/event_bus.go"]}
{"id": "C42", "title": "A live subscription is never lost", "statement": "A subscriber that subscribed and never closed stays subscribed. (Expected to be refuted: delayed cleanup removes by name, deleting a re-subscription under the same name.)", "quantifier": "every schedule of publish, close and subscribe", "why_tests_cant": "race between cleanup and re-subscribe", "anchors": ["pkg/concurrency/topic.go:batchRemove,Subscribe"]}
{"id": "C43", "title": "Requests are executed one at a time and replies go to the requester", "statement": "In every execution of the server, the data equals the sequential execution of the handled requests in some order, each sent request is handled at most once, and every reply written to a connection answers a request read from that same connection, at most one reply per request.", "quantifier": "every number of clients, requests and schedules", "why_tests_cant": "all interleavings of connection, bus, engine and response goroutines", "anchors": ["pkg/network/server.go:newConn,responseWorker", "pkg/db/engine.go:Start", "pkg/concurrency/topic.go"]}
{"id": "C44", "title": "Replies come back in request order", "statement": "A client that pipelines requests on one connection gets them executed and answered in the order sent. (Expected to be refuted: each publish is delivered by its own goroutine.)", "quantifier": "every schedule", "why_tests_cant": "scheduling dependent", "anchors": ["pkg/concurrency/topic.go:Publish", "pkg/network/server.go:newConn"]}
{"id": "C45", "title": "Every request is answered", "statement": "Every complete request a client sends is eventually answered. (Expected to be refuted: sends expire after 10ms and are dropped; non-array requests get no answer.)", "quantifier": "every schedule and request", "why_tests_cant": "timing dependent", "anchors": ["pkg/concurrency/data_channel.go:Send", "pkg/db/engine.go:Start,parseRequest"]}
{"id": "C46", "title": "Connection close is clean", "statement": "A connection is closed exactly once (one Close returns nil, others ErrConnIsClosed), writing to a closed connection fails with ErrConnIsClosed, and no Write blocks forever. (The last clause is expected to be refuted: a Write racing with Close blocks on the reset channel, stalling the only response worker.)", "quantifier": "every schedule of Read/Write/Close/expiry", "why_tests_cant": "race window between the closed check and the channel send", "anchors": ["pkg/network/conn.go"]}
{"id": "C47", "title": "Data maps count their keys", "statement": "Each DataMap returns the last value set for a key and Len equals the number of distinct keys present, also under concurrent use for the locked and sync variants. (Sync variant expected to be refuted: check-then-act.)", "quantifier": "every operation history and interleaving", "why_tests_cant": "all interleavings", "anchors": ["pkg/types/data_map.go"]}
{"id": "C48", "title": "A pipeline runs handlers in order and stops at the first error", "statement": "Run invokes the handlers in the order added, each on its predecessor's output, stops after the first error and returns that handler's context and error.", "quantifier": "every handler list", "why_tests_cant": "higher-order: all handler functions", "anchors": ["pkg/util/pipeline.go"]}
{"id": "C49", "title": "A broadcast reaches every getter", "statement": "Every Get returns only after Set and returns the value set; a second Set crashes.", "quantifier": "every number of getters and schedule", "why_tests_cant": "all interleavings", "anchors": ["pkg/concurrency/broadcast.go"]}
{"id": "C50", "title": "LexicalCompare orders byte strings", "statement": "LexicalCompare is negative, zero or positive exactly when the first string is lexicographically smaller, equal or greater. (Expected to be refuted when exactly one string is empty: it returns 0.)", "quantifier": "all pairs of byte strings", "why_tests_cant": "all pairs", "anchors": ["pkg/util/util.go:LexicalCompare"]}
{"id": "C51", "title": "A sorted set keeps its members ordered with their scores", "statement": "After any history of Add/Del/IncreaseBy/PopMin, Score reports each member's current score, Len the number of members, and the members are kept in ascending (score, member) order whatever random levels are drawn.", "quantifier": "every history, every random level choice", "why_tests_cant": "skip-list pointer invariants over all histories and coin flips", "anchors": ["pkg/container/sorted_set.go:insert,delete,deleteNode,Add,Del,Score,IncreaseBy"]}
{"id": "C52", "title": "PopMin/PopMax remove and return the extreme member", "statement": "PopMin returns and removes the member with the smallest (score, member), PopMax the largest. (PopMax expected to be refuted: tail back pointer is stale after a deletion; a second PopMax crashes.)", "quantifier": "every history", "why_tests_cant": "needs a particular two-step history", "anchors": ["pkg/container/sorted_set.go:PopMin,PopMax,delete"]}
{"id": "C53", "title": "Rank returns the position of a member", "statement": "Rank returns the number of members ordered before the given one. (Expected to be refuted: the loop condition never stops and the walk runs off the tail for every member.)", "quantifier": "every sorted set and member", "why_tests_cant": "all structures", "anchors": ["pkg/container/sorted_set.go:getRank,Rank"]}
{"id": "C54", "title": "The command line client sends what was typed", "statement": "Typing words separated by spaces, or double-quoted strings, sends the RESP array of exactly those words as bulk strings.", "quantifier": "every list of words", "why_tests_cant": "all byte strings", "anchors": ["cmd/client/internal/codec.go:FormatInput,parseString,parseQuote"]}
{"id": "C55", "title": "The command line client shows a reply faithfully", "statement": "FormatOutput shows nil exactly for a null bulk string, the number of an integer, the quoted data of strings, the error message, and numbers each array element in order.", "quantifier": "every reply object", "why_tests_cant": "unbounded nesting", "anchors": ["cmd/client/internal/codec.go:FormatOutput,formatArray,formatString"]}
{"id": "C58", "title": "A server can restart from its own log", "statement": "After any run, including one that ended in a crash of the server, starting again from the log it left does not crash. (Expected to be refuted: a request that crashes execution can be logged before the crash, and crashes every restart.)", "quantifier": "every request history and every schedule of the log writers", "why_tests_cant": "all histories, crash points and schedules", "anchors": ["pkg/db/engine.go:handleRequest,writeLog,BuildFromLog", "pkg/network/server.go:fromFile"]}
{"id": "C60", "title": "Different replies look different in the client", "statement": "If the command line client shows two replies with the same text, they are the same reply (the two kinds of string aside). (Expected to be refuted: nested arrays are not indented and quotes and newlines are not escaped.)", "quantifier": "every pair of replies", "why_tests_cant": "all pairs of unboundedly nested replies", "anchors": ["cmd/client/internal/codec.go:FormatOutput,formatArray,formatString"]}
{"id": "C56", "title": "Requests are read as sent", "statement": "In every execution of the server, the requests read from a connection are the successive RESP objects at the front of the bytes the client sent, in order and without gaps, however the bytes arrive; if the client sent well formed objects they are exactly those. Once a read has failed nothing more is read from that connection.", "quantifier": "every number of clients, every byte stream and every schedule", "why_tests_cant": "unbounded byte streams and interleavings", "anchors": ["pkg/network/server.go:newConn", "pkg/network/conn.go:Read", "pkg/protocol/reader.go:readObject"]}
{"id": "C57", "title": "A reply is read as it was given", "statement": "Every reply the server writes, followed by anything, is read by a RESP reader as exactly that reply, so the replies of a connection are read one for one. (Expected to be refuted: internal error messages quote what the client sent, line breaks included.)", "quantifier": "every request history and every following bytes", "why_tests_cant": "unbounded histories and contents", "anchors": ["pkg/db/engine.go:handleRequest,handleError", "pkg/protocol/resp.go:NewRedisError", "pkg/protocol/reader.go:readObject"]}
{"id": "C59", "title": "A replica starts with its master's data", "statement": "A server that starts with an empty database file and copies from a master answers every request as the master would, for the data the master had when it was asked. (Expected to be refuted: the master's log does not carry LTRIM, and a server without a database file never asks its master.)", "quantifier": "every master history and every iteration order of the replay", "why_tests_cant": "all histories", "anchors": ["pkg/network/server.go:syncExternal,fromMaster,fromFile", "pkg/replication/master.go:handleConn", "pkg/replication/replica.go:Receive", "pkg/db/engine.go:BuildFromLog"]}
{"id": "C61", "title": "What a replica copied survives its restart", "statement": "A replica that copied data from its master and is stopped still has it when started again from its own file while the master is away. (Expected to be refuted: copied records are applied but not written to the replica's own log.)", "quantifier": "every master history", "why_tests_cant": "needs a multi-process life cycle", "anchors": ["pkg/network/server.go:fromMaster", "pkg/db/engine.go:BuildFromLog"]}
{"id": "C62", "title": "A replica restarted with its master has the data it had", "statement": "A replica that copied from its master, handled requests of its own and is started again with the same master and its own file has the data it had before. (Expected to be refuted: its own log is replayed before the master's.)", "quantifier": "every master history and every own history", "why_tests_cant": "needs a multi-process life cycle; all pairs of histories", "anchors": ["pkg/network/server.go:syncExternal,fromMaster,fromFile"]}
{"id": "C63", "title": "An acknowledged write survives a crash", "statement": "If a write request was answered, its effect is there when the server is started again, wherever the process died. (Expected to be refuted: records are buffered in the process and flushed only by Stop or when a replica connects.) In any case the server comes back with the effect of some first part of the history, including everything flushed.", "quantifier": "every history, every point of death and every outcome of the file writes", "why_tests_cant": "all crash points", "anchors": ["pkg/db/engine.go:handleRequest,writeLog", "pkg/log/persistent.go:Write,Flush"]}
{"id": "C64", "title": "The command line client shows the server's reply to every command typed", "statement": "In every session of the command line client, each line typed (other than quit) is followed by the server's reply to the words of that line, shown before the next line is read, whatever other clients do meanwhile. (Expected to be refuted for sessions that pause until the server closes the connection.)", "quantifier": "every session, every interleaving with other clients' requests", "why_tests_cant": "the client opens a new buffered reader for each reply; that nothing is lost or left over holds only because of an invariant over whole sessions", "anchors": ["cmd/client/main.go:main", "cmd/client/internal/codec.go:FormatInput,FormatOutput", "pkg/network/conn.go:Close"]}
{"id": "C65", "title": "One client cannot keep the replies from the others", "statement": "Whatever one client does, in particular leaving at any moment, the server goes on writing the replies to the requests of the others. (Expected to be refuted: a write to a connection that is being closed can wait for a goroutine that has ended.)", "quantifier": "every interleaving of the connection's goroutines, the engine and the response worker", "why_tests_cant": "needs a client leaving between two particular statements of the writer", "anchors": ["pkg/network/conn.go:Write,Close,watch", "pkg/network/server.go:responseWorker"]}
{"id": "C66", "title": "A stop is graceful", "statement": "No request read after a stop has begun is executed; every request executed before is answered; and all connections are closed when the stop is over. (The last two are expected to be refuted: replies need the topic that stop removes, and stop looks for connections under the wrong type.)", "quantifier": "every run of the server and every moment of the stop", "why_tests_cant": "all interleavings of a stop with the requests in progress", "anchors": ["pkg/network/server.go:stop", "pkg/concurrency/event_bus.go:RemoveTopic"]}
{"id": "C67", "title": "The log of a stopped process is complete", "statement": "When the process ends after a stop was asked for, the file holds the record of every write request that was answered. (Expected to be refuted: the process may end before the stop has flushed the log.) In any case the file holds a beginning of the records written, at most one for each request read, one is made before any logged request is executed, and all records written before a flush are in the file.", "quantifier": "every run of the whole process, every order of the goroutines that write the log, every outcome of the file writes", "why_tests_cant": "a race between the goroutine handling the signal and the main goroutine", "anchors": ["cmd/server/main.go:main", "pkg/network/server.go:Serve,stop", "pkg/db/engine.go:Stop,handleRequest,writeLog"]}
{"id": "C68", "title": "A replica of a busy master gets what the master had", "statement": "A replica that asks a master in use applies every record that was in the master's log when the master began to copy it, followed at most by records logged meanwhile, in order. (Expected to be refuted: a record logged during the copy may be sent in part, and then nothing is applied.)", "quantifier": "every interleaving of log writes with the copy, every outcome of the file writes, every point where the connection breaks", "why_tests_cant": "depends on the fill of the write buffer at the moment of the copy", "anchors": ["pkg/replication/master.go:handleConn", "pkg/log/persistent.go:Write,Flush", "pkg/replication/replica.go:Receive"]}
{"id": "C69", "title": "Stopping a master is safe and final", "statement": "Stopping a master closes the connections of all replicas being served, serves no replica afterwards, and never crashes. (The last two are expected to be refuted.) A replica that was disconnected by the stop or given up is sent nothing more.", "quantifier": "every interleaving of the stop with accepting and serving replicas", "why_tests_cant": "an unguarded map iteration and a listener that stays open; both need particular timing", "anchors": ["pkg/replication/master.go:start,stop,handleConn"]}
{"id": "C70", "title": "A master keeps nothing of a replica it is done with", "statement": "When a replica was served or given up, its connection is closed and it is not in the master's table of connections any more. (Expected to be refuted for replicas given up, and for masters without a log file.)", "quantifier": "every run of the master", "why_tests_cant": "every failure point of the serving goroutine", "anchors": ["pkg/replication/master.go:handleConn"]}
{"id": "C71", "title": "Requests on different values commute", "statement": "Two neighbouring requests of which neither may write a value (a key of a kind of container) that the other names can change places: the replies, moved along with their requests, are still right answers in the new order, with the same contents in the end; executing in the new order gives the same contents (for histories without SPOP, whose choice is free), and crashes if the original order crashes.", "quantifier": "every history of requests of a total size below 2^62 bytes, every reordering made of such exchanges", "why_tests_cant": "all pairs of commands in all states, closed under arbitrarily many exchanges", "anchors": ["pkg/db/engine.go:handleRequest", "pkg/command/"]}
{"id": "C72", "title": "A log in another order than the execution still rebuilds the data", "statement": "The goroutines that write the log records may write them in another order than the requests were executed. As long as no request that is logged is handled while the record of an executed request it clashes with (one may write a value the other names) is still unwritten, the log rebuilds the contents the server had; and wherever the process ends, what comes back is the contents after a first part of such a reordering, including everything flushed. (For requests of UTF-8 text without LTRIM and SPOP, whose replay differs for other reasons: C30, C31.)", "quantifier": "every history, every schedule of the writing goroutines under that condition, every end of the process", "why_tests_cant": "needs all schedules of unboundedly many goroutines", "anchors": ["pkg/db/engine.go:handleRequest,sendLog", "pkg/db/engine.go:Rebuild"]}
{"id": "C73", "title": "A killed server comes back with a first part of what it did", "statement": "A server process runs with all its goroutines (clients, engine, log writers, file) and ends anywhere: at any step, with any part of the write buffer lost. Started again from its file, it has the contents after a first part of what it had executed, where requests that do not clash may have changed places; what was logged before a flush is part of it if no write failed, and everything is if all records were written and flushed. This holds over any number of such lives. Conditions: no log writer is started while one for a clashing request is still running (C74 shows why), a torn record at the end of the file is not started from (C33), requests are UTF-8 text without LTRIM and SPOP (C30, C31), the request being executed at the end does not crash, and the total size is below 2^62 bytes.", "quantifier": "every schedule of every process in a sequence of lives of any length, every end", "why_tests_cant": "combines all interleavings of a process with every kill point and arbitrarily many restarts", "anchors": ["pkg/db/engine.go:handleRequest,sendLog,Rebuild", "pkg/log/persistent.go", "pkg/network/server.go:fromFile", "cmd/server/main.go"]}
{"id": "C74", "title": "Records are written in the order of execution", "statement": "A server that has written and flushed all its records comes back with the contents it had, at least for a client that waits for each reply before it sends the next request. (Expected to be refuted: the writing goroutines are not ordered.)", "quantifier": "every run of the process", "why_tests_cant": "the goroutines rarely overtake each other", "anchors": ["pkg/db/engine.go:handleRequest"]}
{"id": "C75", "title": "A server comes up as its configuration says", "statement": "A server started with a configuration listens for clients on the configured port. If replication is enabled it also listens for replicas, on the configured replication port, or on the next port if none is configured or it is the clients' port; never on the clients' port. If a port it needs cannot be listened on it does not come up and the process ends with status 1. The program uses the configuration file it is pointed to. (Expected to be refuted in the last two points.)", "quantifier": "every configuration, every set of ports that can be bound, every file and master", "why_tests_cant": "ports taken by others and odd configurations are hardly ever tried, and a missing replication listener is not noticed by clients", "anchors": ["pkg/network/server.go:Init", "pkg/db/engine.go:NewEngine", "pkg/replication/master.go:NewMaster", "cmd/server/main.go", "pkg/common/config.go"]}
{"id": "C76", "title": "A server that came up can be stopped without a crash", "statement": "Stopping a server that came up does not crash it, whatever its configuration. (Expected to be refuted: it holds exactly for a server that listens for replicas and has its database file open.)", "quantifier": "every configuration and every environment in which the server comes up", "why_tests_cant": "the configurations shipped and the environments tested are few", "anchors": ["pkg/network/server.go:Init,stop", "pkg/db/engine.go:NewEngine,Stop", "pkg/replication/master.go:NewMaster"]}
{"id": "C77", "title": "A termination signal ends the process", "statement": "A server process that is sent a termination signal ends, without having lost what it logged; without a signal it does not stop; further signals change nothing. (Expected to be refuted in the first part.)", "quantifier": "every run of the process, every moment at which signals arrive", "why_tests_cant": "depends on the moment of the signal relative to several goroutines", "anchors": ["pkg/network/server.go:Init,Serve,stop"]}
{"id": "C78", "title": "The log holds the messages of the configured level and above", "statement": "With log level L configured, exactly the messages of level L and above are logged, for every level the configuration names; in debug mode all messages are. (Expected to be refuted for DEBUG outside debug mode.)", "quantifier": "every configuration text and every message level", "why_tests_cant": "every text for the level is a case", "anchors": ["pkg/common/logging.go:getLogLevel"]}
{"id": "C79", "title": "A log message reads as it was written", "statement": "A formatted log message contains the template with each verb replaced by the text of the corresponding argument. (Expected to be refuted for all but the error level.)", "quantifier": "every template of plain text and string verbs, every list of strings", "why_tests_cant": "log texts are not compared by tests", "anchors": ["pkg/common/logging.go"]}
{"id": "C80", "title": "Only a signal, a kill or a crash of C03 or C22 ends a server", "statement": "The whole program runs: clients, engine, log writers, the log file, replicas and signals. Whatever clients and replicas do, it ends only by its exit after a signal, by being killed during a write to the file, by the bytes of C03, by a request of C22, or, only after a signal, by a crash while the stop goes through the replicas and one of them is just being registered or removed. Serving replicas cannot end a server that gets no signal. Its parts behave as they do alone, on one and the same file.", "quantifier": "every schedule of the whole program, every client input, every behaviour of any number of replicas", "why_tests_cant": "quantifies over all interleavings of all goroutines of the program", "anchors": ["pkg/network/server.go", "pkg/db/engine.go", "pkg/replication/master.go", "pkg/log/persistent.go", "cmd/server/main.go"]}
{"id": "C81", "title": "A replica of a server at work has a first part of what the server did", "statement": "A server runs with all its goroutines, started from what earlier lives left, and serves a replica while it works. If the replica can read what it received (up to any break of the connection), then it has the contents after a first part of the requests the server executed, requests that do not clash perhaps having changed places; everything logged before the server flushed its file for the replica is part of it; and if no further record was logged and none is waiting, it has the contents of the server. Conditions as in C73, and a log of less than 4 GiB.", "quantifier": "every schedule of the whole program, every sequence of lives before, every break of the connection", "why_tests_cant": "combines all interleavings of request execution, log writing and file copying", "anchors": ["pkg/replication/master.go:handleConn", "pkg/replication/replica.go:Receive", "pkg/network/server.go:fromMaster", "pkg/db/engine.go:sendLog"]}
{"id": "C82", "title": "A signal ends the server and nothing logged is lost, replicas or not", "statement": "After a signal the handler waits for, the server ends, and everything it has logged is in the file, whatever the replicas do. (Expected to be refuted: a replica that connects while the server stops can crash it before the last flush.)", "quantifier": "every reachable state of the whole program", "why_tests_cant": "needs the interleaving of a connecting replica with a stop", "anchors": ["pkg/db/engine.go:Stop", "pkg/replication/master.go:Stop,handleConn", "pkg/network/server.go:stop"]}
{"id": "C83", "title": "A replica that has connected can be served", "statement": "From every state of a live server in which a replica has connected and no write to the file has failed, the replica can be sent everything logged by then, with its size, and be taken off the table, without any step of clients or engine.", "quantifier": "every reachable state of the whole program", "why_tests_cant": "absence of deadlock in all reachable states", "anchors": ["pkg/replication/master.go:handleConn"]}
{"id": "C84", "title": "The server's work is bounded by what its clients send", "statement": "However its goroutines, timers and channels are scheduled, and whether or not it is told to stop, the server takes at most a fixed number of steps for each connection it accepts and each object it reads, and a fixed number besides. No part of it can spin or go on for ever by itself.", "quantifier": "every execution of the server, every schedule, any number of connections and requests", "why_tests_cant": "termination under all schedules", "anchors": ["pkg/network/server.go:newConn,responseWorker,stop", "pkg/network/conn.go", "pkg/concurrency/topic.go", "pkg/concurrency/data_channel.go", "pkg/db/engine.go:Start"]}
{"id": "C85", "title": "A server with nothing left to do has answered", "statement": "Take any moment of any execution, before a crash or a stop. If nothing more comes from outside (connections, bytes, timers, stop), the server comes to rest after a bounded number of steps, whatever the schedule. When it rests, every array request it has read has been answered, except those given up by a send whose time ran out; unless it has crashed, or the response worker hangs on a connection that was closed (C65).", "quantifier": "every reachable state, every schedule of what follows", "why_tests_cant": "liveness under all schedules; absence of deadlock in all reachable states", "anchors": ["pkg/network/server.go:newConn,responseWorker", "pkg/concurrency/topic.go:distributeEvent", "pkg/db/engine.go:Start,handleRequest"]}
{"id": "C86", "title": "What is kept of a request is proportional to its size", "statement": "The server keeps of an object that it reads at most a fixed multiple of the bytes it was read from. (Expected to be refuted: every array keeps the text of all that is in it, so nested arrays take memory and stack in proportion to the square of, and to, the bytes sent.)", "quantifier": "all byte streams", "why_tests_cant": "a bound for all inputs; the worst case is not among ordinary requests", "anchors": ["pkg/protocol/resp.go:NewRedisArray", "pkg/protocol/reader.go:readArray,readObject"]}
{"id": "C87", "title": "What is held is never more than what was sent", "statement": "The keys, elements, fields, values and members held by the database never take more bytes than all the requests since the start together, counting one byte more for each item held and 20 more for each request (the digits of a counter). One request adds at most its own size, whatever was held before.", "quantifier": "all histories of requests, every database state", "why_tests_cant": "a bound over all histories", "anchors": ["pkg/container", "pkg/db/db.go", "pkg/db/engine.go:handleRequest"]}
{"id": "C88", "title": "How the log file grows", "statement": "Whatever the order in which the log goroutines run, the log takes at most three times the bytes of the executed requests, plus the identifier, the host and 150 bytes for each. Each record takes at least the bytes of its request. The log never shrinks, and it can grow without bound while the data held stay the same: nothing ever compacts it.", "quantifier": "all histories, all schedules of the log goroutines", "why_tests_cant": "a bound over all histories and schedules", "anchors": ["pkg/db/engine.go:handleRequest,writeLog", "pkg/log/log.go:NewLog,PackLog"]}
{"id": "C89", "title": "Whoever connects to the master is dealt with", "statement": "As long as nobody stops the master, a replica that connects can be sent the whole log, whatever else is going on. If nothing more comes from outside, the master is at rest after a bounded number of steps, whatever the schedule: every goroutine serving a replica has ended, the connections made after SetFile are closed, and Stop, if called, has returned. (Expected to be refuted in part: one error of Accept ends the accept loop for good.)", "quantifier": "every reachable state, every schedule, any number of replicas, any log", "why_tests_cant": "termination and absence of deadlock under all schedules", "anchors": ["pkg/replication/master.go:start,stop,handleConn"]}
{"id": "C90", "title": "Damage to a log record is noticed and confined", "statement": "If bytes of one record of the log file are changed, the changed record is reported as unreadable or dropped, and every other record is read as before. (Expected to be refuted in part: records carry no checksum, and the length in front of a record is trusted.)", "quantifier": "every log, every record, every replacement of its bytes by as many others", "why_tests_cant": "all logs and all damages of any number of bytes", "anchors": ["pkg/log/log.go:ParseLog,readLog", "pkg/log/log.pb.go"]}
{"id": "C91", "title": "The server is linearizable", "statement": "Whatever any number of clients send at once, the replies they get are those of one sequential history of the reference database: every request is in it at most once and as it was sent, every reply given is in it, and a request that arrived after the reply to another was given comes after that one, whichever connections the two are on.", "quantifier": "every run of the server (and of the whole program), every number of clients and input, every history before the start", "why_tests_cant": "all interleavings of unboundedly many goroutines and all inputs", "anchors": ["pkg/network/server.go:newConn,responseWorker", "pkg/db/engine.go:Start,handleRequest"]}
{"id": "C92", "title": "What is printed of a log record is one line and tells it apart", "statement": "The text by which the server's own log file describes a record of the command log determines the record: id, time, host, name, database, every argument and the request, whatever bytes they hold. It holds no line break, so that no client can add lines. (Expected to be refuted in part: id, host and name are not quoted, so records from a foreign file may be described alike.)", "quantifier": "every record the server makes, every request, every pair of records", "why_tests_cant": "all byte strings, valid UTF-8 or not, and all pairs of records", "anchors": ["pkg/log/log.go:FormatLog", "pkg/util/util.go:QuoteJoin"]}
{"id": "C93", "title": "A record names the host and is identified", "statement": "The host of a record is the first IPv4 address of the first interface that is up, not a loopback and has one that is not a loopback address, or \"unknown\" if there is none. Its id is the text of a generated UUID, of 36 characters and different for different UUIDs; the second generator is used if the first panics. So what is printed of any two records of the server tells them apart. (Expected to be refuted in part: an error reading the addresses of one interface hides those behind it.)", "quantifier": "every list of interfaces and addresses, every pair of 16 bytes, every request", "why_tests_cant": "the interfaces of every machine, their failures, and the panics of a random source", "anchors": ["pkg/util/util.go:init,GetIP", "pkg/util/uuid.go:GenNewUUID", "pkg/log/log.go:NewLog"]}
{"id": "C94", "title": "Which files are logs, and what they say", "statement": "A record of a log file is read if and only if its bytes are a protobuf message whose texts are UTF-8, and then as what the message says: the last value of each field, all arguments in order, numbers in any length up to 10 bytes. Fields of other numbers or other kinds change nothing, wherever they are, so records of a later version are read. A file is read as its records that are messages, others being left out, up to where it is cut; an error is reported if and only if it is cut behind the length of a record.", "quantifier": "every file, every sequence of bytes", "why_tests_cant": "all byte strings, among them numbers longer than needed, nested groups and fields unknown to the program", "anchors": ["pkg/log/log.go:ParseLog,readLog", "pkg/log/log.pb.go:VertexLog"]}
{"id": "C95", "title": "What a call may wait for", "statement": "Left alone, a data channel, a topic, a future, a broadcaster and a connection come to rest after a number of steps bounded by the number of calls. Then: every Close and Cancel has returned; a Send waits only if the buffer is full (of an unbuffered channel: nobody receives) and no Close returned, a Receive only if all that was sent was received and it was not called after a Close returned; every Publish has its result, whatever the subscribers do with their channels; a Get, Wait or WaitFor of a future waits only while the task runs and no Cancel returned; a broadcaster's Set has returned, and a Get waits only if there was no Set; a Write of a connection waits only if the connection was closed meanwhile, a Read only if so or the peer is silent. (Futures and broadcasters that panicked excepted: C38, C49.)", "quantifier": "every interleaving of any number of calls", "why_tests_cant": "all interleavings of unboundedly many goroutines; a test cannot tell waiting for ever from waiting long", "anchors": ["pkg/concurrency/data_channel.go:Send,Receive,Close", "pkg/concurrency/topic.go:Publish,distributeEvent", "pkg/concurrency/future.go:Get,Wait,WaitFor,Cancel", "pkg/concurrency/broadcast.go:Set,Get", "pkg/network/conn.go:Read,Write,Close"]}
{"id": "C96", "title": "A disk that refuses a write", "statement": "An error of the log file does not disturb the clients: whatever they can see of a server, they can see of one whose disk takes nothing, and the process goes on. Once the disk takes data again, what is executed from then on is logged. A record reported as written is in the file after the next flush or its loss is reported.", "quantifier": "every run of the server, every outcome of the operating system's writes", "why_tests_cant": "needs a disk that fails in every possible way at every possible write, under every interleaving", "anchors": ["pkg/log/persistent.go:Write,Flush", "pkg/db/engine.go:writeLog,Stop"]}
{"id": "C97", "title": "A client that does not take its replies", "statement": "A client that sends requests and does not read the answers keeps nobody else from theirs, and its connection is closed when its time is up. (Expected to be refuted: a TCP write waits when the peer does not read, and one goroutine writes to all connections.) What holds, for every room for bytes on their way and every schedule: what a client receives is what was written to it, whole writes in order, not mixed; a server that rests while no client's room is full has answered all that C85 says, and a client that has emptied its room has got all of it; the server comes to rest after a number of steps bounded by what the clients send and take; and over clients that read, it can do all that is said of it elsewhere.", "quantifier": "every room for bytes, every behaviour of the clients, every run of the server", "why_tests_cant": "needs a peer that stops reading at an arbitrary byte, with buffers of every size, under every interleaving", "anchors": ["pkg/network/conn.go:Write,Close,handleExpire", "pkg/network/server.go:responseWorker"]}
{"id": "C98", "title": "No goroutine, send or connection is left over", "statement": "When the server has nothing left to do, nothing is left of the requests it has served and of the connections that were closed: no publication, no sending goroutine, no closer and no event in a channel; the goroutines that are there are the engine and the response worker, both waiting for an event, and for each connection at most its reader, in Read, and its expiry worker, the latter only while the connection is open. A connection that the server closed is closed for the peer. (Expected to be refuted: that the reader of a closed connection is gone, and that a connection nobody reads is closed.)", "quantifier": "every run of the server, every schedule, every number of connections and requests; a server that has not crashed, been told to stop, or got its response worker stuck (C65)", "why_tests_cant": "a leak shows only under the interleavings that cause it; the claim is about all goroutines after every schedule", "anchors": ["pkg/network/server.go:newConn,responseWorker", "pkg/network/conn.go:Read,Close,handleExpire", "pkg/concurrency/topic.go:distributeEvent", "pkg/db/engine.go:Start"]}
{"id": "C99", "title": "Answers and expiry in real time", "statement": "If the server's own work takes no time compared with its timers, then no request and no reply is ever given up because a send takes too long; every array request that is read is answered at the time at which it was read, so of two requests read at different times, whether from one client or from two, the first is answered before the second is read and is carried out first; the expiry timer of a connection fires only when no Read or Write has been called on it (and it was not accepted) for the expiry time, or at the very time of such a call; and a connection that has not been closed was accepted or had a Read or a Write called on it within the last expiry time. The timers never stop the server or the clock. (Expected to be refuted: that a connection on which the server waits in a Read is kept open.)", "quantifier": "every run of the server with a clock that goes on only while the server has nothing to do, every expiry time and send time limit, every number of connections; a server that has not crashed, been told to stop, or got its response worker stuck (C65)", "why_tests_cant": "the claim is about all schedules and about when things happen; the expiry time is ten minutes", "anchors": ["pkg/network/conn.go:Read,Write,handleExpire", "pkg/concurrency/data_channel.go:Send", "pkg/network/server.go:newConn,responseWorker"]}
{"id": "C100", "title": "The log file's writer as a whole", "statement": "Every method of the buffered log file returns. Whatever the disk does, the file followed by the buffer is what the file was followed by exactly the bytes that the calls of Write, WriteByte and WriteString report as taken, in order; a call that reports no error has taken all it was given. After a Flush that reports no error the file has all that was given, however it was divided among the three methods. Buffered and Available always add up to Size, and that many available bytes can be written without touching the disk. After an error every call fails and changes nothing.", "quantifier": "every sequence of calls of every method with data of every length, every outcome of the operating system's writes", "why_tests_cant": "the outcomes depend on where each call meets the end of the buffer and on which of the disk's writes fails after how many bytes", "anchors": ["pkg/log/persistent.go:Available,Buffered,Flush,Size,Write,WriteByte,WriteString"]}
{"id": "C101", "title": "The requests determine the data and the replies", "statement": "Two servers that are given the same requests in the same order, none of them SPOP, either both crash at some request or end with the same data, and give the same replies except that HKEYS, HVALS, HGETALL, SMEMBERS, SDIFF, SINTER and SUNION may list the same elements in different orders, SRANDMEMBER may choose different members (but as many), and the text of an internal error may differ. (Expected to be refuted: that the replies are always equal; that the data is the same if SPOP is among the requests.)", "quantifier": "every sequence of requests within the size limit of C22, every two environments (iteration orders of maps, random choices, error texts); every two runs of the server that handled the same requests", "why_tests_cant": "map iteration order and random choices differ from run to run", "anchors": ["pkg/db/engine.go:handleRequest", "pkg/command/hash.go", "pkg/command/set.go"]}
{"id": "C102", "title": "A request may be sent again", "statement": "A client that does not know whether its request was executed may send it again: if SET, MSET, LSET, HSET, HDEL, SADD, SREM, or LREM with the count 0, was executed and answered, and nobody else has since written the value it writes, then the same request sent again is answered as well, leaves the data as it is, and is answered by the same reply (up to the text of an internal error) or, by the commands that count what they added or removed, by 0. (Expected to be refuted: that this holds for every command; it fails for each of the other commands that write, LTRIM among them.)", "quantifier": "every history of requests within the size limit of C22, every request of these commands in it, every sequence of requests after it that write other values, every environment; every run of the server that handled such a sequence", "why_tests_cant": "it is about all histories, all values, and whatever other clients do in between", "anchors": ["pkg/db/engine.go:handleRequest", "pkg/command/global.go", "pkg/command/list.go", "pkg/command/hash.go", "pkg/command/set.go"]}
{"id": "C103", "title": "An emptied value is like one that never was", "statement": "A list, hash or set from which everything has been removed behaves like one that was never created: two servers whose contents differ only in that some lists, hashes or sets are empty in one and absent in the other answer the same requests by the same replies (up to the order of set and hash elements, as in C101), both crash or neither does, and their contents again differ only in that. (Expected to be refuted for some commands: LSET, LINSERT, HGETALL, HKEYS, HVALS and SMEMBERS, and HGET, HEXISTS, HSTRLEN and SISMEMBER of the empty string, answer differently; SPOP and SRANDMEMBER without a count, and LREM of the reserved text, crash on the emptied value only. It is claimed for all other commands.)", "quantifier": "every two histories within the size limit of C22 that leave such contents, every sequence of requests after them, every environment; every two runs of servers that handled such sequences", "why_tests_cant": "it is about all pairs of contents and all sequences of requests", "anchors": ["pkg/db/engine.go:handleRequest", "pkg/command/list.go", "pkg/command/hash.go", "pkg/command/set.go"]}
{"id": "C104", "title": "Several arguments at once are as one by one", "statement": "A request with several arguments does what requests with one argument each, sent in the same order with nothing between them, would do: MSET as SETs, MGET as GETs, and EXISTS, LPUSH, RPUSH, HSET, HMGET, HDEL, SADD and SREM as themselves. The data is the same afterwards, both ways crash the server or neither does, and the one reply is OK if it is of the SETs, the array of the single values, the sum of the single counts, or the last of the single lengths (a push that is refused is refused both ways). This includes arguments that are repeated.", "quantifier": "every history within the size limit of C22, every such request after it with any number of arguments, every environment; every two runs of servers that handled the one request and the many", "why_tests_cant": "it is about any number of arguments in any combination, repeated or not, on any data", "anchors": ["pkg/db/engine.go:handleRequest", "pkg/command/global.go", "pkg/command/list.go", "pkg/command/hash.go", "pkg/command/set.go"]}
{"id": "C105", "title": "Requests that undo each other", "statement": "A request is undone by its counterpart, sent next or after other requests that do not write the value: INCR and INCRBY by DECR and DECRBY and the other way round, even if the sum wrapped around; a push of one element by a pop at the same end; an SADD or HSET all of whose members or fields were new, by SREM or HDEL of the same; an SREM all of whose members were there, by SADD of the same. The counterpart does not crash, and replies the number that was there before, the element pushed, or as many as were added or removed. The value is then as before (and all other data as the other requests left it), except that a number may be written differently (007 becomes 7), and that what was absent may be an empty list, hash or set (C103).", "quantifier": "every history within the size limit of C22, every such request after it, every sequence of requests in between that do not write the value, the counterpart, every environment; every run of the server that handled such requests", "why_tests_cant": "it is about all data, all 64-bit sums, and any number of members and fields", "anchors": ["pkg/db/engine.go:handleRequest", "pkg/command/global.go", "pkg/command/list.go", "pkg/command/hash.go", "pkg/command/set.go"]}
