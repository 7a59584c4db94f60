# Formal model of lxdlam/vertex in Coq 8.16.1

## 1. Trusted base

* Coq 8.16.1 kernel (including `vm_compute`), and coq-std++ as a proved library
  (finite maps/sets).  No axiom is added; `Print Assumptions` stands under every
  property theorem and must print `Closed under the global context`
  (any exception is listed in section 7).
* That the Gallina definitions transcribe the Go code.  Every definition cites
  file and lines; simplifications are written in the same comment.
* Semantics assumed for Go itself and for external packages: sections 4 and 5.

## 2. Modelling conventions

* Byte strings are `bytes := list ascii` (Go strings are byte strings).
* `int64` values are `Z`; every operation that can overflow is wrapped with `wrap64`.
* A Go run-time panic is an explicit value `Panic`; it is never silently excluded.
* `nil` is an explicit constructor (`option`, or a `None` pointer).
* Map iteration order and `rand` are *oracles* universally quantified in the
  theorems (an oracle must only return a permutation of the keys).
* Goroutines, channels, `select`, mutexes, atomics are transition systems whose
  steps are the atomic actions of the Go code; theorems quantify over every run.
* Files: `X.v` holds the model of the Go code (computable, no proofs of
  properties), `XProofs.v` the invariants and lemmas, `XSpec.v` independent
  specifications where one is needed, `Props_*.v` only the property theorems,
  each closed by `exact`, with `Print Assumptions` and an `Example` showing that
  the hypotheses are met by a non-trivial case.
* Transition systems (`Lts.v`): `exec step s trace s'` with visible events and silent
  steps; every call carries its own identifier, so "returned", "called before" and
  "at most once" are statements about the event list.  Go's `select` with several
  ready cases may take any; a timer may fire at any moment; an unbuffered channel
  passes a value in one joint step of a sender and a receiver.  `RWLock.v` is the
  generic system for methods that hold a `sync.RWMutex`; accesses take time, and a
  writing access that overlaps another one crashes the process.
* Property false of the code: theorem `..._refuted` with a concrete witness, plus
  the strongest positive statement that holds (`..._partial` when weaker than the
  English).

## 3. Plan per property

| id | modelled | how proved |
|----|----------|-----------|
| C01, C02, C04 | RESP encoder and reader (resp.go, reader.go) on byte lists | induction on object; prefix argument |
| C03 | reader with explicit `Panic` | exact characterisation, refuted by `$-2` |
| C05 | strconv.ParseInt / `%d` on bytes | induction on digits |
| C06-C10 | string containers with hash, cached integer | invariant `data`/`int` agree; refinement to a map of byte strings |
| C11 | index.go | arithmetic |
| C12-C16 | heap of list nodes with next/prev pointers, sentinels | heap invariant, refinement to `list`; panics characterised exactly |
| C17-C21 | hash/set containers with iteration oracle | refinement to finite maps/sets, for every valid oracle |
| C22-C27 | every command, access objects, db resolve, engine error mapping | refinement to an abstract machine written without the model's helpers |
| C28 | protobuf wire format of log.proto, length prefix | round trip by induction |
| C29 | bufio writer + append-only file + crash | file is a prefix of the stream; parse of a prefix is a prefix |
| C30-C34, C58 | engine + log + restart | replay refinement; refutations by concrete witness |
| C35, C36 | master/replica byte stream | parse of header+content; arithmetic mod 2^32 |
| C37-C42, C49 | LTS of Future, DataChannel, Topic, BroadCaster, EventBus table | inductive invariants over all runs; refutations by runs |
| C43-C45, C56 | LTS of the whole path of requests: connections, topics, data channels, engine loop, response worker | inductive invariant over the composite; refutations by runs; for C45 also a continuation built from any state (ProgressProofs.v) |
| C46 | LTS of one connection | invariant; deadlock witness |
| C47 | DataMap sequential; locked map as `RWLock`; sync map as LTS | linearizability; refutation for sync's Len; every call ends (`RWLockRest.v`, `DataMapRest.v`: steps bounded by calls, rest means all returned) |
| C48 | pipeline.go | induction |
| C50 | LexicalCompare | comparison with the order of byte strings |
| C51-C53 | skip list on a heap, scores as IEEE doubles, levels as an oracle | heap invariant, refinement to a set of scored members; exact crash conditions |
| C54, C55, C60 | client codec | induction on input; injectivity |
| C57 | replies of whole histories, encoded and read again | bounds on stored data (`held`), round trip |
| C59, C61-C63 | lives of servers: start, requests, stop or crash, copy, start | replay refinement over sequences of lives |
| C64 | sessions of the command line client with other clients interleaved | invariant: nothing is left unread |
| C65, C66 | server with one client leaving; server with a stop in progress | stuck-state invariant; invariants over the stop phases |
| C67 | the whole process: server, log goroutines, file, exit (StopOrderProofs.v: the order of the stop) | invariant tying the file to the records; a concrete losing run |
| C68-C70 | the master: accept loop, serving goroutines, log writes, Stop | invariant per serving goroutine; mutual exclusion; concrete runs |
| C71, C72 | histories and the log writing goroutines (Recovery.v) | commutation of the specification per pair of requests, lifted to reorderings |
| C73, C74 | sequences of whole processes (Process.v, RestartSpec.v) | simulation of the log goroutines by Recovery.v's, file invariant, replay refinement; a concrete run |
| C75, C76 | configuration, Init, NewEngine, NewMaster, main (Start.v), with Server.v for the stop | case analysis against StartSpec.v; invariant giving all causes of a crash; a concrete run |
| C77 | the signal handler of Serve over Process.v (Signals.v) | invariants; drain argument; concrete runs |
| C78, C79 | logging.go: levels and message texts (Logging.v) | case analysis; induction over templates (LoggingSpec.v) |
| C80-C83 | the whole program: Signals.v and Master.v on one file (System.v) | projections to the parts, lifting of their runs; C81 by the replay refinement of C73 over the records received |
| C84, C85 | the same LTS of the server (Server.v) | a measure over finite-support tables that every step but accepting and reading lowers (BoundProofs.v); C85: the continuation of C45 uses only the server's own steps, so at rest it is empty (RestProofs.v) |
| C86 | the texts an object holds (Memory.v) over the reader of Resp.v | induction over the reader; canonical numerals are the shortest |
| C87 | the same databases as C27 (Engine.v, Db.v); sizes in SizeSpec.v | what each command of the reference machine adds, then induction over the history |
| C88 | the records of Log.v under the goroutines of Recovery.v; sizes in LogSizeSpec.v | size of each field on the wire; the log is a permutation of records (C32); a concrete family for the growth |
| C89 | the same LTS of the master (Master.v) | a measure its own steps lower; at rest no rule is enabled; an explicit continuation serving a new replica |
| C90 | the reader of Log.v and the rebuilding of Recovery.v | the reader's own step on a whole record; a concrete log with one byte changed |
| C91 | the server of Server.v and the program of System.v; the history in LinSpec.v | the order of handling is the history: C43, C56, C27 put together (LinProofs.v) |
| C92 | FormatLog, QuoteJoin and strconv.Quote in Quote.v; QuoteSpec.v | a reader of quoted texts is a left inverse (QuoteProofs.v) |
| C93 | init, GetIP and GenNewUUID in Host.v; HostSpec.v | induction over interfaces and addresses (HostProofs.v) |
| C94 | the protobuf encoding as an inductive relation in WireSpec.v, without reference to the decoder of Log.v | the decoder accepts exactly the relation, by strong induction on the length (WireProofs.v) |
| C95 | at rest: no step but a call or an expiry, WaitSpec.v, stated with the trace only; steps counted by Counted.v | place of every call at rest from the stage invariants; a budget per call that every step is paid from (Budget.v, Wait*.v) |
| C96 | what the operating system did with each write is a list (Persist.v) | simulation of any run of the server by a process whose writes all fail (DiskProofs.v); bufio's error is sticky, by induction |
| C97 | bytes on their way in a bounded buffer and a lock per connection around Conn.v and Server.v (Flow.v, FlowServer.v) | simulation both ways between FlowServer.v and Server.v (FlowServerProofs.v, FlowAll.v); a held lock on a full buffer is an invariant as long as the peer takes nothing; step budget from that of C84 |
| C98 | the goroutines of Server.v as a type with a predicate for being there and one for what it waits for (IdleSpec.v) | every program counter of a topic, a connection, a reader, the engine and the worker has a step of the server's own or is one of the waiting ones; who owns a pending call of a connection is an invariant |
| C99 | Server.v with a clock, and since when each send and each expiry worker has been waiting (Timed.v); [happened] gives the time of an event of the trace (TimedSpec.v) | at rest no send and no reset of a timer is pending (C98), so no timer is passed over by a tick; what holds at the end holds on the way because crash, stop and a stuck worker last |
| C100 | bufio.Writer's methods with their loops (Writer.v) on Persist.v's file; [given], [taken] (WriterSpec.v) | file and buffer together grow by what each round of a loop takes; the loops end because after a flush the buffer is empty; Persist.v's Write without a loop is shown to be the same |
| C101 | the engine (Engine.v) in two environments, the server (Server.v); [alike], [match_reply] (DetSpec.v) | both runs refine the reference machine (C27), whose answers to one request in one state match; then by induction the states stay equal |
| C102 | the engine (Engine.v), the server (Server.v); [repeatable], [again] (RetrySpec.v), [writes] (IdealSpec.v) | what a command leaves behind is described by [reflects]; it holds after the command, is kept by requests that write other values, and makes the command change nothing (RetryProofs.v) |
| C103 | the engine (Engine.v), the server (Server.v); [same_but_empty], [tells], [told] (EmptySpec.v) | [same_but_empty] is a bisimulation of the specification for the commands that do not [tell] (EmptyProofs.v), carried to the engine by the refinement of C27 |
| C104 | the engine (Engine.v), the server (Server.v); [singly], [joined] (EachSpec.v) | on the specification, one argument followed by the others is all of them at once, by induction over the arguments (EachProofs.v); carried to the engine by the refinement of C27 and the determinacy of C101 |
| C105 | the engine (Engine.v), the server (Server.v); [undo], [nearly_same] (UndoSpec.v), [same_but_empty] (EmptySpec.v) | a case for each pair on the specification (UndoProofs.v), carried to the engine by the refinement of C27; requests in between by the frame of C25 and the locality of C71 |

## 4. What is modelled, file by file

| /repo | model | notes |
|-------|-------|-------|
| pkg/protocol/resp.go, reader.go | Resp.v | `bufio.Reader` is the remaining bytes; every read error is an error value |
| pkg/protocol/resp.go (what objects hold) | Memory.v | lengths of the texts only |
| pkg/util/index.go, util.go, pipeline.go | UtilIndex.v, Quote.v (QuoteJoin), Host.v (GetIP) | handlers of a pipeline are Gallina functions |
| pkg/container/string.go, int_variant.go | StringC.v | the stored hash is FNV-1a, transcribed |
| pkg/container/string_map.go | StringMap.v | |
| pkg/container/list.go | LinkedList.v | heap of nodes |
| pkg/container/hash.go, set.go | HashC.v | map iteration is an oracle; `rand` likewise |
| pkg/container/sorted_set.go | SkipList.v | heap of nodes; scores are IEEE binary64 (SpecFloat); node heights are an oracle |
| pkg/container/container.go | Db.v | container kinds and lookup |
| pkg/command/*.go | Command.v, Db.v | every registered command; the tables of names and flags |
| pkg/db/db.go | Db.v | |
| pkg/db/engine.go | Engine.v (handling), Recovery.v (logging, rebuild), Server.v (loop) | |
| pkg/log/log.go, log.pb.go | Log.v, Utf8.v, Quote.v (FormatLog); specified by WireSpec.v | the generated accessors through the wire format only |
| pkg/log/persistent.go | Persist.v, Writer.v (every method, with the loops of bufio) | the mutex makes each call one step |
| pkg/replication/master.go, replica.go | Replication.v | what is sent and received; the concurrent side is in Master.v |
| pkg/network/conn.go | Conn.v, Flow.v (writes that wait), FlowServer.v (the server over them), Timed.v (the server with a clock) | in Conn.v every write ends |
| pkg/network/server.go | Server.v (newConn, parseResponse, responseWorker), Node.v (syncExternal, fromMaster, fromFile) | |
| pkg/concurrency/future.go, task.go | Future.v | |
| pkg/concurrency/data_channel.go | DataChannel.v | |
| pkg/concurrency/topic.go | Topic.v | |
| pkg/concurrency/event_bus.go | EventBus.v | the table of topics; what happens on a topic is Topic.v |
| pkg/concurrency/broadcast.go | Broadcast.v | |
| pkg/types/data_map.go | DataMap.v, RWLock.v | |
| cmd/client/main.go, internal/codec.go | Cli.v, Client.v | |
| pkg/util/random_provider.go | oracle of HashC.v and SkipList.v | |
| pkg/util/uuid.go | Host.v | the generators of the library are oracles; elsewhere identifiers are assumed distinct |
| pkg/util/no_copy.go | not modelled | |
| pkg/common/config.go | Start.v (defaults) | `Parse` (go-toml) not modelled: what it would give is a parameter |
| pkg/common/logging.go | Logging.v | levels and the texts of messages; the zap encoder, file and syncing not modelled |
| cmd/server/main.go | Start.v (up to Serve), Process.v (the end of the process) | the banner not modelled |
| cmd/server/internal/flags.go | Start.v | the flags are registered, but nothing calls ParseFlags |
| pkg/network/server.go Serve, stop | Server.v (stop), Process.v (accept loop ends, exit), Start.v (Init), Signals.v (the signal goroutine) | |
| pkg/replication/master.go accept loop, handleConn, Stop | Master.v | temporary files and addresses simplified, see its head |
| pkg/db/engine.go Start, Stop with the master, cmd/server/main.go | System.v | the whole program with a file and replication; a server without one of them is Process.v, Signals.v |

## 5. What is assumed about the rest

* Real time: a timer is a transition that may fire at any moment (or, for a client's
  session, the connection expires at any moment).  C99 (Timed.v) has a clock, which ticks only
  while the server has no step of its own left, and timers that are neither early nor late.
* The TCP stack: a connection is a byte stream that may end anywhere; a write may be cut.  Except in
  C97 a write ends after finitely many steps, if only by failing.  In C97 (Flow.v) a write waits
  for room, and, as in Go's net package, one Write at a time has the connection's write lock;
  closing the TCP connection makes the waiting ones fail.
* The operating system file: append-only bytes, a crash keeps a prefix of what
  was handed to `write`.  `fsync` is never called by the code; "in the file" means accepted
  by `write`.
* google.golang.org/protobuf and golang/protobuf 1.x: `proto.Marshal` of `log.proto`
  is transcribed as proto3 wire format, fields in number order, default values
  omitted, strings that are not UTF-8 refused; `Unmarshal` keeps the last value of a
  repeated scalar field and skips unknown fields (`Log.v`).
* `bufio.Writer` (4096 bytes, sticky error) is transcribed in `Persist.v`.
* `strconv.ParseInt`, `fmt` `%d`, `strings.ToLower` on command names, `utf8.ValidString`
  are transcribed.
* The text of internal errors (`err.Error()` of strconv and fmt): an oracle, the field
  `e_text` of `env`; theorems hold for every text, or say which texts they need
  (`clean_text`: no line break).
* Iteration order of Go maps and `rand.Perm`: the oracle `e_ord` of `env`, any
  permutation (`env_ok`).
* `strconv.Quote` is transcribed (Quote.v); `strconv.IsPrint` is an oracle.  `net.Interfaces`, `Addrs`
  and the UUID library give arbitrary values; `To4`, `IsLoopback` and `String` of net.IP are transcribed.
* `fmt.Sprintf` for `%s` and `%%` on strings and slices of strings, and zap's templates and
  level numbers, are transcribed in `Logging.v`.
* Ports, files and masters at startup are a `world` (Start.v): which ports `net.ListenTCP`
  can bind (never one above 65535), what opening a path and dialling an address give.
* Sizes: theorems that need lengths and counts to fit into an int64 say so
  (`requests_size … < 2 ^ 62`): the bytes of all requests ever received.
* Memory, goroutine stacks and the number of goroutines are unlimited (a request of millions of
  nested arrays would exhaust the reader's stack; how deep it gets is C86, the end of it is not
  modelled).
* Go's memory model: a data race on a map is a crash; other accesses are atomic steps
  ordered by mutexes and channels as stated in each transition system.

## 6. Wrong programs

`seeded/mutations.json` lists wrong variants of the modelled functions.
`tools/mutate.py` applies each to a copy outside /verif, builds, and records which
property theorems no longer hold; `seeded/LOG.jsonl` is written from its results by
`tools/write_log.py`.  A variant that broke no theorem led to a stronger theorem (recorded
in the log) or is noted as having no effect on the claim.

## 7. Output of Print Assumptions

Every property theorem prints `Closed under the global context`.  (`coqchk -o` on the
library also lists axioms of modules of Coq's standard library that std++ loads but
no theorem here uses.)
