(* How a server comes up: pkg/network/server.go:76-132 Init, pkg/db/engine.go:43-64 NewEngine,
   pkg/replication/master.go:43-62 NewMaster, cmd/server/main.go and pkg/common/config.go.
   - The event bus is new, so the subscriptions of Init (104) and NewEngine (49) find their topics,
     which were made just before (100-101).
   - The goroutine that waits for signals (126-129) is in Signals.v.
   - In main the logger is there, so the Fatalf deferred in Init (80-86) ends the process, with
     status 1, before main does so itself; when Init is used without a logger it returns false. *)
From Coq Require Import ZArith List Ascii String Bool.
From Verif Require Import Base HashC Command Db Engine Persist Recovery Node.
Import ListNotations.
Open Scope Z_scope.

(* config.go:10-18 *)
Record config := mkConfig { log_path : bytes; log_level : bytes; port : Z; database_file : bytes; enable_replica : bool; replica_port : Z; master_address : bytes }.
(* config.go:21-31 NewConfig *)
Definition new_config : config := mkConfig (bs "./log/vertex.log") (bs "INFO") 8081 [] false 0 [].
(* main.go:33-40 *)
Definition main_config : config := mkConfig (bs "./vertex.log") (bs "DEBUG") 6789 (bs "./database.vpf") true 9999 [].

(* What is outside: whether the log file can be opened; which ports can be bound; the contents of a
   database file (empty if it is created), None if it can be neither opened nor created; what comes
   from a master before its connection ends, None if it cannot be reached. *)
Record world := mkWorld { w_log : bytes -> bool; w_free : Z -> bool; w_file : bytes -> option bytes; w_dial : bytes -> option bytes }.
(* net.ListenTCP on all addresses; a port out of range is an error. *)
Definition listen (w : world) (p : Z) : bool := (0 <=? p) && (p <=? 65535) && w_free w p.

(* server.go:110-118 *)
Definition engine_port (c : config) : Z :=
  if enable_replica c then if (replica_port c <=? 0) || (port c =? replica_port c) then port c + 1 else replica_port c else -1.
(* engine.go:55-61 and master.go:43-62: the port replicas can connect to. *)
Definition new_engine (w : world) (p : Z) : option Z := if (0 <? p) && listen w p then Some p else None.
(* A server after Init: the clients' port, the replicas' port, the contents of its open database
   file, and the databases. *)
Record node := mkNode { n_port : Z; n_replica : option Z; n_file : option bytes; n_dbs : dbs }.
(* server.go:305-315: an empty name is no file, and without a file the master is not asked. *)
Definition source_of (w : world) (c : config) : source :=
  match database_file c with [] => NoSource | f => match w_file w f with None => OpenFails | Some b => Opened b end end.
Definition master_of (w : world) (c : config) : option bytes := match master_address c with [] => None | a => w_dial w a end.
(* server.go:76-132 Init; None: it returns false.  [o1], [o2] as in Node.v. *)
Definition init_server (o1 o2 : nat -> orders) (w : world) (c : config) : res (option node) :=
  if listen w (port c) then
    let! ds := sync_external o1 o2 (source_of w c) (master_of w c) in
    Ret (Some (mkNode (port c) (new_engine w (engine_port c)) (match source_of w c with Opened b => Some b | _ => None end) ds))
  else Ret None.

(* The process before Serve (main.go:49): dead by a panic, ended, or serving. *)
Inductive outcome := Crashed | Exited (status : Z) | Serving (n : node).
(* main.go:42-49; logging.go:38-41 panics if the log file cannot be opened. *)
Definition launch (o1 o2 : nat -> orders) (w : world) (c : config) : outcome :=
  if w_log w (log_path c) then
    match init_server o1 o2 w c with Ret (Some n) => Serving n | Ret None => Exited 1 | _ => Crashed end
  else Crashed.
(* main.go:29-50 with internal/flags.go: [args] are the arguments of the program, [conf] what
   Config.Parse would read from a file; neither is looked at. *)
Definition main (args : list bytes) (conf : bytes -> option config) (o1 o2 : nat -> orders) (w : world) : outcome := launch o1 o2 w main_config.

(* Whether engine.Stop (engine.go:199-203) of this server gets through; see Persist.stop. *)
Definition clean (n : node) : bool :=
  match stop (match n_replica n with Some _ => true | None => false end) (option_map open_file (n_file n)) [] with Ret _ => true | _ => false end.
