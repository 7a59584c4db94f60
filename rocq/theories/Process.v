(* The whole process: the server (Server.v), the goroutines that write its log (engine.go:123-125,
   205-225), the log file (Persist.v) and the end of the process (cmd/server/main.go:44-49 and
   server.go:134-180).  A database file is configured (SetFile, engine.go:288-294).
   - Flush is called by Stop (engine.go:201) and whenever a replica connects (master.go:119).
   - The listener is closed (server.go:288) just before shutChan (290); the accept loop (140-164) then
     ends.  Here both are closed at once.
   - Serve returns when the accept loop and the response worker have ended (177); its own call of
     stop (179) finds that stop was called before, and main returns. *)
From Coq Require Import List Bool ZArith.
From Verif Require Import Base Lts Resp Command Db Engine Log Persist Recovery Server.
Import ListNotations.

(* [x_spawned]: the request being handled has its log goroutine. *)
Record process := mkX { x_srv : Server.state; x_spawned : bool; x_pend : list vlog; x_file : pfile; x_accepts : bool; x_gone : bool }.
Inductive event := XSrv (a : Server.event) | XSpawn (c k : nat) (q : robj) (v : vlog) | XLog (v : vlog) | XFlush | XExit.
Definition start (d : db) (input : nat -> bytes) (f : bytes) : process := mkX (Server.init d input) false [] (open_file f) true false.

(* A request is executed after its log goroutine was started, if it has one (123-129); a crash may
   come at any time. *)
Definition handles (l : option Server.event) : Prop := match l with Some (SHandle _ _ _ _ _) => True | _ => False end.
Inductive step (clean : bool) : process -> option event -> process -> Prop :=
| srv s l s' b p f a : Server.step clean s l s' -> ~ handles l -> ~ (s_stop s = XShut /\ s_stop s' = XFlushed) ->
    step clean (mkX s b p f a false) (option_map XSrv l) (mkX s' b p f a false)
| spawn s p f a c k q t v : s_crash s = false -> s_eng s = EHas c k q -> log_of t q = Some v ->
    step clean (mkX s false p f a false) (Some (XSpawn c k q v)) (mkX s true (p ++ [v]) f a false)
| spawn_none s p f a c k q t : s_crash s = false -> s_eng s = EHas c k q -> log_of t q = None -> step clean (mkX s false p f a false) None (mkX s true p f a false)
| srv_handle s l s' p f a : Server.step clean s l s' -> handles l -> step clean (mkX s true p f a false) (option_map XSrv l) (mkX s' false p f a false)
| logs s b p1 v p2 f a d ws f' ws' : s_crash s = false -> pack_log v = Some d -> write f d ws = (f', ws') ->
    step clean (mkX s b (p1 ++ v :: p2) f a false) (Some (XLog v)) (mkX s b (p1 ++ p2) f' a (p_dead f'))
| drops s b p1 v p2 f a : s_crash s = false -> pack_log v = None -> step clean (mkX s b (p1 ++ v :: p2) f a false) None (mkX s b (p1 ++ p2) f a false)
| flushes s b p f a ws f' ws' : s_crash s = false -> flush f ws = (f', ws') -> step clean (mkX s b p f a false) (Some XFlush) (mkX s b p f' a (p_dead f'))
| stops s s' b p f a ws f' ws' : Server.step clean s None s' -> s_stop s = XShut -> s_stop s' = XFlushed -> flush f ws = (f', ws') ->
    step clean (mkX s b p f a false) (Some XFlush) (mkX s' b p f' a (p_dead f'))
| accept_ends s b p f : s_crash s = false -> shut s -> step clean (mkX s b p f true false) None (mkX s b p f false false)
| exits s b p f : s_crash s = false -> s_wrk s = WOver -> step clean (mkX s b p f false false) (Some XExit) (mkX s b p f false true).

Definition runs (clean : bool) (d : db) (input : nat -> bytes) (f : bytes) (tr : list event) (x : process) : Prop := exec (step clean) (start d input f) tr x.

(* What a run shows of the server, and of the log. *)
Definition served (tr : list event) : list Server.event := flat_map (fun a => match a with XSrv b => [b] | _ => [] end) tr.
Definition logged (tr : list event) : list vlog := flat_map (fun a => match a with XLog v => [v] | _ => [] end) tr.
Definition spawned (tr : list event) : list vlog := flat_map (fun a => match a with XSpawn _ _ _ v => [v] | _ => [] end) tr.
