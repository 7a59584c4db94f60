(* pkg/network/server.go and the loop of pkg/db/engine.go as a transition system: the whole path
   of a request through the server.  It is put together from the models of the parts: the two
   topics (Topic.v, with the data channels of the engine and of the response worker), every
   connection (Conn.v), the reader (Resp.v) and the request handling (Engine.v).
   - A request is named by its connection and its number on it (the first object read is
     number 0).  The messages on the two topics carry this name; the code has only the
     connection's id in them, and no step depends on the number.
   - [input c] is all that the peer of connection c ever sends; the network may delay it or
     break off at any point (Conn.v: a read may fail, or never return).
   - RemoveTopic holds the bus's write lock until the removal event is distributed and the topic
     is out of the table ([unlocked]); calls of Publish wait for it.
   - The log goroutines of engine.go:124-126 are in Recovery.v; they do not touch the data.
   - clients.Load (269) finds every connection: it is stored (188) before its first read, and
     never removed. *)
From Coq Require Import List Arith Bool Ascii String ZArith.
From Verif Require Import Base Lts Resp Engine Db DataChannel Topic Conn.
Import ListNotations.
Local Open Scope nat_scope.

Local Open Scope string_scope.
Local Open Scope list_scope.

(* Events on the topics: requests and replies, or the removal event (topic.go:69-75). *)
Inductive request := QRequest (c k : nat) (q : robj) | QGone.
Inductive response := PReply (c k : nat) (r : robj) | PGone.

(* The goroutine of newConn (190-207): not started; before Read number k; in it; before Publish;
   returned. *)
Inductive reader := RNone | RIdle (k : nat) | RIn (k i : nat) | RPub (k : nat) (q : robj) | ROver.
(* The loop of engine.Start (144-196): at its select; in Receive; before handleRequest; before
   Publish; left. *)
Inductive engine := EIdle | EWait (j : nat) | EHas (c k : nat) (q : robj) | EReply (c k : nat) (r : robj) | EOver.
(* responseWorker (230-281): at its select; in Receive; before Write; in it; left. *)
Inductive worker := WIdle | WWait (j : nat) | WHas (c k : nat) (r : robj) | WIn (c i k : nat) (r : robj) | WOver.
(* stop (283-303): not called; waiting for the two removals; shutChan closed, in engine.Stop; there
   after Flush (engine.go:201); the engine's shutChan closed (202). *)
Inductive stopper := XNone | XReq (p : nat) | XRsp (p : nat) | XShut | XFlushed | XDone.

Record state := mkS {
  s_req : Topic.state request; s_rsp : Topic.state response;
  s_conn : nat -> Conn.state; s_in : nat -> bytes; s_rd : nat -> reader;
  s_db : db; s_eng : engine; s_wrk : worker;
  s_reqs : bool; s_rsps : bool;   (* the topics exist *)
  s_stop : stopper; s_crash : bool }.
Definition set_req (s : state) t := mkS t (s_rsp s) (s_conn s) (s_in s) (s_rd s) (s_db s) (s_eng s) (s_wrk s) (s_reqs s) (s_rsps s) (s_stop s) (s_crash s).
Definition set_rsp (s : state) t := mkS (s_req s) t (s_conn s) (s_in s) (s_rd s) (s_db s) (s_eng s) (s_wrk s) (s_reqs s) (s_rsps s) (s_stop s) (s_crash s).
Definition put_conn (s : state) c t := mkS (s_req s) (s_rsp s) (upd (s_conn s) c t) (s_in s) (s_rd s) (s_db s) (s_eng s) (s_wrk s) (s_reqs s) (s_rsps s) (s_stop s) (s_crash s).
Definition put_in (s : state) c b := mkS (s_req s) (s_rsp s) (s_conn s) (upd (s_in s) c b) (s_rd s) (s_db s) (s_eng s) (s_wrk s) (s_reqs s) (s_rsps s) (s_stop s) (s_crash s).
Definition put_rd (s : state) c r := mkS (s_req s) (s_rsp s) (s_conn s) (s_in s) (upd (s_rd s) c r) (s_db s) (s_eng s) (s_wrk s) (s_reqs s) (s_rsps s) (s_stop s) (s_crash s).
Definition set_db (s : state) d := mkS (s_req s) (s_rsp s) (s_conn s) (s_in s) (s_rd s) d (s_eng s) (s_wrk s) (s_reqs s) (s_rsps s) (s_stop s) (s_crash s).
Definition set_eng (s : state) e := mkS (s_req s) (s_rsp s) (s_conn s) (s_in s) (s_rd s) (s_db s) e (s_wrk s) (s_reqs s) (s_rsps s) (s_stop s) (s_crash s).
Definition set_wrk (s : state) w := mkS (s_req s) (s_rsp s) (s_conn s) (s_in s) (s_rd s) (s_db s) (s_eng s) w (s_reqs s) (s_rsps s) (s_stop s) (s_crash s).
Definition set_stop (s : state) x a b := mkS (s_req s) (s_rsp s) (s_conn s) (s_in s) (s_rd s) (s_db s) (s_eng s) (s_wrk s) a b x (s_crash s).
Definition crash (s : state) := mkS (s_req s) (s_rsp s) (s_conn s) (s_in s) (s_rd s) (s_db s) (s_eng s) (s_wrk s) (s_reqs s) (s_rsps s) (s_stop s) true.

Inductive event :=
| SAccept (c : nat)
| SReq (l : Topic.event request)          (* on the request topic *)
| SRsp (l : Topic.event response)         (* on the response topic *)
| SConn (c : nat) (l : Conn.event)        (* on connection c *)
| SRead (c i k : nat) (q : robj)          (* call i of Read on c returns object number k *)
| SHandle (c k : nat) (e : env) (q : robj) (o : option robj) (* handleRequest, with its reply *)
| SWrite (c i k : nat) (r : robj)         (* Write, call i, on c with the reply to number k *)
| SCrash.

(* A topic with one subscriber (NewTopic and Subscribe). *)
Definition subscribed {A : Type} (name : string) (cap : nat) : Topic.state A :=
  mkT [(name, 0)] 1 (upd (fun _ => DataChannel.init 0) 0 (DataChannel.init cap)) (fun _ => no_pub) (fun _ => mkG GNone 0 "" 0).
(* Init 76-132 and Serve 134-180: engine.go:49 Subscribe has no buffer, server.go:104 has 100.
   [d] is the database after recovery. *)
Definition init (d : db) (input : nat -> bytes) : state :=
  mkS (subscribed "engine" 0) (subscribed "server" 100) (fun _ => Conn.init) input (fun _ => RNone) d EIdle WIdle true true XNone false.

(* What a topic or a connection does without its users. *)
Definition free {A : Type} (l : option (Topic.event A)) : Prop :=
  match l with
  | Some (TPublish _ _) | Some (TSubscribe _ _ _) => False
  | Some (TChan _ (DataChannel.ECall _ o)) | Some (TChan _ (DataChannel.ERet _ o _)) => match o with OSend _ => True | _ => False end
  | _ => True end.
Definition free_conn (l : option Conn.event) : Prop :=
  match l with Some (Conn.ECall _ _) | Some (Conn.ERet _ _ _) => False | _ => True end.
(* successChan has the result, topic.go:113. *)
Definition distributed {A : Type} (q : pub A) : Prop := match p_phase q with DClose | DSpawn | DRemove => True | _ => False end.
(* event_bus.go:126-129, 198-212: no RemoveTopic holds the lock. *)
Definition unlocked (s : state) : Prop :=
  match s_stop s with XReq p => distributed (t_pub (s_req s) p) | XRsp p => distributed (t_pub (s_rsp s) p) | _ => True end.
(* server.go:290: shutChan is closed. *)
Definition shut (s : state) : Prop := match s_stop s with XShut | XFlushed | XDone => True | _ => False end.

(* [clean]: engine.Stop (engine.go:199-203) does not crash for want of a master or a file; see
   Persist.stop.  That it can crash in master.Stop while a replica connects is left to System.v. *)
Inductive move (clean : bool) : state -> option event -> state -> Prop :=
(* newConn 186-208 *)
| accept s c : s_rd s c = RNone -> move clean s (Some (SAccept c)) (put_rd s c (RIdle 0))
| read_call s c k i t : s_rd s c = RIdle k -> Conn.step (s_conn s c) (Some (Conn.ECall i ORead)) t ->
    move clean s (Some (SConn c (Conn.ECall i ORead))) (put_rd (put_conn s c t) c (RIn k i))
| read_obj s c k i t q r : s_rd s c = RIn k i -> Conn.step (s_conn s c) (Some (Conn.ERet i ORead ROk)) t -> parse (s_in s c) = POk q r ->
    move clean s (Some (SRead c i k q)) (put_rd (put_in (put_conn s c t) c r) c (RPub k q))
| read_err s c k i t x : s_rd s c = RIn k i -> x <> ROk -> Conn.step (s_conn s c) (Some (Conn.ERet i ORead x)) t ->
    move clean s (Some (SConn c (Conn.ERet i ORead x))) (put_rd (put_conn s c t) c ROver)
| read_panic s c k i : s_rd s c = RIn k i -> c_pc (s_conn s c) i = PReading -> parse (s_in s c) = PPanic -> move clean s (Some SCrash) (crash s)
| publish s c k q p t : s_rd s c = RPub k q -> unlocked s -> s_reqs s = true -> Topic.step (s_req s) (Some (TPublish p (QRequest c k q))) t ->
    move clean s (Some (SReq (TPublish p (QRequest c k q)))) (put_rd (set_req s t) c (RIdle (S k)))
| publish_gone s c k q : s_rd s c = RPub k q -> unlocked s -> s_reqs s = false -> move clean s None (put_rd s c (RIdle (S k)))
(* engine.go:144-196 *)
| eng_call s j t : s_eng s = EIdle -> s_stop s <> XDone -> Topic.step (s_req s) (Some (TChan 0 (DataChannel.ECall j ORecv))) t ->
    move clean s (Some (SReq (TChan 0 (DataChannel.ECall j ORecv)))) (set_eng (set_req s t) (EWait j))
| eng_shut s : s_eng s = EIdle -> s_stop s = XDone -> move clean s None (set_eng s EOver)
| eng_got s j m t : s_eng s = EWait j -> Topic.step (s_req s) (Some (TChan 0 (DataChannel.ERet j ORecv (REvent m)))) t ->
    move clean s (Some (SReq (TChan 0 (DataChannel.ERet j ORecv (REvent m)))))
      (set_eng (set_req s t) (match m with QRequest c k q => EHas c k q | QGone => EOver end))
| eng_closed s j t : s_eng s = EWait j -> Topic.step (s_req s) (Some (TChan 0 (DataChannel.ERet j ORecv DataChannel.RErrClosed))) t ->
    move clean s (Some (SReq (TChan 0 (DataChannel.ERet j ORecv DataChannel.RErrClosed)))) (set_eng (set_req s t) EOver)
| eng_handle s c k q e d o : s_eng s = EHas c k q -> handle e (s_db s) q = Ret (d, o) ->
    move clean s (Some (SHandle c k e q o)) (set_eng (set_db s d) (match o with Some r => EReply c k r | None => EIdle end))
| eng_panic s c k q e : s_eng s = EHas c k q -> handle e (s_db s) q = Panic -> move clean s (Some SCrash) (crash s)
| eng_reply s c k r p t : s_eng s = EReply c k r -> unlocked s -> s_rsps s = true -> Topic.step (s_rsp s) (Some (TPublish p (PReply c k r))) t ->
    move clean s (Some (SRsp (TPublish p (PReply c k r)))) (set_eng (set_rsp s t) EIdle)
| eng_reply_gone s c k r : s_eng s = EReply c k r -> unlocked s -> s_rsps s = false -> move clean s None (set_eng s EIdle)
(* responseWorker 230-281; at 240 a nil event (closed channel) crashes *)
| wrk_call s j t : s_wrk s = WIdle -> ~ shut s -> Topic.step (s_rsp s) (Some (TChan 0 (DataChannel.ECall j ORecv))) t ->
    move clean s (Some (SRsp (TChan 0 (DataChannel.ECall j ORecv)))) (set_wrk (set_rsp s t) (WWait j))
| wrk_shut s : s_wrk s = WIdle -> shut s -> move clean s None (set_wrk s WOver)
| wrk_got s j m t : s_wrk s = WWait j -> Topic.step (s_rsp s) (Some (TChan 0 (DataChannel.ERet j ORecv (REvent m)))) t ->
    move clean s (Some (SRsp (TChan 0 (DataChannel.ERet j ORecv (REvent m)))))
      (set_wrk (set_rsp s t) (match m with PReply c k r => WHas c k r | PGone => WOver end))
| wrk_closed s j t : s_wrk s = WWait j -> Topic.step (s_rsp s) (Some (TChan 0 (DataChannel.ERet j ORecv DataChannel.RErrClosed))) t ->
    move clean s (Some SCrash) (crash s)
| wrk_write s c k r i t : s_wrk s = WHas c k r -> Conn.step (s_conn s c) (Some (Conn.ECall i (OWrite (encode r)))) t ->
    move clean s (Some (SWrite c i k r)) (set_wrk (put_conn s c t) (WIn c i k r))
| wrk_done s c i k r x t : s_wrk s = WIn c i k r -> Conn.step (s_conn s c) (Some (Conn.ERet i (OWrite (encode r)) x)) t ->
    move clean s (Some (SConn c (Conn.ERet i (OWrite (encode r)) x))) (set_wrk (put_conn s c t) WIdle)
(* stop 283-303; the connections are not closed by 293-299: they are of type *conn, not conn *)
| stop_req s p t : s_stop s = XNone -> Topic.step (s_req s) (Some (TPublish p QGone)) t ->
    move clean s (Some (SReq (TPublish p QGone))) (set_stop (set_req s t) (XReq p) false (s_rsps s))
| stop_rsp s p p' t : s_stop s = XReq p -> distributed (t_pub (s_req s) p) -> Topic.step (s_rsp s) (Some (TPublish p' PGone)) t ->
    move clean s (Some (SRsp (TPublish p' PGone))) (set_stop (set_rsp s t) (XRsp p') (s_reqs s) false)
| stop_shut s p : s_stop s = XRsp p -> distributed (t_pub (s_rsp s) p) -> move clean s None (set_stop s XShut (s_reqs s) (s_rsps s))
| stop_flush s : s_stop s = XShut -> clean = true -> move clean s None (set_stop s XFlushed (s_reqs s) (s_rsps s))
| stop_engine s : s_stop s = XFlushed -> move clean s None (set_stop s XDone (s_reqs s) (s_rsps s))
| stop_panic s : s_stop s = XShut -> clean = false -> move clean s (Some SCrash) (crash s)
(* the parts on their own *)
| req_free s l t : free l -> Topic.step (s_req s) l t -> move clean s (option_map SReq l) (set_req s t)
| rsp_free s l t : free l -> Topic.step (s_rsp s) l t -> move clean s (option_map SRsp l) (set_rsp s t)
| conn_free s c l t : s_rd s c <> RNone -> free_conn l -> Conn.step (s_conn s c) l t -> move clean s (option_map (SConn c) l) (put_conn s c t).

Definition step (clean : bool) (s : state) (l : option event) (s' : state) : Prop := s_crash s = false /\ move clean s l s'.
Definition runs (clean : bool) (d : db) (input : nat -> bytes) (tr : list event) (s : state) : Prop := exec (step clean) (init d input) tr s.

(* What a run shows of each part. *)
Definition on_req (a : event) : list (Topic.event request) := match a with SReq l => [l] | _ => [] end.
Definition on_rsp (a : event) : list (Topic.event response) := match a with SRsp l => [l] | _ => [] end.
Definition on_conn (c : nat) (a : event) : list Conn.event :=
  match a with
  | SConn c' l => if Nat.eqb c' c then [l] else []
  | SRead c' i _ _ => if Nat.eqb c' c then [Conn.ERet i ORead ROk] else []
  | SWrite c' i _ r => if Nat.eqb c' c then [Conn.ECall i (OWrite (encode r))] else []
  | _ => [] end.
Definition req_trace (tr : list event) : list (Topic.event request) := TSubscribe "engine" 0 0 :: flat_map on_req tr.
Definition rsp_trace (tr : list event) : list (Topic.event response) := TSubscribe "server" 0 100 :: flat_map on_rsp tr.
Definition conn_trace (c : nat) (tr : list event) : list Conn.event := flat_map (on_conn c) tr.

(* The requests handled, in order, and the replies written, in order. *)
Definition handled_of (a : event) : list (nat * nat * env * robj * option robj) := match a with SHandle c k e q o => [(c, k, e, q, o)] | _ => [] end.
Definition handled (tr : list event) : list (nat * nat * env * robj * option robj) := flat_map handled_of tr.
Definition written_of (a : event) : list (nat * nat * nat * robj) := match a with SWrite c i k r => [(c, i, k, r)] | _ => [] end.
Definition written (tr : list event) : list (nat * nat * nat * robj) := flat_map written_of tr.
Definition read_of (c : nat) (a : event) : list (nat * robj) := match a with SRead c' _ k q => if Nat.eqb c' c then [(k, q)] else [] | _ => [] end.
Definition reads (c : nat) (tr : list event) : list (nat * robj) := flat_map (read_of c) tr.
