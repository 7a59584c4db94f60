(* C43, C44, C45, C56: the whole path of a request, over every schedule. *)
From Coq Require Import List Arith Bool String ZArith.
From Verif Require Import Base Lts Resp RespSpec Engine Db DataChannel Topic Conn Server ServerSpec ServerProofs ServerRuns.
Import ListNotations.
Local Open Scope nat_scope.
Local Open Scope string_scope.
Local Open Scope list_scope.

(* C43: whatever the clients and the schedule, the data is what the handled requests make of it
   one after the other, with these replies, ... *)
Theorem C43_one_at_a_time : forall cl d input tr s, runs cl d input tr s -> in_turn d (map hturn (handled tr)) (s_db s).
Proof. exact runs_turn. Qed.
Print Assumptions C43_one_at_a_time.
(* ... no request is handled twice, ... *)
Theorem C43_handled_once : forall cl d input tr s, runs cl d input tr s -> NoDup (map request_of (handled tr)).
Proof. exact handled_once. Qed.
Print Assumptions C43_handled_once.
(* ... or without having been read, ... *)
Theorem C43_handled_was_read : forall cl d input tr s c k e q o, runs cl d input tr s -> In (SHandle c k e q o) tr ->
  exists i, before tr (SRead c i k q) (SHandle c k e q o).
Proof. exact handled_read. Qed.
Print Assumptions C43_handled_was_read.
(* ... a reply is written only to the connection of its request, after it was handled, ... *)
Theorem C43_reply_to_requester : forall cl d input tr s c i k r, runs cl d input tr s -> In (SWrite c i k r) tr ->
  exists e q, before tr (SHandle c k e q (Some r)) (SWrite c i k r).
Proof. exact written_handled. Qed.
Print Assumptions C43_reply_to_requester.
(* ... at most once, ... *)
Theorem C43_reply_once : forall cl d input tr s, runs cl d input tr s -> NoDup (map reply_of (written tr)).
Proof. exact written_once. Qed.
Print Assumptions C43_reply_once.
(* ... and nothing else is sent but the closing message. *)
Theorem C43_nothing_else_sent : forall cl d input tr s c i p, runs cl d input tr s -> In (SConn c (EOut i p)) tr ->
  (exists k r, In (SWrite c i k r) tr /\ prefix_of p (encode r)) \/ prefix_of p (bs "TTL expired").
Proof. exact output. Qed.
Print Assumptions C43_nothing_else_sent.

(* C56: the requests of a connection are the objects of its byte stream, in order: number k is
   the k-th, ... *)
Theorem C56_in_order : forall cl d input tr s c, runs cl d input tr s -> map fst (reads c tr) = seq 0 (List.length (reads c tr)).
Proof. exact read_in_order. Qed.
Print Assumptions C56_in_order.
Theorem C56_objects : forall cl d input tr s c i k q, runs cl d input tr s -> In (SRead c i k q) tr ->
  exists qs r, objects (input c) qs r /\ nth_error qs k = Some q.
Proof. exact read_nth. Qed.
Print Assumptions C56_objects.
(* ... which is what the client sent, if it sent RESP; ... *)
Theorem C56_as_sent : forall cl d input tr s c i k q os rest, runs cl d input tr s -> In (SRead c i k q) tr ->
  Forall obj_ok os -> input c = flat_map encode os ++ rest -> k < List.length os -> nth_error os k = Some q.
Proof. exact read_sent. Qed.
Print Assumptions C56_as_sent.
(* ... after a failed read nothing more is read. *)
Theorem C56_stops : forall cl d input x y s c i r, runs cl d input (x ++ SConn c (Conn.ERet i ORead r) :: y) s ->
  forall i' k q, ~ In (SRead c i' k q) y.
Proof. exact read_stops. Qed.
Print Assumptions C56_stops.

(* A client sends SET a 1 and GET a without waiting.  The second is handled first. *)
Definition ask (l : list string) : robj := RArr (map (fun x => RBulk (bs x)) l).
Definition plain : env := mkEnv (fun _ l => l) [].
Definition q0 : robj := ask ["SET"; "a"; "1"].
Definition q1 : robj := ask ["GET"; "a"].
Definition pipelined : nat -> bytes := fun c => match c with 0 => encode q0 ++ encode q1 | _ => [] end.
Definition swapped : list event :=
  [SAccept 0; SConn 0 (Conn.ECall 1 ORead); SRead 0 1 0 q0; SReq (TPublish 0 (QRequest 0 0 q0));
   SConn 0 (Conn.ECall 2 ORead); SRead 0 2 1 q1; SReq (TPublish 1 (QRequest 0 1 q1));
   SReq (TChan 0 (DataChannel.ECall 1 ORecv)); SReq (TVisit 1 1 "engine" 0); SReq (TChan 0 (DataChannel.ECall 2 (OSend (QRequest 0 1 q1)))); SReq (TChan 0 (EPass 2 1 (QRequest 0 1 q1)));
   SReq (TChan 0 (DataChannel.ERet 1 ORecv (REvent (QRequest 0 1 q1)))); SHandle 0 1 plain q1 (Some RNullBulk); SRsp (TPublish 0 (PReply 0 1 RNullBulk));
   SReq (TChan 0 (DataChannel.ECall 3 ORecv)); SReq (TVisit 0 0 "engine" 0); SReq (TChan 0 (DataChannel.ECall 0 (OSend (QRequest 0 0 q0)))); SReq (TChan 0 (EPass 0 3 (QRequest 0 0 q0)));
   SReq (TChan 0 (DataChannel.ERet 3 ORecv (REvent (QRequest 0 0 q0)))); SHandle 0 0 plain q0 (Some (RSimple (bs "OK"))); SRsp (TPublish 1 (PReply 0 0 (RSimple (bs "OK"))));
   SRsp (TChan 0 (DataChannel.ECall 1 ORecv)); SRsp (TVisit 0 0 "server" 0); SRsp (TChan 0 (DataChannel.ECall 0 (OSend (PReply 0 1 RNullBulk)))); SRsp (TChan 0 (EPut 0 (PReply 0 1 RNullBulk)));
   SRsp (TChan 0 (ETake 1 (PReply 0 1 RNullBulk))); SRsp (TChan 0 (DataChannel.ERet 1 ORecv (REvent (PReply 0 1 RNullBulk)))); SWrite 0 3 1 RNullBulk; SConn 0 (EOut 3 (encode RNullBulk));
   SConn 0 (Conn.ERet 3 (OWrite (encode RNullBulk)) ROk);
   SRsp (TChan 0 (DataChannel.ECall 3 ORecv)); SRsp (TVisit 1 1 "server" 0); SRsp (TChan 0 (DataChannel.ECall 2 (OSend (PReply 0 0 (RSimple (bs "OK")))))); SRsp (TChan 0 (EPut 2 (PReply 0 0 (RSimple (bs "OK")))));
   SRsp (TChan 0 (ETake 3 (PReply 0 0 (RSimple (bs "OK"))))); SRsp (TChan 0 (DataChannel.ERet 3 ORecv (REvent (PReply 0 0 (RSimple (bs "OK")))))); SWrite 0 4 0 (RSimple (bs "OK")); SConn 0 (EOut 4 (encode (RSimple (bs "OK"))));
   SReq (TChan 0 (DataChannel.ERet 2 (OSend (QRequest 0 1 q1)) RSuccess)); SReq (TResult 1 1); SRsp (TChan 0 (DataChannel.ERet 0 (OSend (PReply 0 1 RNullBulk)) RSuccess)); SRsp (TResult 0 1)].
Lemma swapped_runs : exists s, runs true new_db pipelined swapped s.
Proof.
  eexists. unfold runs, swapped. simp.
  srv accept.
  srv read_call with (eapply (Conn.call _ 1); side). cont 0 (reset_r _ 1). cont 0 (r_obj _ 1). say (eapply read_; [side|side|simp; eapply (ret_ _ 1); side|side]).
  srv publish with (eapply Topic.publish; simp; side).
  srv read_call with (eapply (Conn.call _ 2); side). cont 0 (reset_r _ 2). cont 0 (r_obj _ 2). say (eapply read_; [side|side|simp; eapply (ret_ _ 2); side|side]).
  srv publish with (eapply Topic.publish; simp; side).
  srv eng_call with recv_call. rqct (r_open _ 1). rqt (range _ 1). rq (visit _ 1 1 "engine" 0). rqsend 1. rqc (s_pass _ 2 1). srv eng_got with recv_ret.
  say (eapply handle_; [side|side|side]). srv eng_reply with (eapply Topic.publish; simp; side).
  srv eng_call with recv_call. rqct (r_open _ 3). rqt (range _ 0). rq (visit _ 0 0 "engine" 0). rqsend 0. rqc (s_pass _ 0 3). srv eng_got with recv_ret.
  say (eapply handle_; [side|side|side]). srv eng_reply with (eapply Topic.publish; simp; side).
  srv wrk_call with recv_call. rsct (r_open _ 1). rst (range _ 0). rs (visit _ 0 0 "server" 0). rssend 0. rsc (s_put _ 0). rsc (r_take _ 1). srv wrk_got with recv_ret.
  srv wrk_write with (eapply (Conn.call _ 3); side). cont 0 (wr_chk _ 3). cont 0 (reset_w _ 3). con 0 (wr_all _ 3). srv wrk_done with (eapply (ret_ _ 3); side).
  srv wrk_call with recv_call. rsct (r_open _ 3). rst (range _ 1). rs (visit _ 1 1 "server" 0). rssend 1. rsc (s_put _ 2). rsc (r_take _ 3). srv wrk_got with recv_ret.
  srv wrk_write with (eapply (Conn.call _ 4); side). cont 0 (wr_chk _ 4). cont 0 (reset_w _ 4). con 0 (wr_all _ 4).
  rqsent 1. rqt (g_add _ 1). rqt (g_done _ 1). rqt (range_end _ 1). rqt (wait_over _ 1). rq (result_ _ 1).
  rssent 0. rst (g_add _ 0). rst (g_done _ 0). rst (range_end _ 0). rst (wait_over _ 0). rs (result_ _ 0).
  apply exec_start.
Qed.
Example C43_ex : In (SHandle 0 1 plain q1 (Some RNullBulk)) swapped /\ In (SWrite 0 3 1 RNullBulk) swapped /\ In (SConn 0 (EOut 3 (encode RNullBulk))) swapped /\
  List.length (handled swapped) = 2 /\ List.length (written swapped) = 2.
Proof. repeat split; cbn; auto 60. Qed.
Example C56_ex : In (SRead 0 2 1 q1) swapped /\ Forall obj_ok [q0; q1] /\ pipelined 0 = flat_map encode [q0; q1] ++ [] /\ 1 < List.length [q0; q1].
Proof. split; [cbn; auto 60|]. split; [|split; [reflexivity|cbn; auto]]. repeat constructor; vm_compute; reflexivity. Qed.
Example C56_stops_ex : exists s, runs true new_db (fun _ => []) ([SAccept 0; SConn 0 (Conn.ECall 1 ORead)] ++ SConn 0 (Conn.ERet 1 ORead RErr) :: []) s.
Proof.
  eexists. unfold runs. cbn [app]. simp. srv accept. srv read_call with (eapply (Conn.call _ 1); side). cont 0 (reset_r _ 1). cont 0 (r_err _ 1).
  srv read_err with (eapply (ret_ _ 1); side). apply exec_start.
Qed.

(* C44 is false: the GET is executed, and answered, before the SET sent ahead of it. *)
Theorem C44_pipelined_order_refuted : exists s, runs true new_db pipelined swapped s /\ pipelined 0 = encode q0 ++ encode q1 /\
  before swapped (SHandle 0 1 plain q1 (Some RNullBulk)) (SHandle 0 0 plain q0 (Some (RSimple (bs "OK")))) /\
  before swapped (SConn 0 (EOut 3 (encode RNullBulk))) (SConn 0 (EOut 4 (encode (RSimple (bs "OK"))))).
Proof.
  destruct swapped_runs as (s & R). exists s. split; [exact R|]. split; [reflexivity|]. split.
  - exists (firstn 12 swapped), (firstn 6 (skipn 13 swapped)), (skipn 20 swapped). reflexivity.
  - exists (firstn 28 swapped), (firstn 8 (skipn 29 swapped)), (skipn 38 swapped). reflexivity.
Qed.
Print Assumptions C44_pipelined_order_refuted.
(* What holds: a client that waits for the reply before it sends the next request has them
   handled in order. *)
Theorem C44_waiting_client_partial : forall cl d input tr s c i k r i' k' q' e' o', runs cl d input tr s ->
  before tr (SWrite c i k r) (SRead c i' k' q') -> In (SHandle c k' e' q' o') tr ->
  exists e q, before tr (SHandle c k e q (Some r)) (SHandle c k' e' q' o').
Proof. exact waits. Qed.
Print Assumptions C44_waiting_client_partial.
Definition waiting : list event :=
  [SAccept 0; SConn 0 (Conn.ECall 1 ORead); SRead 0 1 0 q0; SReq (TPublish 0 (QRequest 0 0 q0));
   SReq (TChan 0 (DataChannel.ECall 1 ORecv)); SReq (TVisit 0 0 "engine" 0); SReq (TChan 0 (DataChannel.ECall 0 (OSend (QRequest 0 0 q0)))); SReq (TChan 0 (EPass 0 1 (QRequest 0 0 q0)));
   SReq (TChan 0 (DataChannel.ERet 1 ORecv (REvent (QRequest 0 0 q0)))); SHandle 0 0 plain q0 (Some (RSimple (bs "OK"))); SRsp (TPublish 0 (PReply 0 0 (RSimple (bs "OK"))));
   SRsp (TChan 0 (DataChannel.ECall 1 ORecv)); SRsp (TVisit 0 0 "server" 0); SRsp (TChan 0 (DataChannel.ECall 0 (OSend (PReply 0 0 (RSimple (bs "OK")))))); SRsp (TChan 0 (EPut 0 (PReply 0 0 (RSimple (bs "OK")))));
   SRsp (TChan 0 (ETake 1 (PReply 0 0 (RSimple (bs "OK"))))); SRsp (TChan 0 (DataChannel.ERet 1 ORecv (REvent (PReply 0 0 (RSimple (bs "OK")))))); SWrite 0 3 0 (RSimple (bs "OK")); SConn 0 (EOut 3 (encode (RSimple (bs "OK"))));
   SConn 0 (Conn.ECall 2 ORead); SRead 0 2 1 q1; SReq (TPublish 1 (QRequest 0 1 q1));
   SReq (TChan 0 (DataChannel.ECall 3 ORecv)); SReq (TVisit 1 1 "engine" 0); SReq (TChan 0 (DataChannel.ECall 2 (OSend (QRequest 0 1 q1)))); SReq (TChan 0 (EPass 2 3 (QRequest 0 1 q1)));
   SReq (TChan 0 (DataChannel.ERet 3 ORecv (REvent (QRequest 0 1 q1)))); SHandle 0 1 plain q1 (Some (RBulk (bs "1")))].
Example C44_waiting_ex : (exists s, runs true new_db pipelined waiting s) /\ before waiting (SWrite 0 3 0 (RSimple (bs "OK"))) (SRead 0 2 1 q1).
Proof.
  split; [|exists (firstn 17 waiting), (firstn 2 (skipn 18 waiting)), (skipn 21 waiting); reflexivity].
  eexists. unfold runs, waiting. simp. srv accept.
  srv read_call with (eapply (Conn.call _ 1); side). cont 0 (reset_r _ 1). cont 0 (r_obj _ 1). say (eapply read_; [side|side|simp; eapply (ret_ _ 1); side|side]).
  srv publish with (eapply Topic.publish; simp; side).
  srv eng_call with recv_call. rqct (r_open _ 1). rqt (range _ 0). rq (visit _ 0 0 "engine" 0). rqsend 0. rqc (s_pass _ 0 1). srv eng_got with recv_ret.
  say (eapply handle_; [side|side|side]). srv eng_reply with (eapply Topic.publish; simp; side).
  srv wrk_call with recv_call. rsct (r_open _ 1). rst (range _ 0). rs (visit _ 0 0 "server" 0). rssend 0. rsc (s_put _ 0). rsc (r_take _ 1). srv wrk_got with recv_ret.
  srv wrk_write with (eapply (Conn.call _ 3); side). cont 0 (wr_chk _ 3). cont 0 (reset_w _ 3). con 0 (wr_all _ 3).
  srv read_call with (eapply (Conn.call _ 2); side). cont 0 (reset_r _ 2). cont 0 (r_obj _ 2). say (eapply read_; [side|side|simp; eapply (ret_ _ 2); side|side]).
  srv publish with (eapply Topic.publish; simp; side).
  srv eng_call with recv_call. rqct (r_open _ 3). rqt (range _ 1). rq (visit _ 1 1 "engine" 0). rqsend 1. rqc (s_pass _ 2 3). srv eng_got with recv_ret.
  say (eapply handle_; [side|side|side]). apply exec_start.
Qed.

(* C45 is false: a request whose send to the engine takes too long is dropped; it is not
   answered, whatever happens afterwards. *)
Definition dropped : list event :=
  [SAccept 0; SConn 0 (Conn.ECall 1 ORead); SRead 0 1 0 q1; SReq (TPublish 0 (QRequest 0 0 q1));
   SReq (TVisit 0 0 "engine" 0); SReq (TChan 0 (DataChannel.ECall 0 (OSend (QRequest 0 0 q1)))); SReq (TChan 0 (DataChannel.ERet 0 (OSend (QRequest 0 0 q1)) RExpired))].
Definition one (q : robj) : nat -> bytes := fun c => match c with 0 => encode q | _ => [] end.
Theorem C45_dropped_refuted : (exists s, runs true new_db (one q1) dropped s) /\ In (SRead 0 1 0 q1) dropped /\
  forall cl tr s, runs cl new_db (one q1) (dropped ++ tr) s -> forall i r, ~ In (SWrite 0 i 0 r) (dropped ++ tr).
Proof.
  split; [|split; [cbn; auto|]].
  - eexists. unfold runs, dropped. simp. srv accept.
    srv read_call with (eapply (Conn.call _ 1); side). cont 0 (reset_r _ 1). cont 0 (r_obj _ 1). say (eapply read_; [side|side|simp; eapply (ret_ _ 1); side|side]).
    srv publish with (eapply Topic.publish; simp; side). rqt (range _ 0). rq (visit _ 0 0 "engine" 0). rqsend 0. rqct (s_expired _ 0). rqsent 0. apply exec_start.
  - intros cl tr s R. apply (unhandled_unwritten _ _ _ _ _ _ _ R). intros e q r.
    apply (expired_lost _ _ _ _ _ 0 0 "engine" 0 0 q1 R); apply in_app_iff; left; cbn; auto 10.
Qed.
Print Assumptions C45_dropped_refuted.
(* Neither is a request that is not an array. *)
Definition ignored : list event :=
  [SAccept 0; SConn 0 (Conn.ECall 1 ORead); SRead 0 1 0 (RInt 1%Z); SReq (TPublish 0 (QRequest 0 0 (RInt 1%Z)));
   SReq (TChan 0 (DataChannel.ECall 1 ORecv)); SReq (TVisit 0 0 "engine" 0); SReq (TChan 0 (DataChannel.ECall 0 (OSend (QRequest 0 0 (RInt 1%Z))))); SReq (TChan 0 (EPass 0 1 (QRequest 0 0 (RInt 1%Z))));
   SReq (TChan 0 (DataChannel.ERet 1 ORecv (REvent (QRequest 0 0 (RInt 1%Z))))); SHandle 0 0 plain (RInt 1%Z) None].
Theorem C45_not_array_refuted : (exists s, runs true new_db (one (RInt 1%Z)) ignored s) /\ In (SRead 0 1 0 (RInt 1%Z)) ignored /\
  forall cl tr s, runs cl new_db (one (RInt 1%Z)) (ignored ++ tr) s -> forall i r, ~ In (SWrite 0 i 0 r) (ignored ++ tr).
Proof.
  split; [|split; [cbn; auto|]].
  - eexists. unfold runs, ignored. simp. srv accept.
    srv read_call with (eapply (Conn.call _ 1); side). cont 0 (reset_r _ 1). cont 0 (r_obj _ 1). say (eapply read_; [side|side|simp; eapply (ret_ _ 1); side|side]).
    srv publish with (eapply Topic.publish; simp; side).
    srv eng_call with recv_call. rqct (r_open _ 1). rqt (range _ 0). rq (visit _ 0 0 "engine" 0). rqsend 0. rqc (s_pass _ 0 1). srv eng_got with recv_ret.
    say (eapply handle_; [side|side|side]). apply exec_start.
  - intros cl tr s R. apply (no_reply_unwritten _ _ _ _ _ _ _ plain (RInt 1%Z) R). apply in_app_iff. left. cbn. auto 20.
Qed.
Print Assumptions C45_not_array_refuted.
(* What holds: a handled array request has a reply, ... *)
Theorem C45_array_replied_partial : forall cl d input tr s c k e l o, runs cl d input tr s -> In (SHandle c k e (RArr l) o) tr -> exists r, o = Some r.
Proof. exact array_replied. Qed.
Print Assumptions C45_array_replied_partial.
(* ... a request that was delivered (the publication's result is not 0) is handled, or is with
   the engine; ... *)
Theorem C45_request_kept_partial : forall cl d input tr s p n c k q, runs cl d input tr s ->
  In (SReq (TPublish p (QRequest c k q))) tr -> In (SReq (TResult p (S n))) tr ->
  (exists e o, In (SHandle c k e q o) tr) \/ s_eng s = EHas c k q \/
  exists j, s_eng s = EWait j /\ d_pc (t_ch (s_req s) 0) j = DataChannel.PRet ORecv (REvent (QRequest c k q)).
Proof. exact request_kept. Qed.
Print Assumptions C45_request_kept_partial.
(* ... and a reply that was delivered is written, or is with the worker or in its channel. *)
Theorem C45_reply_kept_partial : forall cl d input tr s p n c k r, runs cl d input tr s ->
  In (SRsp (TPublish p (PReply c k r))) tr -> In (SRsp (TResult p (S n))) tr ->
  (exists i, In (SWrite c i k r) tr) \/ s_wrk s = WHas c k r \/
  (exists j, s_wrk s = WWait j /\ d_pc (t_ch (s_rsp s) 0) j = DataChannel.PRet ORecv (REvent (PReply c k r))) \/
  In (PReply c k r) (d_buf (t_ch (s_rsp s) 0)).
Proof. exact reply_kept. Qed.
Print Assumptions C45_reply_kept_partial.
Example C45_kept_ex : In (SReq (TPublish 1 (QRequest 0 1 q1))) swapped /\ In (SReq (TResult 1 1)) swapped /\ In (SRsp (TPublish 0 (PReply 0 1 RNullBulk))) swapped /\ In (SRsp (TResult 0 1)) swapped.
Proof. repeat split; cbn; auto 60. Qed.
