(* C65, C66: one client and the others; stopping the server. *)
From Coq Require Import List Arith Bool String ZArith.
From Verif Require Import Base Lts Resp RespSpec Engine Db DataChannel Topic Conn ConnProofs Server ServerSpec ServerProofs ServerRuns StopProofs Props_Server.
Import ListNotations.
Local Open Scope nat_scope.
Local Open Scope string_scope.
Local Open Scope list_scope.

(* A client sends one request and leaves while its reply is about to be written. *)
Definition leaves : list event :=
  [SAccept 0; SConn 0 (Conn.ECall 1 ORead); SRead 0 1 0 q1; SReq (TPublish 0 (QRequest 0 0 q1)); SConn 0 (Conn.ECall 2 ORead);
   SReq (TChan 0 (DataChannel.ECall 1 ORecv)); SReq (TVisit 0 0 "engine" 0); SReq (TChan 0 (DataChannel.ECall 0 (OSend (QRequest 0 0 q1)))); SReq (TChan 0 (EPass 0 1 (QRequest 0 0 q1)));
   SReq (TChan 0 (DataChannel.ERet 1 ORecv (REvent (QRequest 0 0 q1)))); SHandle 0 0 plain q1 (Some RNullBulk); SRsp (TPublish 0 (PReply 0 0 RNullBulk));
   SRsp (TChan 0 (DataChannel.ECall 1 ORecv)); SRsp (TVisit 0 0 "server" 0); SRsp (TChan 0 (DataChannel.ECall 0 (OSend (PReply 0 0 RNullBulk)))); SRsp (TChan 0 (EPut 0 (PReply 0 0 RNullBulk)));
   SRsp (TChan 0 (ETake 1 (PReply 0 0 RNullBulk))); SRsp (TChan 0 (DataChannel.ERet 1 ORecv (REvent (PReply 0 0 RNullBulk)))); SWrite 0 3 0 RNullBulk;
   SConn 0 (Conn.ERet 2 ORead Conn.RErrClosed); SConn 0 (Conn.EWin 4); SConn 0 (Conn.EOut 4 close_message)].
Definition after_one (others : nat -> bytes) : nat -> bytes := fun c => match c with 0 => encode q1 | _ => others c end.
Lemma leaving others : exists s, runs true new_db (after_one others) leaves s /\ silent s /\ s_stop s = XNone.
Proof.
  eexists. split.
  - unfold runs, leaves. simp. srv accept.
    srv read_call with (eapply (Conn.call _ 1); side). cont 0 (reset_r _ 1). cont 0 (r_obj _ 1). say (eapply read_; [side|side|simp; eapply (Conn.ret_ _ 1); side|side]).
    srv publish with (eapply Topic.publish; simp; side). srv read_call with (eapply (Conn.call _ 2); side). cont 0 (reset_r _ 2).
    srv eng_call with recv_call. rqct (r_open _ 1). rqt (range _ 0). rq (visit _ 0 0 "engine" 0). rqsend 0. rqc (s_pass _ 0 1). srv eng_got with recv_ret.
    say (eapply handle_; [side|side|side]). srv eng_reply with (eapply Topic.publish; simp; side).
    srv wrk_call with recv_call. rsct (r_open _ 1). rst (range _ 0). rs (visit _ 0 0 "server" 0). rssend 0. rsc (s_put _ 0). rsc (r_take _ 1). srv wrk_got with recv_ret.
    srv wrk_write with (eapply (Conn.call _ 3); side). cont 0 (wr_chk _ 3). cont 0 (r_eof _ 2 4).
    srv read_err with (eapply (Conn.ret_ _ 2); side). cont 0 (r_chk _ 4). con 0 (Conn.x_win _ 4).
    say (eapply (conn_act _ _ 0); [side|side|side|simp; eapply (Conn.x_msg _ 4); simp; first [exists []; reflexivity|side]]). cont 0 (Conn.x_tcp _ 4). cont 0 (Conn.x_chan _ 4). cont 0 (Conn.w_closed _).
    apply exec_start.
  - split; [|reflexivity]. exists 0, 3, 0, RNullBulk. split; [reflexivity|]. split; [|reflexivity]. right. eexists. reflexivity.
Qed.
(* C65 is false: from then on nothing is written to any client, whatever happens. *)
Theorem C65_silenced_refuted : forall others, exists s, runs true new_db (after_one others) leaves s /\
  forall cl tr s', exec (step cl) s tr s' -> s_wrk s' <> WOver /\ forall c i k r, ~ In (SWrite c i k r) tr.
Proof. intros others. destruct (leaving others) as (s & R & S & _). exists s. split; [exact R|]. intros cl. exact (silent_forever cl s S). Qed.
Print Assumptions C65_silenced_refuted.
(* What holds: as long as nobody began to close the connection it writes to, the response worker
   has finished with this client, or can finish. *)
Theorem C65_worker_goes_on_partial : forall cl d input tr s c i k r, runs cl d input tr s -> s_crash s = false ->
  ~ In (SConn c Conn.ETimer) tr -> (forall j, ~ In (SConn c (Conn.EWin j)) tr) -> In (SWrite c i k r) tr ->
  (exists x, In (SConn c (Conn.ERet i (OWrite (encode r)) x)) tr) \/
  exists x s', runs cl d input (tr ++ [SConn c (Conn.ERet i (OWrite (encode r)) x)]) s' /\ s_wrk s' = WIdle.
Proof. exact worker_goes_on. Qed.
Print Assumptions C65_worker_goes_on_partial.
Example C65_ex : (exists s, runs true new_db (after_one (fun _ => [])) (firstn 19 leaves) s /\ s_crash s = false) /\ ~ In (SConn 0 Conn.ETimer) (firstn 19 leaves) /\
  (forall j, ~ In (SConn 0 (Conn.EWin j)) (firstn 19 leaves)) /\ In (SWrite 0 3 0 RNullBulk) (firstn 19 leaves).
Proof.
  split; [|split; [|split]].
  - destruct (C65_silenced_refuted (fun _ => [])) as (s & R & _). unfold runs in R. change leaves with (firstn 19 leaves ++ SConn 0 (Conn.ERet 2 ORead Conn.RErrClosed) :: skipn 20 leaves) in R.
    destruct (exec_split _ _ _ _ _ _ R) as (s1 & s2 & R1 & [C _] & _). exists s1. auto.
  - cbn. intuition discriminate.
  - cbn. intros j. intuition discriminate.
  - cbn. auto 30.
Qed.

(* C66: no request read after a stop has begun is executed. *)
Theorem C66_not_executed : forall cl d input x p y s c i k q, runs cl d input (x ++ SReq (TPublish p QGone) :: y) s -> In (SRead c i k q) y ->
  forall e q' o, ~ In (SHandle c k e q' o) (x ++ SReq (TPublish p QGone) :: y).
Proof. exact read_late. Qed.
Print Assumptions C66_not_executed.
(* But C66 is false of the rest: a request that was executed before is never answered, and its
   connection is open when the stop is over. *)
Definition stopped : list event :=
  [SAccept 0; SConn 0 (Conn.ECall 1 ORead); SRead 0 1 0 q0; SReq (TPublish 0 (QRequest 0 0 q0)); SConn 0 (Conn.ECall 2 ORead);
   SReq (TChan 0 (DataChannel.ECall 1 ORecv)); SReq (TVisit 0 0 "engine" 0); SReq (TChan 0 (DataChannel.ECall 0 (OSend (QRequest 0 0 q0)))); SReq (TChan 0 (EPass 0 1 (QRequest 0 0 q0)));
   SReq (TChan 0 (DataChannel.ERet 1 ORecv (REvent (QRequest 0 0 q0)))); SHandle 0 0 plain q0 (Some (RSimple (bs "OK")));
   SReq (TPublish 1 QGone); SReq (TVisit 1 1 "engine" 0); SReq (TChan 0 (DataChannel.ECall 2 (OSend QGone))); SReq (TChan 0 (DataChannel.ERet 2 (OSend QGone) RExpired)); SReq (TResult 1 0);
   SRsp (TPublish 0 PGone); SRsp (TVisit 0 0 "server" 0); SRsp (TChan 0 (DataChannel.ECall 0 (OSend PGone))); SRsp (TChan 0 (EPut 0 PGone)); SRsp (TChan 0 (DataChannel.ERet 0 (OSend PGone) RSuccess)); SRsp (TResult 0 1);
   SRead 0 2 1 q1].
Theorem C66_not_answered_refuted : exists s, runs true new_db pipelined stopped s /\ s_stop s = XDone /\ In (SHandle 0 0 plain q0 (Some (RSimple (bs "OK")))) stopped /\
  c_flag (s_conn s 0) = false /\ c_tcp (s_conn s 0) = true /\
  forall tr s', exec (step true) s tr s' -> forall i r, ~ In (SWrite 0 i 0 r) (stopped ++ tr).
Proof.
  assert (exists s, runs true new_db pipelined stopped s /\ s_stop s = XDone /\ c_flag (s_conn s 0) = false /\ c_tcp (s_conn s 0) = true /\ s_rsps s = false) as (s & R & S & F & T & G).
  { eexists. split; [|repeat split; shelve].
    unfold runs, stopped. simp. srv accept.
    srv read_call with (eapply (Conn.call _ 1); side). cont 0 (reset_r _ 1). cont 0 (r_obj _ 1). say (eapply read_; [side|side|simp; eapply (Conn.ret_ _ 1); side|side]).
    srv publish with (eapply Topic.publish; simp; side). srv read_call with (eapply (Conn.call _ 2); side). cont 0 (reset_r _ 2).
    srv eng_call with recv_call. rqct (r_open _ 1). rqt (range _ 0). rq (visit _ 0 0 "engine" 0). rqsend 0. rqc (s_pass _ 0 1). srv eng_got with recv_ret.
    say (eapply handle_; [side|side|side]).
    srv stop_req with (eapply Topic.publish; simp; side). rqt (range _ 1). rq (visit _ 1 1 "engine" 0). rqsend 1. rqct (s_expired _ 2). rqsent 1. rqt (g_done _ 1). rqt (range_end _ 1). rqt (wait_over _ 1). rq (result_ _ 1).
    srv stop_rsp with (eapply Topic.publish; simp; side). rst (range _ 0). rs (visit _ 0 0 "server" 0). rssend 0. rsc (s_put _ 0). rssent 0. rst (g_add _ 0). rst (g_done _ 0). rst (range_end _ 0). rst (wait_over _ 0). rs (result_ _ 0).
    hush (apply mv; [side|eapply stop_shut; simp; side]). hush (apply mv; [side|eapply stop_flush; simp; side]). hush (apply mv; [side|eapply stop_engine; simp; side]). hush (apply mv; [side|eapply eng_reply_gone; simp; side]).
    cont 0 (r_obj _ 2). say (eapply read_; [side|side|simp; eapply (Conn.ret_ _ 2); side|side]).
    apply exec_start.
    Unshelve. all: reflexivity. }
  exists s. split; [exact R|]. split; [exact S|]. split; [cbn; auto 20|]. split; [exact F|]. split; [exact T|].
  apply (reply_dropped true new_db pipelined stopped s 0 0 R G). intros p r H. cbn in H. intuition discriminate.
Qed.
Print Assumptions C66_not_answered_refuted.
Example C66_ex : (exists s, runs true new_db pipelined (firstn 11 stopped ++ SReq (TPublish 1 QGone) :: skipn 12 stopped) s) /\ In (SRead 0 2 1 q1) (skipn 12 stopped).
Proof. split; [destruct C66_not_answered_refuted as (s & R & _); exists s; exact R|cbn; auto 20]. Qed.
