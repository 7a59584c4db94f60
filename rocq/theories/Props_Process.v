(* C67: the log and the end of the process. *)
From Coq Require Import List Arith Bool String ZArith Permutation.
From Verif Require Import Base Lts Resp Command Db Engine Log LogSpec Persist PersistSpec Recovery DataChannel Topic Conn Server ServerSpec ServerRuns Props_Server Process ProcessProofs StopOrderProofs.
Import ListNotations.
Local Open Scope nat_scope.
Local Open Scope string_scope.
Local Open Scope list_scope.

(* The file holds a beginning of the records written to it, in their order, after what it held
   before. *)
Theorem C67_file_prefix : forall cl d input f tr x, Process.runs cl d input f tr x -> begins (p_file (x_file x)) (f ++ List.concat (map pack (logged tr))).
Proof. exact file_prefix. Qed.
Print Assumptions C67_file_prefix.
(* And all that was written before a flush, if no write failed. *)
Theorem C67_flushed_partial : forall cl d input f y z x, Process.runs cl d input f (y ++ XFlush :: z) x -> p_err (x_file x) = false ->
  begins (f ++ List.concat (map pack (logged y))) (p_file (x_file x)).
Proof. exact flushed. Qed.
Print Assumptions C67_flushed_partial.
(* The records written are those of the requests read, except some that are still to be written,
   and those that cannot be packed. *)
Theorem C67_records_kept : forall cl d input f tr x, Process.runs cl d input f tr x ->
  exists dropped, Permutation (spawned tr) (logged tr ++ x_pend x ++ dropped) /\ Forall (fun v => pack_log v = None) dropped.
Proof. exact records_kept. Qed.
Print Assumptions C67_records_kept.
Theorem C67_record_read : forall cl d input f y c k q v z x, Process.runs cl d input f (y ++ XSpawn c k q v :: z) x ->
  (exists i, In (XSrv (SRead c i k q)) y) /\ exists t, log_of t q = Some v.
Proof. exact spawn_read. Qed.
Print Assumptions C67_record_read.
Definition recorded (tr : list Process.event) : list (nat * nat) := flat_map (fun a => match a with XSpawn c k _ _ => [(c, k)] | _ => [] end) tr.
Theorem C67_record_once : forall cl d input f tr x, Process.runs cl d input f tr x -> NoDup (recorded tr).
Proof. exact spawn_once. Qed.
Print Assumptions C67_record_once.
Theorem C67_executed_recorded : forall cl d input f tr x c k e q o t v, Process.runs cl d input f tr x -> In (XSrv (SHandle c k e q o)) tr -> log_of t q = Some v ->
  exists v', before tr (XSpawn c k q v') (XSrv (SHandle c k e q o)).
Proof. exact handled_spawned. Qed.
Print Assumptions C67_executed_recorded.
(* The process ends by itself only after a stop was asked for. *)
Theorem C67_exit_after_stop : forall cl d input f tr x, Process.runs cl d input f tr x -> In XExit tr -> exists p, In (XSrv (SReq (TPublish p QGone))) tr.
Proof. exact exit_after_stop. Qed.
Print Assumptions C67_exit_after_stop.
(* ... whose parts have been done in order: the engine's subscription is removed, then the server's,
   each after the one before has been carried out, ... *)
Theorem C67_exit_order : forall cl d input f tr x, Process.runs cl d input f tr x -> In XExit tr -> exists p n p' n',
  before tr (XSrv (SReq (TPublish p QGone))) (XSrv (SReq (TResult p n))) /\ before tr (XSrv (SReq (TResult p n))) (XSrv (SRsp (TPublish p' PGone))) /\
  before tr (XSrv (SRsp (TPublish p' PGone))) (XSrv (SRsp (TResult p' n'))) /\ before tr (XSrv (SRsp (TResult p' n'))) XExit.
Proof. exact exit_order. Qed.
Print Assumptions C67_exit_order.
(* ... and does not cut off a reply that is being written. *)
Theorem C67_exit_replies : forall cl d input f tr x, Process.runs cl d input f tr x -> In XExit tr ->
  forall c i k r, In (XSrv (SWrite c i k r)) tr -> exists y, In (XSrv (SConn c (Conn.ERet i (Conn.OWrite (encode r)) y))) tr.
Proof. exact exit_replies. Qed.
Print Assumptions C67_exit_replies.

(* C67 is false: a client is told that its SET was done, its record is written, the server is
   stopped, and the process ends with nothing in the file. *)
Definition OK : robj := RSimple (bs "OK").
Definition rec0 : vlog := new_log (bs "id") 0%Z (bs "host") (bs "SET") 1%Z (map (fun s => RBulk (bs s)) ["SET"; "a"; "1"]).
Definition asked : list Server.event :=
  [SAccept 0; SConn 0 (Conn.ECall 1 ORead); SRead 0 1 0 q0; SReq (TPublish 0 (QRequest 0 0 q0)); SConn 0 (Conn.ECall 2 ORead);
   SReq (TChan 0 (DataChannel.ECall 1 ORecv)); SReq (TVisit 0 0 "engine" 0); SReq (TChan 0 (DataChannel.ECall 0 (OSend (QRequest 0 0 q0)))); SReq (TChan 0 (EPass 0 1 (QRequest 0 0 q0)));
   SReq (TChan 0 (DataChannel.ERet 1 ORecv (REvent (QRequest 0 0 q0))))].
Definition told : list Server.event :=
  [SRsp (TPublish 0 (PReply 0 0 OK)); SRsp (TChan 0 (DataChannel.ECall 1 ORecv)); SRsp (TVisit 0 0 "server" 0); SRsp (TChan 0 (DataChannel.ECall 0 (OSend (PReply 0 0 OK))));
   SRsp (TChan 0 (EPut 0 (PReply 0 0 OK))); SRsp (TChan 0 (ETake 1 (PReply 0 0 OK))); SRsp (TChan 0 (DataChannel.ERet 1 ORecv (REvent (PReply 0 0 OK)))); SWrite 0 3 0 OK;
   SConn 0 (Conn.EOut 3 (encode OK)); SConn 0 (Conn.ERet 3 (OWrite (encode OK)) ROk)].
Definition ended : list Server.event :=
  [SReq (TPublish 1 QGone); SReq (TVisit 1 1 "engine" 0); SReq (TChan 0 (DataChannel.ECall 2 (OSend QGone))); SReq (TChan 0 (DataChannel.ERet 2 (OSend QGone) RExpired)); SReq (TResult 1 0);
   SRsp (TChan 0 (DataChannel.ECall 3 ORecv)); SRsp (TPublish 1 PGone); SRsp (TVisit 1 1 "server" 0); SRsp (TChan 0 (DataChannel.ECall 2 (OSend PGone))); SRsp (TChan 0 (EPut 2 PGone)); SRsp (TChan 0 (ETake 3 PGone));
   SRsp (TChan 0 (DataChannel.ERet 3 ORecv (REvent PGone))); SRsp (TChan 0 (DataChannel.ERet 2 (OSend PGone) RSuccess)); SRsp (TResult 1 1)].
Definition lost : list Process.event :=
  map XSrv asked ++ [XSpawn 0 0 q0 rec0] ++ [XSrv (SHandle 0 0 plain q0 (Some OK))] ++ map XSrv told ++ [XLog rec0] ++ map XSrv ended ++ [XExit].
(* The run up to the record, for this and the example. *)
Ltac to_log :=
  eapply exec_app;
  [eapply lift; [unfold asked; simp; srv accept;
     (srv read_call with (eapply (Conn.call _ 1); side)); cont 0 (reset_r _ 1); cont 0 (r_obj _ 1); (say (eapply read_; [side|side|simp; eapply (Conn.ret_ _ 1); side|side]));
     (srv publish with (eapply Topic.publish; simp; side)); (srv read_call with (eapply (Conn.call _ 2); side)); cont 0 (reset_r _ 2);
     (srv eng_call with recv_call); rqct (r_open _ 1); rqt (range _ 0); rq (visit _ 0 0 "engine" 0); rqsend 0; rqc (s_pass _ 0 1); (srv eng_got with recv_ret); apply exec_start|shelve|shelve]|];
  eapply exec_app; [eapply (exec_act _ _ []); [apply exec_start|]; eapply (spawn _ _ _ _ _ _ _ _ (mkStamp (bs "id") 0%Z (bs "host"))); side|];
  eapply exec_app; [eapply (exec_act _ _ []); [apply exec_start|]; apply (srv_handle _ _ (Some (SHandle 0 0 plain q0 (Some OK)))); [|exact I]; eapply handle_; side|];
  eapply exec_app;
  [eapply lift; [unfold told; simp; (srv eng_reply with (eapply Topic.publish; simp; side));
     (srv wrk_call with recv_call); rsct (r_open _ 1); rst (range _ 0); rs (visit _ 0 0 "server" 0); rssend 0; rsc (s_put _ 0); rsc (r_take _ 1); (srv wrk_got with recv_ret);
     (srv wrk_write with (eapply (Conn.call _ 3); side)); cont 0 (wr_chk _ 3); cont 0 (reset_w _ 3); con 0 (wr_all _ 3); (srv wrk_done with (eapply (Conn.ret_ _ 3); side)); apply exec_start|shelve|shelve]|];
  eapply exec_app; [eapply (exec_act _ _ []); [apply exec_start|]; eapply (logs _ _ _ [] rec0 [] _ _ _ []); [side|vm_compute; reflexivity|vm_compute; reflexivity]|].
Theorem C67_lost_refuted : exists x, Process.runs true new_db pipelined [] lost x /\ In (XSrv (SConn 0 (Conn.EOut 3 (encode OK)))) lost /\
  logged lost = [rec0] /\ x_gone x = true /\ x_pend x = [] /\ p_file (x_file x) = [].
Proof.
  eexists. split; [|split; [|split; [|split; [|split]]]].
  - unfold Process.runs, start, lost.
    to_log.
    eapply exec_app.
    { eapply lift; [|shelve|shelve]. unfold ended. simp.
      srv stop_req with (eapply Topic.publish; simp; side). rqt (range _ 1). rq (visit _ 1 1 "engine" 0). rqsend 1. rqct (s_expired _ 2). rqsent 1. rqt (g_done _ 1). rqt (range_end _ 1). rqt (wait_over _ 1). rq (result_ _ 1).
      srv wrk_call with recv_call. rsct (r_open _ 3). srv stop_rsp with (eapply Topic.publish; simp; side). rst (range _ 1). rs (visit _ 1 1 "server" 0). rssend 1. rsc (s_put _ 2). rsc (r_take _ 3). srv wrk_got with recv_ret.
      rssent 1. rst (g_add _ 1). rst (g_done _ 1). rst (range_end _ 1). rst (wait_over _ 1). rs (result_ _ 1). hush (apply mv; [side|eapply stop_shut; simp; side]). apply exec_start. }
    eapply exec_cons_tau; [eapply accept_ends; side|]. eapply (exec_act _ _ []); [apply exec_start|]. eapply exits; side.
    Unshelve. all: try discriminate. all: cbn; intuition discriminate.
  - cbn. auto 60.
  - reflexivity.
  - reflexivity.
  - reflexivity.
  - reflexivity.
Qed.
Print Assumptions C67_lost_refuted.
Example C67_ex : exists x, Process.runs true new_db pipelined [] ((map XSrv asked ++ [XSpawn 0 0 q0 rec0] ++ [XSrv (SHandle 0 0 plain q0 (Some OK))] ++ map XSrv told ++ [XLog rec0]) ++ XFlush :: []) x /\
  p_err (x_file x) = false /\ log_of (mkStamp [] 0%Z []) q0 <> None.
Proof.
  eexists. split; [|split; [|vm_compute; discriminate]].
  - unfold Process.runs, start. rewrite <- !app_assoc. to_log. eapply (exec_act _ _ []); [apply exec_start|]. eapply (flushes _ _ _ _ _ _ []); [side|vm_compute; reflexivity].
    Unshelve. all: try discriminate. all: cbn; intuition discriminate.
  - reflexivity.
Qed.
Example C67_lost_ex : In XExit lost /\ In (XSrv (SWrite 0 3 0 OK)) lost.
Proof. split; unfold lost; rewrite !in_app_iff; cbn; auto 20. Qed.
