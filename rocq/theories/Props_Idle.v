(* C98: what is left of a server that has nothing to do. *)
From Coq Require Import List Arith Bool String ZArith Lia.
From Verif Require Import Base Lts Resp RequestSpec Engine EngineProofs Db DataChannel Topic Conn Server ServerSpec ServerProofs ServerRuns ProgressProofs Props_Server Props_Progress BoundSpec BoundProofs RestSpec RestProofs FuelProofs Props_Rest IdleSpec IdleProofs.
From Verif Require ProcessProofs.
Import ListNotations.
Local Open Scope nat_scope.
Local Open Scope string_scope.
Local Open Scope list_scope.

(* When the server has no step of its own left (and has not crashed, been told to stop, or its
   response worker got stuck, C65), every goroutine that is there waits as [idles] says: no
   publication, no send, no closer is left over, and no event lies in a channel. *)
Theorem C98_idle : forall cl h d rs input tr s, run new_db h = Ret (d, rs) -> runs cl d input tr s -> rests cl s -> s_crash s = false -> s_stop s = XNone -> ~ blocked s ->
  Forall (fun x => env_ok (fst x)) (h ++ turns tr) -> (forall c i k q, In (SRead c i k q) tr -> requests_size (map snd (h ++ turns tr) ++ [q]) < 2 ^ 62)%Z ->
  (forall x, here s x -> idles tr s x) /\ d_buf (t_ch (s_req s) 0) = [] /\ d_buf (t_ch (s_rsp s) 0) = [].
Proof.
  intros cl h d rs input tr s Hd R Z C X B F S. apply (at_idle cl d input plain tr s R Z C X).
  - intros c' i' k' r' b' W P. destruct (c_pc (s_conn s c') 0) eqn:Q; try reflexivity; exfalso; apply B; exists c', i', k', r', b'; rewrite Q; (split; [exact W|]; split; [exact P|discriminate]).
  - intros c' k' q' E. destruct (ProcessProofs.has_read _ _ _ _ _ _ _ _ R E) as [i1 H1]. apply (never_fuel h d rs _ _ plain q' Hd (runs_turn _ _ _ _ _ R)).
    + fold (turns tr). rewrite app_assoc. apply Forall_app. split; [exact F|]. constructor; [exact plain_env|constructor].
    + fold (turns tr). rewrite app_assoc, map_app. exact (S _ _ _ _ H1).
Qed.
Print Assumptions C98_idle.
(* So there are the engine, the response worker, and at most two goroutines for each connection
   ever accepted; ... *)
Theorem C98_count : forall cl h d rs input tr s, run new_db h = Ret (d, rs) -> runs cl d input tr s -> rests cl s -> s_crash s = false -> s_stop s = XNone -> ~ blocked s ->
  Forall (fun x => env_ok (fst x)) (h ++ turns tr) -> (forall c i k q, In (SRead c i k q) tr -> requests_size (map snd (h ++ turns tr) ++ [q]) < 2 ^ 62)%Z ->
  here s GoEngine /\ here s GoWorker /\ (forall x, here s x -> In x (lasting (accepted tr))) /\ List.length (lasting (accepted tr)) = 2 + 2 * List.length (accepted tr).
Proof.
  intros cl h d rs input tr s Hd R Z C X B F S. destruct (C98_idle cl h d rs input tr s Hd R Z C X B F S) as (Q & _ & _).
  split; [exact (eng_there _ _ _ _ _ R X)|]. split; [exact (wrk_there _ _ _ _ _ R X)|]. split; [intros x H; exact (here_accepted _ _ _ _ _ _ R H (Q _ H))|].
  unfold lasting. cbn [List.length]. f_equal. f_equal. induction (accepted tr) as [|c l IH]; [reflexivity|]. cbn. cbn in IH. lia.
Qed.
Print Assumptions C98_count.
(* ... a connection the server has closed is closed for the peer too, and of its goroutines at
   most the reader is left, and that only if it called Read after the expiry worker had gone. *)
Theorem C98_closed : forall cl h d rs input tr s c, run new_db h = Ret (d, rs) -> runs cl d input tr s -> rests cl s -> s_crash s = false -> s_stop s = XNone -> ~ blocked s ->
  Forall (fun x => env_ok (fst x)) (h ++ turns tr) -> (forall c i k q, In (SRead c i k q) tr -> requests_size (map snd (h ++ turns tr) ++ [q]) < 2 ^ 62)%Z ->
  closed_by_us tr c -> c_tcp (s_conn s c) = false /\ ~ here s (GoExpiry c) /\ forall i, ~ here s (GoCloser c i).
Proof.
  intros cl h d rs input tr s c Hd R Z C X B F S W. destruct (C98_idle cl h d rs input tr s Hd R Z C X B F S) as (Q & _ & _). split; [|split].
  - eapply idle_closed; try eassumption. destruct (Q GoWorker (wrk_there _ _ _ _ _ R X)) as (j & E & _). eauto.
  - intros H. exact (proj2 (Q _ H) W).
  - intros i H. exact (Q _ H).
Qed.
Print Assumptions C98_closed.
(* The server that has answered one request: four goroutines. *)
Example C98_ex : exists s, runs true new_db (one q1) answered s /\ rests true s /\ accepted answered = [0] /\ here s (GoReader 0) /\ here s (GoExpiry 0) /\ here s GoEngine /\ here s GoWorker /\
  (exists h rs, run new_db h = Ret (new_db, rs) /\ s_crash s = false /\ s_stop s = XNone /\ ~ blocked s /\
  Forall (fun x => env_ok (fst x)) (h ++ turns answered) /\ (forall c i k q, In (SRead c i k q) answered -> requests_size (map snd (h ++ turns answered) ++ [q]) < 2 ^ 62)%Z).
Proof.
  destruct C85_ex as (s & R & Q & C & X & B & F & S & _). exists s. split; [exact R|]. split; [exact Q|]. split; [reflexivity|].
  assert (run new_db [] = Ret (new_db, [])) as Hd by reflexivity. destruct (C98_idle true [] new_db [] (one q1) answered s Hd R Q C X B F S) as (I & _).
  destruct (runs_parts _ _ _ _ _ R) as (_ & _ & PC). destruct (reads_bound _ _ _ _ _ R) as (_ & A & _). assert (N : s_rd s 0 <> RNone) by (intros Y; apply A in Y; apply Y; left; reflexivity).
  split; [split; [exact N|]|split; [split; [exact N|]|]].
  - intros Y. destruct (over_ret _ _ _ _ _ _ R Y) as (i & x & H). cbn in H. intuition discriminate.
  - intros Y. pose proof (WaitConn.worker_gone _ _ (PC 0)) as G. rewrite Y in G. apply won_conn in G as [i H]. cbn in H. intuition discriminate.
  - split; [exact (eng_there _ _ _ _ _ R X)|]. split; [exact (wrk_there _ _ _ _ _ R X)|]. exists [], []. split; [exact Hd|]. split; [exact C|]. split; [exact X|]. split; [exact B|]. split; [exact F|exact S].
Qed.

(* But the reader of a closed connection may be left behind for good: it was handing over a
   request when the timer of its connection fired; it then waits in Read to tell the expiry
   worker, which is gone, that it is alive, whatever happens. *)
Definition too_late : list event := [
  SAccept 0; SConn 0 (Conn.ECall 1 ORead); SRead 0 1 0 q1; SConn 0 Conn.ETimer; SConn 0 (EWin 0); SConn 0 (EOut 0 close_message); SReq (TPublish 0 message); SConn 0 (Conn.ECall 2 ORead)].
Theorem C98_left_refuted : exists s, runs true new_db (one q1) too_late s /\ closed_by_us too_late 0 /\ c_tcp (s_conn s 0) = false /\
  forall tr s', exec (step true) s tr s' -> here s' (GoReader 0).
Proof.
  assert (R : exists s, runs true new_db (one q1) too_late s /\ c_tcp (s_conn s 0) = false /\ left_behind s 0).
  { eexists. split.
    { unfold runs, too_late, message. simp. srv accept. srv read_call with (eapply (Conn.call _ 1); side). cont 0 (reset_r _ 1). cont 0 (r_obj _ 1). say (eapply read_; [side|side|simp; eapply (ret_ _ 1); side|side]).
      con 0 (w_timer). con 0 (x_win _ 0). say (eapply (conn_act _ _ 0); [side|side|side|simp; eapply (Conn.x_msg _ 0); simp; first [exists []; reflexivity|side]]). cont 0 (x_tcp _ 0). cont 0 (x_chan _ 0).
      srv publish with (eapply Topic.publish; simp; side). srv read_call with (eapply (Conn.call _ 2); side). apply exec_start. }
    split; [reflexivity|]. exists 1, 2. repeat split. }
  destruct R as (s & R & T & B). exists s. split; [exact R|]. split; [exists 0; cbn; tauto|]. split; [exact T|]. intros tr s' E. destruct (behind_exec _ _ _ _ _ B E) as (k & i & Y & _). split; rewrite Y; discriminate.
Qed.
Print Assumptions C98_left_refuted.
(* And a connection nobody reads any more may be open: a request that is not understood ends the
   reader, and the connection stays open until its timer fires. *)
Definition not_understood : list event := [SAccept 0; SConn 0 (Conn.ECall 1 ORead); SConn 0 (Conn.ERet 1 ORead Conn.RErr); SReq (TChan 0 (DataChannel.ECall 1 ORecv)); SRsp (TChan 0 (DataChannel.ECall 1 ORecv))].
Theorem C98_open_refuted : exists s, runs true new_db (fun _ => bs "?") not_understood s /\ rests true s /\ (exists e, parse (bs "?") = PErr e) /\
  ~ here s (GoReader 0) /\ here s (GoExpiry 0) /\ c_tcp (s_conn s 0) = true.
Proof.
  eexists. split.
  { unfold runs, not_understood. simp. srv accept. srv read_call with (eapply (Conn.call _ 1); side). cont 0 (reset_r _ 1). cont 0 (r_err _ 1). srv read_err with (eapply (ret_ _ 1); side).
    srv eng_call with recv_call. rqct (r_open _ 1). srv wrk_call with recv_call. rsct (r_open _ 1). apply exec_start. }
  split; [|split; [|split; [|split]]].
  - apply quiet_rests; simp.
    + reflexivity.
    + split; [reflexivity|]. split; [reflexivity|]. split; [intros p; cbn; auto|]. split; [intros g; cbn; eauto|]. intros [|[|i]]; cbn; auto.
    + split; [reflexivity|]. split; [reflexivity|]. split; [intros p; cbn; auto|]. split; [intros g; cbn; eauto|]. intros [|[|i]]; cbn; auto.
    + intros [|c]; (split; [reflexivity|]); [intros [|[|i]]; cbn; auto|intros [|i]; cbn; auto].
    + eauto.
    + eauto.
    + intros [|c]; cbn; eauto.
  - eexists. vm_compute. reflexivity.
  - intros [_ Y]. now apply Y.
  - split; discriminate.
  - reflexivity.
Qed.
Print Assumptions C98_open_refuted.
