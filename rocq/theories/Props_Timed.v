(* C99: a server whose own work takes no time. *)
From Coq Require Import List Arith Bool String ZArith Lia.
From Verif Require Import Base Lts Resp RequestSpec Engine EngineProofs Db DataChannel Topic Conn Server ServerSpec ServerProofs ServerRuns ProgressProofs Props_Server Props_Progress BoundSpec BoundProofs RestSpec RestProofs Props_Rest IdleSpec IdleProofs Props_Idle Timed TimedSpec TimedProofs.
From Verif Require ConnProofs WaitConn.
Import ListNotations.
Local Open Scope nat_scope.

(* With a clock the server does nothing it could not do without one. *)
Theorem C99_runs : forall cl ttl wait d input tr x, Timed.runs cl ttl wait d input tr x -> Server.runs cl d input (acts tr) (x_srv x) /\ x_now x = ticks tr.
Proof. exact timed_runs. Qed.
Print Assumptions C99_runs.
(* No request and no reply is given up, ... *)
Theorem C99_kept : forall cl ttl wait h d rs input tr x, run new_db h = Ret (d, rs) -> 0 < wait -> Timed.runs cl ttl wait d input tr x -> well h (acts tr) (x_srv x) ->
  (forall j e, ~ In (SReq (TChan 0 (DataChannel.ERet j (OSend e) RExpired))) (acts tr)) /\ forall j e, ~ In (SRsp (TChan 0 (DataChannel.ERet j (OSend e) RExpired))) (acts tr).
Proof. intros cl ttl wait h d rs input tr x Hd Hw T W. exact (proj2 (never_expires cl ttl wait h d rs input Hd Hw tr x T W)). Qed.
Print Assumptions C99_kept.
(* ... every array request is answered at the time at which it was read, ... *)
Theorem C99_answered : forall cl ttl wait h d rs input tr x m c i k l, run new_db h = Ret (d, rs) -> 0 < wait -> Timed.runs cl ttl wait d input tr x -> well h (acts tr) (x_srv x) ->
  happened tr m (SRead c i k (RArr l)) -> m < x_now x -> exists i' r, happened tr m (SWrite c i' k r).
Proof. intros cl ttl wait h d rs input tr x m c i k l Hd Hw. exact (answered_at_once cl ttl wait h d rs input Hd Hw tr x m c i k l). Qed.
Print Assumptions C99_answered.
(* ... so of two requests read at different times, on one or two connections, the first is
   answered before the second is read, and handled first (but see C44 for one time), ... *)
Theorem C99_in_order : forall cl ttl wait h d rs input tr x m m' c i k l c' i' k' q', run new_db h = Ret (d, rs) -> 0 < wait -> Timed.runs cl ttl wait d input tr x -> well h (acts tr) (x_srv x) ->
  happened tr m (SRead c i k (RArr l)) -> happened tr m' (SRead c' i' k' q') -> m < m' ->
  exists j r, before (acts tr) (SWrite c j k r) (SRead c' i' k' q') /\ forall e' o', In (SHandle c' k' e' q' o') (acts tr) -> exists e q, before (acts tr) (SHandle c k e q (Some r)) (SHandle c' k' e' q' o').
Proof. intros cl ttl wait h d rs input tr x m m' c i k l c' i' k' q' Hd Hw. exact (in_order cl ttl wait h d rs input Hd Hw tr x m m' c i k l c' i' k' q'). Qed.
Print Assumptions C99_in_order.
(* ... the timer of a connection fires only if it has been [ttl] since the last sign of life (or
   at the very time of one), ... *)
Theorem C99_expiry : forall cl ttl wait h d rs input a b x c m z, run new_db h = Ret (d, rs) ->
  Timed.runs cl ttl wait d input (a ++ Act (SConn c Conn.ETimer) :: b) x -> well h (acts (a ++ Act (SConn c Conn.ETimer) :: b)) (x_srv x) ->
  happened a m z -> alive c z -> m = ticks a \/ m + ttl <= ticks a.
Proof. intros cl ttl wait h d rs input a b x c m z Hd. exact (fires_in_time cl ttl wait h d rs input Hd a b x c m z). Qed.
Print Assumptions C99_expiry.
(* ... and a connection that is not closed has shown a sign of life in the last [ttl]. *)
Theorem C99_closed : forall cl ttl wait h d rs input tr x c, run new_db h = Ret (d, rs) -> Timed.runs cl ttl wait d input tr x -> well h (acts tr) (x_srv x) ->
  In (SAccept c) (acts tr) -> ~ closed_by_us (acts tr) c -> exists m a, alive c a /\ happened tr m a /\ x_now x <= m + ttl.
Proof. intros cl ttl wait h d rs input tr x c Hd. exact (closed_in_time cl ttl wait h d rs input Hd tr x c). Qed.
Print Assumptions C99_closed.
(* The clock stops nothing: whatever the server can do of its own it can do at once, ... *)
Theorem C99_at_once : forall cl ttl wait d input tr x l s', Timed.runs cl ttl wait d input tr x -> own cl (x_srv x) l s' -> exists x', Timed.step cl ttl wait x (option_map Act l) x' /\ x_srv x' = s'.
Proof. exact own_now. Qed.
Print Assumptions C99_at_once.
(* ... and when there is nothing (which comes about, C85) a timer is due or time goes on. *)
Theorem C99_goes_on : forall cl ttl wait d input tr x, Timed.runs cl ttl wait d input tr x -> rests cl (x_srv x) -> s_crash (x_srv x) = false ->
  (exists c x', Timed.step cl ttl wait x (Some (Act (SConn c Conn.ETimer))) x') \/ exists x', Timed.step cl ttl wait x (Some Tick) x'.
Proof. exact goes_on. Qed.
Print Assumptions C99_goes_on.

(* One request is answered, nothing more comes; when the time is over the connection is closed,
   although the server is in a Read on it: a Read that waits does not keep it open. *)
Definition idled (ttl : nat) : list Timed.event := map Act answered ++ repeat Tick ttl ++ [Act (SConn 0 Conn.ETimer)].
Lemma acts_idled ttl : acts (idled ttl) = answered ++ [SConn 0 Conn.ETimer].
Proof.
  assert (A : forall l, acts (map Act l) = l) by (induction l as [|a l IH]; [reflexivity|unfold acts in *; cbn; now rewrite IH]). assert (B : acts (repeat Tick ttl) = []) by (induction ttl as [|n IH]; [reflexivity|exact IH]).
  unfold idled. rewrite !acts_app, A, B. reflexivity.
Qed.
Theorem C99_reading_refuted : forall ttl wait, exists x, Timed.runs true ttl wait new_db (one q1) (idled ttl) x /\ well [] (acts (idled ttl)) (x_srv x) /\
  happened (idled ttl) 0 (SConn 0 (Conn.ECall 2 ORead)) /\ happened (idled ttl) ttl (SConn 0 Conn.ETimer) /\
  (exists i r, happened (idled ttl) 0 (SWrite 0 i 0 r)) /\ (forall r, ~ In (SConn 0 (Conn.ERet 2 ORead r)) (acts (idled ttl))) /\ x_now x = ttl.
Proof.
  intros ttl wait. destruct C85_ex as (s & R & Z & C & X & B & F & S & _). assert (Hd : run new_db [] = Ret (new_db, [])) by reflexivity.
  assert (W : well [] answered s) by (split; [exact C|]; split; [exact X|]; split; [exact B|]; split; [exact F|exact S]).
  destruct (rest_runs true new_db (one q1) _ _ R Z C X) as [E1 E2]. destruct (in_no_time true ttl wait new_db (one q1) answered s R) as (q & p & v & T).
  { split; [intros c H; cbn in H; intuition discriminate|]. split; [intros j e H; cbn in H; intuition discriminate|]. split; [intros j e H; cbn in H; intuition discriminate|]. split; assumption. }
  assert (A : acts (map Act answered) = answered) by reflexivity. assert (W0 : well [] (acts (map Act answered)) s) by (rewrite A; exact W).
  assert (V : forall c, v c = 0) by (intros c; destruct (on_watch true ttl wait [] new_db [] (one q1) Hd c _ _ T W0) as (V & _); cbn in V; lia).
  pose proof (ticks_pass true ttl wait new_db (one q1) _ _ _ _ _ _ ttl T Z ltac:(intros; lia)) as T2. cbn [Nat.add] in T2.
  destruct C98_idle with (1 := Hd) (2 := R) (3 := Z) (4 := C) (5 := X) (6 := B) (7 := F) (8 := S) as (I & _).
  destruct (runs_parts _ _ _ _ _ R) as (_ & _ & PC). destruct (reads_bound _ _ _ _ _ R) as (_ & Ac & _). assert (N : s_rd s 0 <> RNone) by (intros Y; apply Ac in Y; apply Y; left; reflexivity).
  assert (L : c_pc (s_conn s 0) 0 = Conn.PLoop).
  { assert (H : here s (GoExpiry 0)); [|exact (proj1 (I _ H))]. split; [exact N|]. intros Y. pose proof (WaitConn.worker_gone _ _ (PC 0)) as G. rewrite Y in G. apply won_conn in G as [i H]. cbn in H. intuition discriminate. }
  pose proof (Conn.w_timer _ (proj1 (ConnProofs.i_alive _ _ (ConnProofs.runs_inv _ _ (PC 0)))) L) as Sc.
  assert (St : Server.step true s (Some (SConn 0 Conn.ETimer)) (put_conn s 0 (Conn.set_pc (s_conn s 0) 0 (Conn.PCas false)))) by (split; [exact C|exact (conn_free true s 0 (Some Conn.ETimer) _ N Logic.I Sc)]).
  destruct (act_any true ttl wait new_db (one q1) _ _ _ _ ttl q p v R St) as (q' & p' & v' & Y); [intros i (e & P & Q); cbn in Q; congruence|intros i (e & P & Q); cbn in Q; congruence|intros c E; injection E as <-; rewrite V; lia|].
  destruct (I GoWorker (wrk_there _ _ _ _ _ R X)) as (j & Wk & _).
  eexists. split; [|split; [|split; [|split; [|split; [|split]]]]].
  - unfold idled. rewrite app_assoc. exact (exec_act _ _ _ _ _ _ T2 Y).
  - rewrite acts_idled. split; [exact C|]. split; [exact X|]. split; [intros (c & i & k & r & b & Q & _); cbn in Q; congruence|]. split; [exact F|].
    intros c i k q0 H. apply in_snoc in H as [H|H]; [exact (S c i k q0 H)|discriminate].
  - exists (map Act (firstn 4 answered)). eexists. split; reflexivity.
  - exists (map Act answered ++ repeat Tick ttl), []. split; [unfold idled; now rewrite <- app_assoc|]. rewrite ticks_app. change (ticks (map Act answered)) with 0. clear. cbn [Nat.add]. induction ttl as [|n IH]; [reflexivity|]. change (ticks (repeat Tick (S n))) with (S (ticks (repeat Tick n))). now rewrite IH.
  - eexists _, _, (map Act (firstn 23 answered)). eexists. split; reflexivity.
  - intros r H. rewrite acts_idled in H. cbn in H. intuition discriminate.
  - reflexivity.
Qed.
Print Assumptions C99_reading_refuted.

(* A second client, which connects and asks some time after the first has been answered. *)
Definition both : nat -> bytes := fun c => match c with 0 | 1 => encode q1 | _ => [] end.
Definition second : list Server.event := [SAccept 1; SConn 1 (Conn.ECall 1 ORead); SRead 1 1 0 q1].
Definition in_turn (n : nat) : list Timed.event := map Act answered ++ repeat Tick n ++ map Act second.
Lemma answered_both : exists s, Server.runs true new_db both answered s /\ rests true s /\ s_crash s = false /\ s_stop s = XNone /\ (forall c, s_rd s c <> RNone -> c = 0) /\
  exists s', exec (Server.step true) s second s' /\ s_crash s' = false /\ s_stop s' = XNone /\ (forall c i k r, s_wrk s' <> WIn c i k r) /\
  (forall i e, d_pc (t_ch (s_req s') 0) i <> DataChannel.PRet (OSend e) RExpired) /\ (forall i e, d_pc (t_ch (s_rsp s') 0) i <> DataChannel.PRet (OSend e) RExpired).
Proof.
  eexists. split.
  { unfold Server.runs, answered, message, answer. simp. srv accept.
    srv read_call with (eapply (Conn.call _ 1); side). cont 0 (reset_r _ 1). cont 0 (r_obj _ 1). say (eapply read_; [side|side|simp; eapply (ret_ _ 1); side|side]).
    srv publish with (eapply Topic.publish; simp; side).
    srv read_call with (eapply (Conn.call _ 2); side). cont 0 (reset_r _ 2).
    srv eng_call with recv_call. rqct (r_open _ 1). rqt (range _ 0). rq (visit _ 0 0 "engine" 0). rqsend 0. rqc (s_pass _ 0 1). srv eng_got with recv_ret.
    rqsent 0. rqt (g_add _ 0). rqt (g_done _ 0). rqt (range_end _ 0). rqt (wait_over _ 0). rq (result_ _ 0). rqt (close_ch _ 0). rqt (spawn _ 0).
    say (eapply handle_; [side|side|side]). srv eng_reply with (eapply Topic.publish; simp; side). srv eng_call with recv_call. rqct (r_open _ 3).
    srv wrk_call with recv_call. rsct (r_open _ 1). rst (range _ 0). rs (visit _ 0 0 "server" 0). rssend 0. rsc (s_put _ 0). rsc (r_take _ 1). srv wrk_got with recv_ret.
    rssent 0. rst (g_add _ 0). rst (g_done _ 0). rst (range_end _ 0). rst (wait_over _ 0). rs (result_ _ 0). rst (close_ch _ 0). rst (spawn _ 0).
    srv wrk_write with (eapply (Conn.call _ 3); side). cont 0 (wr_chk _ 3). cont 0 (reset_w _ 3). con 0 (wr_all _ 3). srv wrk_done with (eapply (ret_ _ 3); side).
    srv wrk_call with recv_call. rsct (r_open _ 3).
    apply exec_start. }
  split; [|split; [reflexivity|split; [reflexivity|split]]].
  - apply quiet_rests; simp.
    + reflexivity.
    + split; [reflexivity|]. split; [reflexivity|]. split; [intros [|p]; cbn; auto|]. split; [intros [|g]; cbn; eauto|]. intros [|[|[|[|i]]]]; cbn; auto.
    + split; [reflexivity|]. split; [reflexivity|]. split; [intros [|p]; cbn; auto|]. split; [intros [|g]; cbn; eauto|]. intros [|[|[|[|i]]]]; cbn; auto.
    + intros [|c]; (split; [reflexivity|]); [intros [|[|[|[|i]]]]; cbn; auto|intros [|i]; cbn; auto].
    + eauto.
    + eauto.
    + intros [|c]; cbn; eauto.
  - intros [|c] N; [reflexivity|]. exfalso. apply N. reflexivity.
  - eexists. split.
    { unfold second. simp. srv accept. srv read_call with (eapply (Conn.call _ 1); side). cont 1 (reset_r _ 1). cont 1 (r_obj _ 1). say (eapply read_; [side|side|simp; eapply (ret_ _ 1); side|side]). apply exec_start. }
    split; [reflexivity|]. split; [reflexivity|]. split; [discriminate|]. split; intros [|[|[|[|i]]]] e; discriminate.
Qed.
Example C99_in_order_ex : forall ttl wait n, n <= ttl -> exists x, Timed.runs true ttl wait new_db both (in_turn n) x /\ well [] (acts (in_turn n)) (x_srv x) /\
  happened (in_turn n) 0 (SRead 0 1 0 q1) /\ happened (in_turn n) n (SRead 1 1 0 q1).
Proof.
  intros ttl wait n Hn. destruct answered_both as (s & R & Z & C & X & O & s' & R' & C' & X' & W' & U1 & U2). assert (Hd : run new_db [] = Ret (new_db, [])) by reflexivity.
  destruct (rest_runs true new_db both _ _ R Z C X) as [E1 E2]. destruct (in_no_time true ttl wait new_db both answered s R) as (q & p & v & T).
  { split; [intros c H; cbn in H; intuition discriminate|]. split; [intros j e H; cbn in H; intuition discriminate|]. split; [intros j e H; cbn in H; intuition discriminate|]. split; assumption. }
  pose proof (ticks_pass true ttl wait new_db both _ _ _ _ _ _ n T Z ltac:(intros; lia)) as T2. cbn [Nat.add] in T2.
  destruct (on_in_no_time true ttl wait new_db both _ _ _ _ _ _ second s' T2 R') as (q' & p' & v' & T3).
  { split; [intros c H; cbn in H; intuition discriminate|]. split; [intros j e H; cbn in H; intuition discriminate|]. split; [intros j e H; cbn in H; intuition discriminate|]. split; assumption. }
  assert (A : forall l, acts (map Act l) = l) by (induction l as [|a l IH]; [reflexivity|unfold acts in *; cbn; now rewrite IH]). assert (B : acts (repeat Tick n) = []) by (clear; induction n as [|n IH]; [reflexivity|exact IH]).
  assert (D : ticks (repeat Tick n) = n) by (clear; induction n as [|n IH]; [reflexivity|change (ticks (repeat Tick (S n))) with (S (ticks (repeat Tick n))); now rewrite IH]).
  eexists. split; [|split; [|split]].
  - unfold in_turn. rewrite app_assoc. exact T3.
  - unfold in_turn. rewrite !acts_app, !A, B. cbn [app x_srv]. split; [exact C'|]. split; [exact X'|]. split; [intros (c & i & k & r & b & Q & _); destruct (W' _ _ _ _ Q)|]. split; [repeat constructor; exact plain_env|].
    intros c i k q0 H. cbn in H. repeat destruct H as [H|H]; try discriminate; inversion H; subst; vm_compute; reflexivity.
  - exists (map Act (firstn 2 answered)). eexists. split; reflexivity.
  - exists (map Act answered ++ repeat Tick n ++ map Act (firstn 2 second)), []. split; [unfold in_turn; rewrite <- !app_assoc; reflexivity|]. rewrite !ticks_app, D. cbn. lia.
Qed.
