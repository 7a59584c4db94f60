(* C95: what a call of a data channel, a topic, a future, a broadcaster or a connection may wait for. *)
From Coq Require Import List Arith Bool String Lia.
From Verif Require Import Base Lts Counted DataChannel Topic Future Broadcast Conn WaitSpec WaitChannel WaitTopic WaitFuture WaitBroadcast WaitConn.
Import ListNotations.

(* C95: when a data channel comes to rest, a Close that was called has returned; a Receive waits only if it was
   not called after a Close returned and every event sent was received; a Send waits only if no Close returned and
   the buffer is full, of an unbuffered channel: if no Receive waits. *)
Theorem C95_channel_rest : forall {A} cap tr (s : DataChannel.state A), DataChannel.runs cap tr s -> channel_rests s ->
  forall i o, In (DataChannel.ECall i o) tr -> (forall r, ~ In (DataChannel.ERet i o r) tr) ->
  match o with
  | DataChannel.OClose => False
  | ORecv => map snd (puts tr) = map snd (takes tr) /\ forall j u, ~ before tr (DataChannel.ERet j DataChannel.OClose u) (DataChannel.ECall i ORecv)
  | OSend _ => List.length (puts tr) = List.length (takes tr) + cap /\ (forall j u, ~ In (DataChannel.ERet j DataChannel.OClose u) tr) /\
      (cap = 0 -> forall j, In (DataChannel.ECall j ORecv) tr -> exists r, In (DataChannel.ERet j ORecv r) tr)
  end.
Proof. exact @channel_rest. Qed.
Print Assumptions C95_channel_rest.
(* It comes to rest: whatever the calls do, 4 steps a call and no more. *)
Theorem C95_channel_bound : forall {A} cap n tr (s : DataChannel.state A), steps DataChannel.step (DataChannel.init cap) n tr s ->
  n <= 4 * List.length (channel_calls tr).
Proof. exact @channel_bound. Qed.
Print Assumptions C95_channel_bound.

(* C95: once nothing happens any more to a topic, every Publish has its result, whatever the subscribers do
   with their channels. *)
Theorem C95_topic_rest : forall {A} tr (s : Topic.state A), Topic.runs tr s -> at_rest Topic.step topic_call s ->
  forall p e, In (TPublish p e) tr -> exists k, In (TResult p k) tr.
Proof. exact @topic_rest. Qed.
Print Assumptions C95_topic_rest.
(* And that is after a number of steps that the subscriptions, publications and calls of subscribers bound. *)
Theorem C95_topic_bound : forall {A} n tr (s : Topic.state A), steps Topic.step Topic.init n tr s ->
  n <= List.length (subscribed tr) + List.length (published tr) * (7 + 8 * List.length (subscribed tr)) + 4 * List.length (subscriber_calls tr).
Proof. exact @topic_bound. Qed.
Print Assumptions C95_topic_bound.

(* C95: when a future that did not panic comes to rest, every Cancel has returned, and a Get, Wait or WaitFor waits
   only while the task runs and no Cancel returned. *)
Theorem C95_future_rest : forall {V E} (vnil : V) (enil : E) tr s, Future.runs vnil enil tr s -> ~ In Future.EPanic tr -> future_rests s ->
  forall i o, In (Future.ECall i o) tr -> (forall r, ~ In (Future.ERet i o r) tr) ->
  o <> OCancel /\ (forall v e, ~ In (EFinish v e) tr) /\ (forall j r, ~ In (Future.ERet j OCancel r) tr).
Proof. exact @future_rest. Qed.
Print Assumptions C95_future_rest.
Theorem C95_future_bound : forall {V E} (vnil : V) (enil : E) n tr s, steps Future.step (Future.init vnil enil) n tr s -> n <= 5 * List.length (future_calls tr) + 5.
Proof. exact @future_bound. Qed.
Print Assumptions C95_future_bound.

(* C95: when a broadcaster that did not panic comes to rest, every Set has returned, and a Get waits only if there was
   no Set. *)
Theorem C95_broadcast_rest : forall {V} (vnil : V) tr s, Broadcast.runs vnil tr s -> ~ In Broadcast.EPanic tr -> at_rest Broadcast.step is_bcall s ->
  (forall i v, In (ECallSet i v) tr -> In (ERetSet i v) tr) /\
  (forall i, In (ECallGet i) tr -> (exists v, In (ERetGet i v) tr) \/ forall j v, ~ In (ECallSet j v) tr).
Proof. exact @broadcast_rest. Qed.
Print Assumptions C95_broadcast_rest.
Theorem C95_broadcast_bound : forall {V} (vnil : V) n tr s, steps Broadcast.step (Broadcast.init vnil) n tr s -> n <= 4 * List.length (broadcast_calls tr).
Proof. exact @broadcast_bound. Qed.
Print Assumptions C95_broadcast_bound.

(* C95: when a connection comes to rest, every Close has returned, a Write waits only if the connection was closed, and a
   Read only if it was closed or the peer has neither sent nor closed; a connection closed by anybody is closed to the
   peer. *)
Theorem C95_conn_rest : forall tr s, Conn.runs tr s -> conn_rests s ->
  (forall i o, In (Conn.ECall i o) tr -> (forall r, ~ In (Conn.ERet i o r) tr) ->
    match o with Conn.OClose => False | OWrite _ => exists j, In (EWin j) tr | ORead => c_pc s i = PReading \/ exists j, In (EWin j) tr end) /\
  ((exists j, In (EWin j) tr) -> c_tcp s = false).
Proof. exact conn_rest. Qed.
Print Assumptions C95_conn_rest.
Theorem C95_conn_bound : forall n tr s, steps Conn.step Conn.init n tr s -> n <= 10 * List.length (conn_calls tr) + 6.
Proof. exact conn_bound. Qed.
Print Assumptions C95_conn_bound.

Ltac tau := eapply exec_cons_tau.
Ltac vis := eapply exec_cons.

(* The place of a call in a state that is given. *)
Ltac pcs := repeat match goal with
  | H : context [upd _ ?j _ ?i] |- _ => destruct (Nat.eq_dec i j) as [->|?]; [rewrite (upd_eq _ j) in H|rewrite (upd_ne _ j i) in H by assumption]; cbn in H; try discriminate H; try contradiction
  end.

(* A channel with room for one: a second Send waits. A closed channel: a Receive called before waits for ever. *)
Example C95_channel_ex : exists s : DataChannel.state string, channel_rests s /\
  DataChannel.runs 1 [DataChannel.ECall 0 (OSend "a"); EPut 0 "a"; DataChannel.ERet 0 (OSend "a") RSuccess; DataChannel.ECall 1 (OSend "b")]%string s.
Proof.
  eexists. split; cycle 1.
  - vis; [now apply DataChannel.c_send|]. vis; [apply (DataChannel.s_put _ 0 "a"%string); cbn; auto|]. vis; [now apply DataChannel.c_ret|]. vis; [now apply DataChannel.c_send|]. constructor.
  - intros l s' St. inversion St; subst; cbn in *; try (left; eauto; fail); pcs; try discriminate; try lia.
    right. exists 1, e. split; [reflexivity|]. split; [rewrite <- H0; apply upd_eq|]. apply upd_eq.
Qed.
Print Assumptions C95_channel_ex.
Example C95_receive_ex : exists s : DataChannel.state string, channel_rests s /\ DataChannel.runs 1 [DataChannel.ECall 0 ORecv; DataChannel.ECall 1 DataChannel.OClose; DataChannel.ERet 1 DataChannel.OClose RUnit] s.
Proof.
  eexists. split; cycle 1.
  - vis; [now apply DataChannel.c_recv|]. tau; [now apply (DataChannel.r_open _ 0)|]. vis; [now apply DataChannel.c_close|]. tau; [now apply (DataChannel.x_first _ 1)|].
    tau; [now apply (DataChannel.x_close _ 1)|]. vis; [now apply DataChannel.c_ret|]. constructor.
  - intros l s' St. inversion St; subst; cbn in *; try (left; eauto; fail); pcs; try discriminate.
Qed.
Print Assumptions C95_receive_ex.

(* A Publish that found no subscriber. (C41_ex is a run with two.) *)
Example C95_topic_ex : exists s : Topic.state string, at_rest Topic.step topic_call s /\ Topic.runs [TPublish 0 "e"%string; TResult 0 0] s.
Proof.
  eexists. split; cycle 1.
  - vis; [now apply (Topic.publish _ 0)|]. tau; [now apply (Topic.range _ 0)|]. tau; [now apply (Topic.range_end _ 0)|]. tau; [now apply (Topic.wait_over _ 0)|].
    vis; [refine (Topic.result _ 0 _); reflexivity|]. tau; [now apply (Topic.close_ch _ 0)|]. tau; [now apply (Topic.spawn _ 0)|]. constructor.
  - intros l s' St. inversion St; subst; cbn in *; try (eexists; split; [reflexivity|exact I]); pcs; try discriminate; lia.
Qed.
Print Assumptions C95_topic_ex.

(* A Get while the task runs. *)
Example C95_future_ex : exists s : Future.state nat nat, future_rests s /\ Future.runs 0 0 [Future.ECall 0 OGet] s.
Proof.
  eexists. split; cycle 1.
  - vis; [now apply Future.c_call|]. constructor.
  - intros l s' St. inversion St; subst; cbn in *; try (left; eauto; fail); try (right; left; eauto; fail); try discriminate; pcs; try discriminate.
Qed.
Print Assumptions C95_future_ex.

(* A Get before any Set; and after one. *)
Example C95_broadcast_ex : (exists s : Broadcast.state nat, at_rest Broadcast.step is_bcall s /\ Broadcast.runs 0 [ECallGet 0] s) /\
  exists s : Broadcast.state nat, at_rest Broadcast.step is_bcall s /\ Broadcast.runs 0 [ECallGet 0; ECallSet 1 7; ERetSet 1 7; ERetGet 0 7] s.
Proof.
  split.
  { eexists. split; cycle 1.
  - vis; [now apply Broadcast.call_get|]. constructor.
  - intros l s' St. inversion St; subst; cbn in *; try (eexists; split; [reflexivity|exact I]); pcs; try discriminate. }
  eexists. split; cycle 1.
  - vis; [now apply Broadcast.call_get|]. vis; [now apply Broadcast.call_set|]. tau; [now apply (Broadcast.set_message _ 1 7)|]. tau; [now apply (Broadcast.set_close _ 1 7)|].
    vis; [now apply Broadcast.set_ret|]. tau; [now apply (Broadcast.get_ready _ 0)|]. tau; [now apply (Broadcast.get_read _ 0)|]. vis; [now apply Broadcast.get_ret|]. constructor.
  - intros l s' St. inversion St; subst; cbn in *; try (eexists; split; [reflexivity|exact I]); pcs; try discriminate.
Qed.
Print Assumptions C95_broadcast_ex.

(* A Write that found the connection open and then was overtaken by a Close waits for ever. *)
Example C95_conn_ex : exists s, conn_rests s /\
  Conn.runs [Conn.ECall 1 (OWrite (bs "a")); Conn.ECall 2 Conn.OClose; EWin 2; EOut 2 []; Conn.ERet 2 Conn.OClose ROk] s.
Proof.
  eexists. split; cycle 1.
  - vis; [now apply Conn.call|]. tau; [now apply (Conn.wr_chk _ 1 (bs "a"))|]. vis; [now apply Conn.call|]. vis; [now apply (Conn.x_win _ 2 true)|].
    vis; [apply (Conn.x_msg _ 2 true []); try reflexivity; now exists close_message|]. tau; [now apply (Conn.x_tcp _ 2 true)|]. tau; [now apply (Conn.x_chan _ 2 true)|].
    vis; [now apply Conn.ret_|]. tau; [now apply Conn.w_closed|]. constructor.
  - intros l s' St. inversion St; subst; cbn in *; try (left; eauto; fail); try (right; left; reflexivity); pcs; try discriminate.
    all: repeat match goal with X : match ?i with 0 => _ | _ => _ end = _ |- _ => destruct i; try discriminate end.
Qed.
Print Assumptions C95_conn_ex.
