(* C39, C40: data channels, over every schedule, buffer size and any number of callers. *)
From Coq Require Import List Arith ZArith.
From Verif Require Import Lts DataChannel DataChannelProofs RoomProofs.
Import ListNotations.
Tactic Notation "tau" uconstr(c) := eapply exec_cons_tau; [eapply c; try reflexivity; try discriminate; auto | ].
Tactic Notation "act" uconstr(c) := eapply exec_cons; [eapply c; try reflexivity; try discriminate; auto | ].

(* C39: the events accepted (by EPut/EPass) are handed over (ETake/EPass) in the same order,
   and the rest is in the buffer. *)
Theorem C39_fifo : forall (A : Type) cap tr (s : state A), runs cap tr s -> map snd (puts tr) = map snd (takes tr) ++ d_buf s /\ length (d_buf s) <= cap.
Proof. exact (fun A cap tr s => fifo cap tr s). Qed.
Print Assumptions C39_fifo.
(* Each call accepts or hands over at most one event. *)
Theorem C39_once_per_call : forall (A : Type) cap tr (s : state A), runs cap tr s -> NoDup (map fst (puts tr)) /\ NoDup (map fst (takes tr)).
Proof. exact (fun A cap tr s => put_once cap tr s). Qed.
Print Assumptions C39_once_per_call.
(* Success means accepted, Closed and Expired mean not; an event returned was handed over. *)
Theorem C39_send_result : forall (A : Type) cap tr (s : state A) i e r, runs cap tr s -> In (ERet i (OSend e) r) tr ->
  (r = RSuccess /\ In (i, e) (puts tr)) \/ ((r = RClosed \/ r = RExpired) /\ forall u, ~ In (i, u) (puts tr)).
Proof. exact (fun A cap tr s i e r => send_result cap tr s i e r). Qed.
Print Assumptions C39_send_result.
Theorem C39_receive_result : forall (A : Type) cap tr (s : state A) j r, runs cap tr s -> In (ERet j ORecv r) tr ->
  (exists e, r = REvent e /\ In (j, e) (takes tr)) \/ (r = RErrClosed /\ forall u, ~ In (j, u) (takes tr)).
Proof. exact (fun A cap tr s j r => recv_result cap tr s j r). Qed.
Print Assumptions C39_receive_result.
(* The same, in terms of calls and returns alone. If a was sent before b, then b is not received before a: *)
Theorem C39_order_seen : forall (A : Type) cap tr (s : state A) i a j b k l, runs cap tr s ->
  (forall c, In (ECall c (OSend a)) tr -> c = i) -> (forall c, In (ECall c (OSend b)) tr -> c = j) ->
  before tr (ERet i (OSend a) RSuccess) (ECall j (OSend b)) -> before tr (ERet k ORecv (REvent b)) (ECall l ORecv) ->
  ~ In (ERet l ORecv (REvent a)) tr.
Proof. exact (fun A cap tr s i a j b k l => fifo_seen cap tr s i a j b k l). Qed.
Print Assumptions C39_order_seen.
(* an event sent once is received once: *)
Theorem C39_received_once : forall (A : Type) cap tr (s : state A) i a k l, runs cap tr s -> (forall c, In (ECall c (OSend a)) tr -> c = i) ->
  In (ERet k ORecv (REvent a)) tr -> In (ERet l ORecv (REvent a)) tr -> k = l.
Proof. exact (fun A cap tr s i a k l => received_once cap tr s i a k l). Qed.
Print Assumptions C39_received_once.
(* and a received event was sent by a call that did not report failure. *)
Theorem C39_failed_never_received : forall (A : Type) cap tr (s : state A) k a, runs cap tr s -> In (ERet k ORecv (REvent a)) tr ->
  exists i, In (ECall i (OSend a)) tr /\ forall r, In (ERet i (OSend a) r) tr -> r = RSuccess.
Proof. exact (fun A cap tr s k a => received_sent cap tr s k a). Qed.
Print Assumptions C39_failed_never_received.
(* Without a buffer, success means a receiver has it. *)
Theorem C39_unbuffered_handed_over : forall (A : Type) tr (s : state A) i a, runs 0 tr s -> In (ERet i (OSend a) RSuccess) tr ->
  exists j, In (j, a) (takes tr) /\ In (ECall j ORecv) tr.
Proof. exact (fun A tr s i a => unbuffered tr s i a). Qed.
Print Assumptions C39_unbuffered_handed_over.
(* A channel made with a size takes that many events with nobody receiving, and never more than that
   many ahead of its receivers. *)
Theorem C39_room : forall (A : Type) (size : Z), (forall tr (s : state A), runs (capacity size) tr s -> length (puts tr) <= length (takes tr) + Z.to_nat size) /\
  forall es : list A, length es <= Z.to_nat size -> exists s, runs (capacity size) (sends 0 es) s.
Proof. exact (fun A size => size_room size). Qed.
Print Assumptions C39_room.
Example C39_room_ex : length [10; 20; 30] <= Z.to_nat 3 /\
  @sends nat 0 [10; 20] = [ECall 0 (OSend 10); EPut 0 10; ERet 0 (OSend 10) RSuccess; ECall 1 (OSend 20); EPut 1 20; ERet 1 (OSend 20) RSuccess].
Proof. split; [cbn; auto|reflexivity]. Qed.
Theorem C39_send_can_return : forall (A : Type) cap tr (s : state A) i e, runs cap tr s -> In (ECall i (OSend e)) tr -> (forall r, ~ In (ERet i (OSend e) r) tr) ->
  exists r s', runs cap (tr ++ [ERet i (OSend e) r]) s'.
Proof. exact (fun A cap tr s i e => send_can_return cap tr s i e). Qed.
Print Assumptions C39_send_can_return.

Example C39_ex : exists s : state nat, runs 2
  [ECall 1 (OSend 10); EPut 1 10; ERet 1 (OSend 10) RSuccess; ECall 2 (OSend 20); EPut 2 20; ERet 2 (OSend 20) RSuccess; ECall 3 (OSend 30); ERet 3 (OSend 30) RExpired;
   ECall 4 ORecv; ETake 4 10; ERet 4 ORecv (REvent 10); ECall 5 ORecv; ETake 5 20; ERet 5 ORecv (REvent 20)] s.
Proof.
  eexists. unfold runs. act c_send. act (s_put _ 1); cbn; auto. act c_ret. act c_send. act (s_put _ 2); cbn; auto. act c_ret. act c_send. tau (s_expired _ 3). act c_ret.
  act c_recv. tau (r_open _ 4). act (r_take _ 4). act c_ret. act c_recv. tau (r_open _ 5). act (r_take _ 5). act c_ret. apply exec_start.
Qed.
Example C39_unbuffered_ex : exists s : state nat, runs (capacity (-1)) [ECall 1 ORecv; ECall 2 (OSend 10); EPass 2 1 10; ERet 2 (OSend 10) RSuccess; ERet 1 ORecv (REvent 10)] s.
Proof. eexists. unfold runs. act c_recv. act c_send. tau (r_open _ 1). act s_pass. act c_ret. act c_ret. apply exec_start. Qed.

(* C40: after Close has returned, every later Receive gets ErrChannelClosed. *)
Theorem C40_receive_after_close : forall (A : Type) cap tr (s : state A) c u k r, runs cap tr s ->
  before tr (ERet c OClose u) (ECall k ORecv) -> In (ERet k ORecv r) tr -> r = RErrClosed.
Proof. exact (fun A cap tr s c u k r => recv_after_close cap tr s c u k r). Qed.
Print Assumptions C40_receive_after_close.
(* Close never crashes, however often and from wherever it is called, and always can return. *)
Theorem C40_close_is_safe : forall (A : Type) cap tr (s : state A), runs cap tr s -> ~ In EPanic tr.
Proof. exact (fun A cap tr s => never_crashes cap tr s). Qed.
Print Assumptions C40_close_is_safe.
Theorem C40_close_can_return : forall (A : Type) cap tr (s : state A) i, runs cap tr s -> In (ECall i OClose) tr -> (forall r, ~ In (ERet i OClose r) tr) ->
  exists r s', runs cap (tr ++ [ERet i OClose r]) s'.
Proof. exact (fun A cap tr s i => close_can_return cap tr s i). Qed.
Print Assumptions C40_close_can_return.
Example C40_ex : exists s : state nat, runs 1
  [ECall 1 (OSend 10); EPut 1 10; ERet 1 (OSend 10) RSuccess; ECall 2 OClose; ERet 2 OClose RUnit; ECall 3 OClose; ERet 3 OClose RUnit; ECall 4 ORecv; ERet 4 ORecv RErrClosed] s.
Proof.
  eexists. unfold runs. act c_send. act (s_put _ 1); cbn; auto. act c_ret. act c_close. tau (x_first _ 2). tau (x_close _ 2). act c_ret. act c_close. tau (x_again _ 3). act c_ret.
  act c_recv. tau (r_closed _ 4). act c_ret. apply exec_start.
Qed.
(* C40 is false of Send: with room in the buffer a send after Close can still succeed, *)
Theorem C40_send_success_refuted : exists tr (s : state nat), runs 1 tr s /\ before tr (ERet 1 OClose RUnit) (ECall 2 (OSend 10)) /\ In (ERet 2 (OSend 10) RSuccess) tr.
Proof.
  exists [ECall 1 OClose; ERet 1 OClose RUnit; ECall 2 (OSend 10); EPut 2 10; ERet 2 (OSend 10) RSuccess]. eexists.
  split; [|split; [exists [ECall 1 OClose], [], [EPut 2 10; ERet 2 (OSend 10) RSuccess]; reflexivity|cbn; auto 10]].
  unfold runs. act c_close. tau (x_first _ 1). tau (x_close _ 1). act c_ret. act c_send. act (s_put _ 2); cbn; auto. act c_ret. apply exec_start.
Qed.
Print Assumptions C40_send_success_refuted.
(* and it can report Expired instead of Closed. *)
Theorem C40_send_expired_refuted : exists tr (s : state nat), runs 0 tr s /\ before tr (ERet 1 OClose RUnit) (ECall 2 (OSend 10)) /\ In (ERet 2 (OSend 10) RExpired) tr.
Proof.
  exists [ECall 1 OClose; ERet 1 OClose RUnit; ECall 2 (OSend 10); ERet 2 (OSend 10) RExpired]. eexists.
  split; [|split; [exists [ECall 1 OClose], [], [ERet 2 (OSend 10) RExpired]; reflexivity|cbn; auto 10]].
  unfold runs. act c_close. tau (x_first _ 1). tau (x_close _ 1). act c_ret. act c_send. tau (s_expired _ 2). act c_ret. apply exec_start.
Qed.
Print Assumptions C40_send_expired_refuted.
(* A receiver that was waiting when the channel was closed stays blocked, whatever happens
   short of a new send. *)
Theorem C40_waiting_receiver_refuted : exists tr (s : state nat), runs 0 tr s /\ In (ECall 1 ORecv) tr /\ In (ERet 2 OClose RUnit) tr /\
  forall tr' s', exec step s tr' s' -> (forall i e, ~ In (ECall i (OSend e)) tr') -> forall r, ~ In (ERet 1 ORecv r) (tr ++ tr').
Proof.
  assert (R : exists s : state nat, runs 0 [ECall 1 ORecv; ECall 2 OClose; ERet 2 OClose RUnit] s /\ d_pc s 1 = PRecv /\ d_buf s = [] /\ forall i e, d_pc s i <> PSend e).
  { eexists. split; [unfold runs; act c_recv; act c_close; tau (r_open _ 1); tau (x_first _ 2); tau (x_close _ 2); act c_ret; apply exec_start|].
    repeat split. intros i e. cbn. unfold upd. destruct i as [|[|[|i]]]; discriminate. }
  destruct R as (s & R & P & B & N). exists [ECall 1 ORecv; ECall 2 OClose; ERet 2 OClose RUnit], s.
  split; [exact R|]. split; [cbn; auto|]. split; [cbn; auto|]. intros tr' s' H Hn r Hr. apply in_app_iff in Hr as [Hr|Hr].
  - cbn in Hr. decompose [or] Hr; try discriminate; contradiction.
  - exact (blocked 0 _ _ 1 R P B N _ _ H Hn r Hr).
Qed.
Print Assumptions C40_waiting_receiver_refuted.
(* What holds of sends: without a buffer a send called after Close returned can succeed only
   by meeting a receive that was called before Close returned. *)
Theorem C40_send_after_close_partial : forall (A : Type) tr (s : state A) c u i a, runs 0 tr s ->
  before tr (ERet c OClose u) (ECall i (OSend a)) -> In (ERet i (OSend a) RSuccess) tr ->
  exists k, In (k, a) (takes tr) /\ before tr (ECall k ORecv) (ERet c OClose u).
Proof. exact (fun A tr s c u i a => send_after_close tr s c u i a). Qed.
Print Assumptions C40_send_after_close_partial.
Example C40_send_after_close_ex : exists tr (s : state nat), runs 0 tr s /\ before tr (ERet 2 OClose RUnit) (ECall 3 (OSend 10)) /\ In (ERet 3 (OSend 10) RSuccess) tr.
Proof.
  exists [ECall 1 ORecv; ECall 2 OClose; ERet 2 OClose RUnit; ECall 3 (OSend 10); EPass 3 1 10; ERet 3 (OSend 10) RSuccess]. eexists.
  split; [|split; [exists [ECall 1 ORecv; ECall 2 OClose], [], [EPass 3 1 10; ERet 3 (OSend 10) RSuccess]; reflexivity|cbn; auto 10]].
  unfold runs. act c_recv. act c_close. tau (r_open _ 1). tau (x_first _ 2). tau (x_close _ 2). act c_ret. act c_send. act s_pass. act c_ret. apply exec_start.
Qed.
