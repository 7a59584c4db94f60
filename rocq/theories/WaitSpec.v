(* When nothing more happens by itself to a data channel, a future, a broadcaster or a connection, and how
   many calls were made. *)
From Coq Require Import List String.
From Verif Require Import Lts Counted DataChannel Topic Future Broadcast Conn.
Import ListNotations.

(* What can still happen to a data channel is that somebody calls, or that a Send expires. *)
Definition channel_rests {A} (s : DataChannel.state A) : Prop := forall l s', DataChannel.step s l s' ->
  (exists i o, l = Some (DataChannel.ECall i o)) \/ (exists i e, l = None /\ d_pc s i = DataChannel.PSend e /\ d_pc s' i = DataChannel.PRet (OSend e) RExpired).
Definition channel_calls {A} (tr : list (DataChannel.event A)) : list nat := flat_map (fun a => match a with DataChannel.ECall i _ => [i] | _ => [] end) tr.

(* To a future: that somebody calls, that the task returns, or that a WaitFor expires. *)
Definition future_rests {V E} (s : Future.state V E) : Prop := forall l s', Future.step s l s' ->
  (exists i o, l = Some (Future.ECall i o)) \/ (exists v e, l = Some (EFinish v e)) \/
  (exists i, l = None /\ f_pc s i = PAt OWaitFor /\ f_pc s' i = Future.PRet OWaitFor RTimeout).
Definition future_calls {V E} (tr : list (Future.event V E)) : list nat := flat_map (fun a => match a with Future.ECall i _ => [i] | _ => [] end) tr.

(* To a broadcaster: that somebody calls. *)
Definition is_bcall {V} (a : Broadcast.event V) : Prop := match a with ECallSet _ _ | ECallGet _ => True | _ => False end.
Definition broadcast_calls {V} (tr : list (Broadcast.event V)) : list nat := flat_map (fun a => match a with ECallSet i _ | ECallGet i => [i] | _ => [] end) tr.

(* To a connection: that somebody calls, that its time runs out, or that the peer sends or closes. *)
Definition conn_rests (s : Conn.state) : Prop := forall l s', Conn.step s l s' ->
  (exists i o, l = Some (Conn.ECall i o)) \/ l = Some ETimer \/ (exists i, l = None /\ c_pc s i = PReading /\ exists r, c_pc s' i = Conn.PRet ORead r).
Definition conn_calls (tr : list Conn.event) : list nat := flat_map (fun a => match a with Conn.ECall i _ => [i] | _ => [] end) tr.

(* To a topic: that somebody publishes or subscribes, or a subscriber calls. *)
Definition topic_call {A} (a : Topic.event A) : Prop :=
  match a with TPublish _ _ | TSubscribe _ _ _ | TChan _ (DataChannel.ECall _ DataChannel.ORecv) | TChan _ (DataChannel.ECall _ DataChannel.OClose) => True | _ => False end.
Definition published {A} (tr : list (Topic.event A)) : list nat := flat_map (fun a => match a with TPublish p _ => [p] | _ => [] end) tr.
Definition subscribed {A} (tr : list (Topic.event A)) : list string := flat_map (fun a => match a with TSubscribe n _ _ => [n] | _ => [] end) tr.
Definition subscriber_calls {A} (tr : list (Topic.event A)) : list nat :=
  flat_map (fun a => match a with TChan _ (DataChannel.ECall i DataChannel.ORecv) | TChan _ (DataChannel.ECall i DataChannel.OClose) => [i] | _ => [] end) tr.
