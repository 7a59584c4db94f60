(* Server.v with a clock, for a server whose own work takes no time compared with its timers:
   time passes only while the server has no step of its own left (RestSpec.v).
   - data_channel.go:129-138: a Send is given up not before [wait] (expireTime) has passed since
     it began.
   - conn.go:137-152: time.After(expireTime) is made anew each time the expiry worker comes to
     its select: when the connection is made and each time a Read (77) or a Write (100) has
     reset it.  The worker is at its select again at once.  The timer does not fire before
     [ttl] has passed since then, and it is not late: time does not go on before it has fired.
   Nothing is said about the order of what happens at one time. *)
From Coq Require Import List Arith.
From Verif Require Import Base Lts Resp Engine Db DataChannel Topic Conn Server RestSpec.
Import ListNotations.
Local Open Scope nat_scope.

Section Timed.
  Context (cl : bool) (ttl wait : nat).
  (* since when a Send (on the request and on the response topic), and since when the expiry
     worker of a connection, has been waiting *)
  Record state := mkT { x_srv : Server.state; x_now : nat; x_ask : nat -> nat; x_rep : nat -> nat; x_seen : nat -> nat }.
  Inductive event := Tick | Act (a : Server.event).
  Definition begins {A : Type} (t t' : Topic.state A) (i : nat) : Prop := (exists e, d_pc (t_ch t' 0) i = PSend e) /\ forall e, d_pc (t_ch t 0) i <> PSend e.
  Definition gives_up {A : Type} (t t' : Topic.state A) (i : nat) : Prop := exists e, d_pc (t_ch t 0) i = PSend e /\ d_pc (t_ch t' 0) i = DataChannel.PRet (OSend e) RExpired.
  Definition resets (u u' : Conn.state) : Prop := exists i, (c_pc u i = PResetR /\ c_pc u' i = PReading) \/ exists b, c_pc u i = PResetW b /\ c_pc u' i = PWriting b.
  Definition stamped (P : nat -> Prop) (n : nat) (f f' : nat -> nat) : Prop := forall i, (P i -> f' i = n) /\ (~ P i -> f' i = f i).

  Inductive step : state -> option event -> state -> Prop :=
  | tick s n q p v : rests cl s -> (forall c, s_rd s c <> RNone -> c_pc (s_conn s c) 0 = Conn.PLoop -> n < v c + ttl) ->
      step (mkT s n q p v) (Some Tick) (mkT s (S n) q p v)
  | act s n q p v l s' q' p' v' : Server.step cl s l s' ->
      (forall i, gives_up (s_req s) (s_req s') i -> q i + wait <= n) -> (forall i, gives_up (s_rsp s) (s_rsp s') i -> p i + wait <= n) ->
      (forall c, l = Some (SConn c Conn.ETimer) -> v c + ttl <= n) ->
      stamped (begins (s_req s) (s_req s')) n q q' -> stamped (begins (s_rsp s) (s_rsp s')) n p p' ->
      stamped (fun c => l = Some (SAccept c) \/ resets (s_conn s c) (s_conn s' c)) n v v' ->
      step (mkT s n q p v) (option_map Act l) (mkT s' n q' p' v').

  Definition start (d : db) (input : nat -> bytes) : state := mkT (Server.init d input) 0 (fun _ => 0) (fun _ => 0) (fun _ => 0).
  Definition runs (d : db) (input : nat -> bytes) (tr : list event) (x : state) : Prop := exec step (start d input) tr x.
End Timed.
