(* C85: what comes from outside: a new connection, what the network does to a Read that waits for
   it (even if it makes the reader crash), the timer of a connection, the timer of a send on one of
   the two topics, and the call of stop.  All other steps are the server's own; it is at rest when
   it has none. *)
From Coq Require Import List Arith.
From Verif Require Import Base Lts Resp Engine DataChannel Topic Conn Server.
Import ListNotations.

Definition expires {A : Type} (t t' : Topic.state A) : Prop :=
  exists i e, d_pc (t_ch t 0) i = PSend e /\ d_pc (t_ch t' 0) i = DataChannel.PRet (OSend e) RExpired.
Definition outside (s : state) (l : option event) (s' : state) : Prop :=
  (exists c, l = Some (SAccept c)) \/
  (exists c i, c_pc (s_conn s c) i = PReading /\ c_pc (s_conn s' c) i <> PReading) \/
  (l = Some SCrash /\ forall c k q, s_eng s <> EHas c k q) \/
  (exists c, l = Some (SConn c ETimer)) \/
  expires (s_req s) (s_req s') \/ expires (s_rsp s) (s_rsp s') \/
  (s_stop s = XNone /\ s_stop s' <> XNone).
Definition own (clean : bool) (s : state) (l : option event) (s' : state) : Prop := step clean s l s' /\ ~ outside s l s'.
Definition rests (clean : bool) (s : state) : Prop := forall l s', ~ own clean s l s'.
