(* C99: what is said of a server with a clock. *)
From Coq Require Import List Arith ZArith.
From Verif Require Import Base Lts Resp RequestSpec Engine EngineProofs Db DataChannel Topic Conn Server ServerSpec Props_Progress Props_Rest Timed.
Import ListNotations.
Local Open Scope nat_scope.

(* What the server did, and how much time passed. *)
Definition acts (tr : list event) : list Server.event := flat_map (fun a => match a with Act b => [b] | Tick => [] end) tr.
Definition ticks (tr : list event) : nat := List.length (filter (fun a => match a with Tick => true | Act _ => false end) tr).
(* [a] happened at time t. *)
Definition happened (tr : list event) (t : nat) (a : Server.event) : Prop := exists x y, tr = x ++ Act a :: y /\ ticks x = t.
(* A sign of life of connection c: it is accepted, a Read or a Write on it is called. *)
Definition alive (c : nat) (a : Server.event) : Prop := a = SAccept c \/ (exists i, a = SConn c (Conn.ECall i ORead)) \/ exists i k r, a = SWrite c i k r.
(* The server has neither crashed nor been told to stop, its response worker is not stuck (C65),
   and what it was sent is not too large (C22). *)
Definition well (h : list (env * robj)) (tr : list Server.event) (s : Server.state) : Prop :=
  s_crash s = false /\ s_stop s = XNone /\ ~ blocked s /\ Forall (fun x => env_ok (fst x)) (h ++ turns tr) /\
  forall c i k q, In (SRead c i k q) tr -> (requests_size (map snd (h ++ turns tr) ++ [q]) < 2 ^ 62)%Z.
