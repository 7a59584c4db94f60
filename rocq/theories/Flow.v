(* The TCP connection under pkg/network/conn.go with room for a limited number of bytes: a write
   (conn.go:102, 115) waits while what was written before is not yet taken by the peer.
   Conn.v lets every write end at once; here a write is
   - taking the write lock of the net.Conn (Go's internal/poll.FD.Write holds it for the whole
     call; Close does not take it),
   - putting its bytes, in pieces, into the buffer, as far as there is room,
   - ending: with all bytes written, because the network breaks, or because the connection is
     closed at this end meanwhile (conn.go:117; FD.Close wakes the writers that wait).
   [cap] is the room of the send and receive buffers between the two ends; it is not known to the
   program.  The end of a write that is interrupted by Close is put just before the Close: nothing
   can be seen in between.  All other steps are those of Conn.v. *)
From Coq Require Import List Arith Bool.
From Verif Require Import Base Lts Conn.
Import ListNotations.

(* The call that holds the lock, what it has put and has left; the bytes in the buffers; the bytes
   the peer has taken. *)
Record flow := mkF { f_lock : option nat; f_sent : bytes; f_left : bytes; f_buf : bytes; f_got : bytes }.
Definition no_flow : flow := mkF None [] [] [] [].
(* Call i is at tcpConn.Write with b: conn.go:102 or 115. *)
Definition wants (u : Conn.state) (i : nat) (b : bytes) : Prop :=
  c_pc u i = PWriting b \/ exists x, c_pc u i = PMsg x /\ b = close_message.
(* tcpConn.Write of call i returns; the closer ignores the result (115). *)
Definition finish (ok : bool) (u : Conn.state) (i : nat) : Conn.state :=
  set_pc u i (match c_pc u i with PWriting b => PRet (OWrite b) (if ok then ROk else RErr) | PMsg x => PTcp x | p => p end).

Inductive event :=
| FConn (e : Conn.event)
| FTake (i : nat)                 (* call i gets the write lock *)
| FPut (i : nat) (p : bytes)      (* call i puts bytes into the buffer *)
| FBreak (i : nat) (p : bytes)    (* the network breaks the write of call i, after p *)
| FGot (p : bytes).               (* the peer takes bytes *)

(* Steps that leave the program where it is. *)
Inductive moves (cap : nat) (u : Conn.state) (f : flow) : event -> flow -> Prop :=
| take i b : wants u i b -> c_tcp u = true -> f_lock f = None -> moves cap u f (FTake i) (mkF (Some i) [] b (f_buf f) (f_got f))
| put i p q : f_lock f = Some i -> f_left f = p ++ q -> p <> [] -> length (f_buf f) + length p <= cap ->
    moves cap u f (FPut i p) (mkF (Some i) (f_sent f ++ p) q (f_buf f ++ p) (f_got f))
| got p q : f_buf f = p ++ q -> p <> [] -> moves cap u f (FGot p) (mkF (f_lock f) (f_sent f) (f_left f) q (f_got f ++ p)).
(* Ends of writes: all is put; the network breaks; call i closes the connection (117) under the
   write of call j; the connection was closed before the write got the lock. *)
Inductive ends (u : Conn.state) (f : flow) : option event -> Conn.state -> flow -> Prop :=
| all_put i : f_lock f = Some i -> f_left f = [] ->
    ends u f (Some (FConn (EOut i (f_sent f)))) (finish true u i) (mkF None [] [] (f_buf f) (f_got f))
| broken i : f_lock f = Some i -> ends u f (Some (FBreak i (f_sent f))) (finish false u i) (mkF None [] [] (f_buf f) (f_got f))
| evicted i j x : f_lock f = Some j -> c_pc u i = PTcp x ->
    ends u f (Some (FConn (EOut j (f_sent f)))) (finish false u j) (mkF None [] [] (f_buf f) (f_got f))
| too_late i b : c_pc u i = PWriting b -> c_tcp u = false -> ends u f None (finish false u i) f.

(* Steps of Conn.v in which no write ends, and no TCP connection is closed under a write. *)
Definition calm (u u' : Conn.state) (f : flow) : Prop :=
  (forall i b, wants u i b -> c_pc u' i = c_pc u i) /\ (c_tcp u' = c_tcp u \/ f_lock f = None).
Definition state : Type := (Conn.state * flow)%type.
Inductive step (cap : nat) : state -> option event -> state -> Prop :=
| conn u f l u' : Conn.step u l u' -> calm u u' f -> step cap (u, f) (option_map FConn l) (u', f)
| move u f a f' : c_crash u = false -> moves cap u f a f' -> step cap (u, f) (Some a) (u, f')
| end_ u f l u' f' : c_crash u = false -> ends u f l u' f' -> step cap (u, f) l (u', f').
Definition runs (cap : nat) (tr : list event) (s : state) : Prop := exec (step cap) (Conn.init, no_flow) tr s.

(* What a run shows to the connection of Conn.v; the bytes written, and those taken. *)
Definition on_conn (a : event) : list Conn.event :=
  match a with FConn e => [e] | FBreak i p => [EOut i p] | _ => [] end.
Definition conn_trace (tr : list event) : list Conn.event := flat_map on_conn tr.
Definition out (e : Conn.event) : bytes := match e with EOut _ p => p | _ => [] end.
Definition taken_of (a : event) : bytes := match a with FGot p => p | _ => [] end.
Definition taken (tr : list event) : bytes := flat_map taken_of tr.
