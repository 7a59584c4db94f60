(* pkg/concurrency/data_channel.go as a transition system: one data channel with any number
   of calls of Send, Receive and Close in progress. A is the type Event. The Go channel
   dataChannel is a queue of the given capacity that is never closed; closeChannel is the
   flag "closed". A timer may fire at any moment. *)
From Coq Require Import List Arith Bool ZArith.
From Verif Require Import Lts.
Import ListNotations.

(* NewDataChannel 70-87 has capacity 0; NewDataChannelWithOption 89-113. *)
Definition capacity (size : Z) : nat := if (size <=? 0)%Z then 0 else Z.to_nat size.

Section DataChannel.
  Context {A : Type}.

  Inductive op := OSend (e : A) | ORecv | OClose.
  (* Success, Closed, Expired (18-29); an event; ErrChannelClosed; Close returns nothing. *)
  Inductive ret := RSuccess | RClosed | RExpired | REvent (e : A) | RErrClosed | RUnit.

  (* Calls and returns are what a caller sees. EPut, ETake and EPass mark the moment the Go
     channel accepts an event from call i, hands one to call j, or does both at once; they
     are recorded only to state what happened in between. *)
  Inductive event :=
  | ECall (i : nat) (o : op)
  | ERet (i : nat) (o : op) (r : ret)
  | EPut (i : nat) (e : A)
  | ETake (j : nat) (e : A)
  | EPass (i j : nat) (e : A)
  | EPanic.

  (* A call: not made; in Send at its select (130); in Receive before the load (116) and at
     the channel receive (120); in Close before the compare-and-swap and before close
     (124-125); about to return; returned. *)
  Inductive pc := PIdle | PSend (e : A) | PLoad | PRecv | PCas | PClose | PRet (o : op) (r : ret) | PDone.

  Record state := mkD { d_cap : nat; d_buf : list A; d_flag : bool; d_closed : bool; d_pc : nat -> pc; d_crash : bool }.
  Definition init (cap : nat) : state := mkD cap [] false false (fun _ => PIdle) false.
  Definition set_pc (s : state) i p := mkD (d_cap s) (d_buf s) (d_flag s) (d_closed s) (upd (d_pc s) i p) (d_crash s).

  Inductive step : state -> option event -> state -> Prop :=
  | c_send s i e : d_crash s = false -> d_pc s i = PIdle -> step s (Some (ECall i (OSend e))) (set_pc s i (PSend e))
  | c_recv s i : d_crash s = false -> d_pc s i = PIdle -> step s (Some (ECall i ORecv)) (set_pc s i PLoad)
  | c_close s i : d_crash s = false -> d_pc s i = PIdle -> step s (Some (ECall i OClose)) (set_pc s i PCas)
  | c_ret s i o r : d_crash s = false -> d_pc s i = PRet o r -> step s (Some (ERet i o r)) (set_pc s i PDone)
  (* Send, 129-138 *)
  | s_closed s i e : d_crash s = false -> d_pc s i = PSend e -> d_closed s = true -> step s None (set_pc s i (PRet (OSend e) RClosed))
  | s_expired s i e : d_crash s = false -> d_pc s i = PSend e -> step s None (set_pc s i (PRet (OSend e) RExpired))
  | s_put s i e : d_crash s = false -> d_pc s i = PSend e -> length (d_buf s) < d_cap s ->
      step s (Some (EPut i e)) (mkD (d_cap s) (d_buf s ++ [e]) (d_flag s) (d_closed s) (upd (d_pc s) i (PRet (OSend e) RSuccess)) false)
  (* a send meets a receive that is already waiting: unbuffered channel *)
  | s_pass s i j e : d_crash s = false -> d_pc s i = PSend e -> d_pc s j = PRecv -> d_cap s = 0 ->
      step s (Some (EPass i j e)) (set_pc (set_pc s i (PRet (OSend e) RSuccess)) j (PRet ORecv (REvent e)))
  (* Receive, 115-121 *)
  | r_closed s i : d_crash s = false -> d_pc s i = PLoad -> d_flag s = true -> step s None (set_pc s i (PRet ORecv RErrClosed))
  | r_open s i : d_crash s = false -> d_pc s i = PLoad -> d_flag s = false -> step s None (set_pc s i PRecv)
  | r_take s i e b : d_crash s = false -> d_pc s i = PRecv -> d_buf s = e :: b ->
      step s (Some (ETake i e)) (mkD (d_cap s) b (d_flag s) (d_closed s) (upd (d_pc s) i (PRet ORecv (REvent e))) false)
  (* Close, 123-127 *)
  | x_first s i : d_crash s = false -> d_pc s i = PCas -> d_flag s = false ->
      step s None (mkD (d_cap s) (d_buf s) true (d_closed s) (upd (d_pc s) i PClose) false)
  | x_again s i : d_crash s = false -> d_pc s i = PCas -> d_flag s = true -> step s None (set_pc s i (PRet OClose RUnit))
  | x_close s i : d_crash s = false -> d_pc s i = PClose -> d_closed s = false ->
      step s None (mkD (d_cap s) (d_buf s) (d_flag s) true (upd (d_pc s) i (PRet OClose RUnit)) false)
  | x_panic s i : d_crash s = false -> d_pc s i = PClose -> d_closed s = true ->
      step s (Some EPanic) (mkD (d_cap s) (d_buf s) (d_flag s) (d_closed s) (d_pc s) true).

  Definition runs (cap : nat) (tr : list event) (s : state) : Prop := exec step (init cap) tr s.

  (* The events accepted from senders, and handed to receivers, in order, with the call. *)
  Definition put_of (a : event) : list (nat * A) := match a with EPut i e | EPass i _ e => [(i, e)] | _ => [] end.
  Definition take_of (a : event) : list (nat * A) := match a with ETake j e | EPass _ j e => [(j, e)] | _ => [] end.
  Definition puts (tr : list event) : list (nat * A) := flat_map put_of tr.
  Definition takes (tr : list event) : list (nat * A) := flat_map take_of tr.
End DataChannel.
Arguments op : clear implicits.
Arguments ret : clear implicits.
Arguments event : clear implicits.
Arguments pc : clear implicits.
Arguments state : clear implicits.
