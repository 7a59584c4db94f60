(* pkg/network/conn.go as a transition system: one connection with any number of calls of Read,
   Write and Close in progress, the expiry worker, and the closers that Read starts at the end
   of the stream. Call number 0 is the expiry worker.
   - What the network delivers is unknown: a read may yield an object, the end of the stream or
     an error at any moment (or never); a write to the open TCP connection may write all bytes,
     or some and fail; on a closed one it fails.
   - resetChan is unbuffered: a send meets the worker at its select (141). *)
From Coq Require Import List Arith Bool Ascii String.
From Verif Require Import Base Lts.
Import ListNotations.

Inductive op := ORead | OWrite (b : bytes) | OClose.
(* an object or nil; ErrConnIsClosed; another error *)
Inductive ret := ROk | RErrClosed | RErr.
Inductive event :=
| ECall (i : nat) (o : op)
| ERet (i : nat) (o : op) (r : ret)
| EOut (i : nat) (b : bytes)  (* bytes sent by call i *)
| EWin (i : nat)              (* call i's compare-and-swap (114) succeeds *)
| ETimer                      (* the worker's timer fires (146) *)
| EPanic.

(* Not called; the worker at its select (141-149); at resetChan <- 0 of Read (77) or Write (100);
   in ReadObject (79); before IsClosed (96); at tcpConn.Write (102); a closer before IsClosed (83);
   in Close before 114, 115, 117, 118 (the bool: called from outside); about to return; over. *)
Inductive pc := PIdle | PLoop | PResetR | PResetW (b : bytes) | PReading | PChkW (b : bytes) | PWriting (b : bytes) | PChk
  | PCas (x : bool) | PMsg (x : bool) | PTcp (x : bool) | PChan (x : bool) | PRet (o : op) (r : ret) | PDone.
Record state := mkC { c_flag : bool; c_tcp : bool; c_chan : bool; c_pc : nat -> pc; c_crash : bool }.
(* closed = 0; TCP open; closeChan open *)
Definition init : state := mkC false true false (fun i => match i with 0 => PLoop | _ => PIdle end) false.
Definition set_pc (s : state) i p := mkC (c_flag s) (c_tcp s) (c_chan s) (upd (c_pc s) i p) (c_crash s).
Definition close_message : bytes := bs "TTL expired". (* 20 *)

Definition start (o : op) : pc := match o with ORead => PResetR | OWrite b => PChkW b | OClose => PCas true end.
Definition won (x : bool) : pc := if x then PRet OClose ROk else PDone.
Definition lost (x : bool) : pc := if x then PRet OClose RErrClosed else PDone.
Definition prefix_of (p b : bytes) : Prop := exists q, b = p ++ q.

Inductive step : state -> option event -> state -> Prop :=
| call s i o : c_crash s = false -> c_pc s i = PIdle -> step s (Some (ECall i o)) (set_pc s i (start o))
| ret_ s i o r : c_crash s = false -> c_pc s i = PRet o r -> step s (Some (ERet i o r)) (set_pc s i PDone)
(* the worker, 137-152 *)
| reset_r s i : c_crash s = false -> c_pc s i = PResetR -> c_pc s 0 = PLoop -> step s None (set_pc s i PReading)
| reset_w s i b : c_crash s = false -> c_pc s i = PResetW b -> c_pc s 0 = PLoop -> step s None (set_pc s i (PWriting b))
| w_closed s : c_crash s = false -> c_pc s 0 = PLoop -> c_chan s = true -> step s None (set_pc s 0 PDone)
| w_timer s : c_crash s = false -> c_pc s 0 = PLoop -> step s (Some ETimer) (set_pc s 0 (PCas false))
(* Read, 76-93 *)
| r_obj s i : c_crash s = false -> c_pc s i = PReading -> step s None (set_pc s i (PRet ORead ROk))
| r_err s i : c_crash s = false -> c_pc s i = PReading -> step s None (set_pc s i (PRet ORead RErr))
| r_eof s i j : c_crash s = false -> c_pc s i = PReading -> c_pc s j = PIdle -> step s None (set_pc (set_pc s i (PRet ORead RErrClosed)) j PChk)
| r_chk s i : c_crash s = false -> c_pc s i = PChk -> step s None (set_pc s i (if c_flag s then PDone else PCas false))
(* Write, 95-111 *)
| wr_chk s i b : c_crash s = false -> c_pc s i = PChkW b -> step s None (set_pc s i (if c_flag s then PRet (OWrite b) RErrClosed else PResetW b))
| wr_all s i b : c_crash s = false -> c_pc s i = PWriting b -> c_tcp s = true -> step s (Some (EOut i b)) (set_pc s i (PRet (OWrite b) ROk))
| wr_part s i b p : c_crash s = false -> c_pc s i = PWriting b -> c_tcp s = true -> prefix_of p b -> step s (Some (EOut i p)) (set_pc s i (PRet (OWrite b) RErr))
| wr_fail s i b : c_crash s = false -> c_pc s i = PWriting b -> step s None (set_pc s i (PRet (OWrite b) RErr))
(* Close, 113-123 *)
| x_win s i x : c_crash s = false -> c_pc s i = PCas x -> c_flag s = false ->
    step s (Some (EWin i)) (mkC true (c_tcp s) (c_chan s) (upd (c_pc s) i (PMsg x)) false)
| x_lose s i x : c_crash s = false -> c_pc s i = PCas x -> c_flag s = true -> step s None (set_pc s i (lost x))
| x_msg s i x p : c_crash s = false -> c_pc s i = PMsg x -> prefix_of p close_message -> step s (Some (EOut i p)) (set_pc s i (PTcp x))
| x_tcp s i x : c_crash s = false -> c_pc s i = PTcp x -> step s None (mkC (c_flag s) false (c_chan s) (upd (c_pc s) i (PChan x)) false)
| x_chan s i x : c_crash s = false -> c_pc s i = PChan x -> c_chan s = false -> step s None (mkC (c_flag s) (c_tcp s) true (upd (c_pc s) i (won x)) false)
| x_panic s i x : c_crash s = false -> c_pc s i = PChan x -> c_chan s = true -> step s (Some EPanic) (mkC (c_flag s) (c_tcp s) (c_chan s) (c_pc s) true).

Definition runs (tr : list event) (s : state) : Prop := exec step init tr s.
