(* C98: the goroutines of a server, and which of them may be there when it has nothing to do.
   The accept loop and the goroutines of the log are not in Server.v. *)
From Coq Require Import List Arith.
From Verif Require Import Base Lts Resp Engine DataChannel Topic Conn Server.
Import ListNotations.

(* engine.Start; responseWorker; the reader of connection c (newConn), its expiry worker, its
   closers (Read at the end of the stream); a publication on the request or the response topic
   with its collecting and removing goroutines; a sending goroutine of such a publication. *)
Inductive goroutine :=
| GoEngine | GoWorker | GoReader (c : nat) | GoExpiry (c : nat) | GoCloser (c i : nat)
| GoAsk (p : nat) | GoReply (p : nat) | GoAskTo (g : nat) | GoReplyTo (g : nat).
Definition publishing {A : Type} (q : pub A) : Prop := ~ ((p_phase q = DNone \/ p_phase q = DRemove) /\ p_got q = None /\ p_remove q = []).
Definition handing (g : gor) : Prop := g_pc g <> GNone /\ forall b, g_pc g <> GOver b.
Definition is_closer (p : pc) : Prop := match p with PChk | PCas false | PMsg false | PTcp false | PChan false => True | _ => False end.
Definition here (s : state) (x : goroutine) : Prop :=
  match x with
  | GoEngine => s_eng s <> EOver
  | GoWorker => s_wrk s <> WOver
  | GoReader c => s_rd s c <> RNone /\ s_rd s c <> ROver
  | GoExpiry c => s_rd s c <> RNone /\ c_pc (s_conn s c) 0 <> Conn.PDone
  | GoCloser c i => i <> 0 /\ is_closer (c_pc (s_conn s c) i)
  | GoAsk p => publishing (t_pub (s_req s) p)
  | GoReply p => publishing (t_pub (s_rsp s) p)
  | GoAskTo g => handing (t_g (s_req s) g)
  | GoReplyTo g => handing (t_g (s_rsp s) g)
  end.

(* Connection c has been closed. *)
Definition closed_by_us (tr : list event) (c : nat) : Prop := exists i, In (SConn c (EWin i)) tr.
(* What a goroutine of an idle server waits for: the engine and the response worker for an event
   in Receive, the reader in Read for the network or, on a closed connection, for the expiry
   worker that is gone; the expiry worker of an open connection for its timer.  (Conn.v lets a
   read succeed before an object is there; the server then waits for one: the third case.) *)
Definition idles (tr : list event) (s : state) (x : goroutine) : Prop :=
  match x with
  | GoEngine => exists j, s_eng s = EWait j /\ d_pc (t_ch (s_req s) 0) j = PRecv
  | GoWorker => exists j, s_wrk s = WWait j /\ d_pc (t_ch (s_rsp s) 0) j = PRecv
  | GoReader c => exists k i, s_rd s c = RIn k i /\
      (c_pc (s_conn s c) i = PReading \/ (c_pc (s_conn s c) i = PResetR /\ closed_by_us tr c) \/
       (c_pc (s_conn s c) i = Conn.PRet ORead ROk /\ forall q r, parse (s_in s c) <> POk q r))
  | GoExpiry c => c_pc (s_conn s c) 0 = Conn.PLoop /\ ~ closed_by_us tr c
  | _ => False
  end.
(* The most that is left. *)
Definition lasting (cs : list nat) : list goroutine := GoEngine :: GoWorker :: flat_map (fun c => [GoReader c; GoExpiry c]) cs.
