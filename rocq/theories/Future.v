(* pkg/concurrency/future.go and task.go as a transition system. One state is one Future
   with any number of calls in progress on it; a step is one atomic action of one goroutine.
   V is the type of task results and E of task errors (Go: interface{} and error), with
   their nil. A task that panics is not modelled; a task that never returns is. *)
From Coq Require Import List Arith Bool.
From Verif Require Import Lts.
Import ListNotations.

Section Future.
  Context {V E : Type} (vnil : V) (enil : E).

  (* The methods of the interface: future.go 22-41. *)
  Inductive op := OGet | OWait | OWaitFor | OCancel.
  (* What they return: the pair of Get, nil, ErrCancelled, ErrFulfilled, ErrTimeout (8-17).
     Get returns (nil, ErrCancelled) when cancelled: RCancelled stands for that as well. *)
  Inductive ret := RGot (v : V) (e : E) | RNil | RCancelled | RFulfilled | RTimeout.

  Inductive event :=
  | EFinish (v : V) (e : E)          (* task.Run returned *)
  | ECall (i : nat) (o : op)
  | ERet (i : nat) (o : op) (r : ret)
  | EPanic.                          (* close of a closed channel *)

  (* The goroutine of start, 67-78. *)
  Inductive task := TRunning | TStore1 (v : V) (e : E) | TStore2 (e : E) | TSelect | TClosing | TOver.

  (* A call: not yet made, at its select, the two reads at the end of Get (99), the close in
     Cancel (87), about to return, returned. Every call has its own number. *)
  Inductive pc := PIdle | PAt (o : op) | PRead1 | PRead2 (v : V) | PClosing | PRet (o : op) (r : ret) | PDone.

  (* 43-49; a channel used only for closing is the flag "closed". *)
  Record state := mkF { f_task : task; f_result : V; f_err : E; f_done : bool; f_cancel : bool; f_pc : nat -> pc; f_crash : bool }.
  (* NewFuture, 53-65. *)
  Definition init : state := mkF TRunning vnil enil false false (fun _ => PIdle) false.

  Definition set_task (s : state) t := mkF t (f_result s) (f_err s) (f_done s) (f_cancel s) (f_pc s) (f_crash s).
  Definition set_pc (s : state) i p := mkF (f_task s) (f_result s) (f_err s) (f_done s) (f_cancel s) (upd (f_pc s) i p) (f_crash s).
  Definition crashed (s : state) := mkF (f_task s) (f_result s) (f_err s) (f_done s) (f_cancel s) (f_pc s) true.

  Inductive step : state -> option event -> state -> Prop :=
  (* start, 69: task.Run returns, then the two assignments *)
  | t_finish s v e : f_crash s = false -> f_task s = TRunning -> step s (Some (EFinish v e)) (set_task s (TStore1 v e))
  | t_store1 s v e : f_crash s = false -> f_task s = TStore1 v e ->
      step s None (mkF (TStore2 e) v (f_err s) (f_done s) (f_cancel s) (f_pc s) false)
  | t_store2 s e : f_crash s = false -> f_task s = TStore2 e ->
      step s None (mkF TSelect (f_result s) e (f_done s) (f_cancel s) (f_pc s) false)
  (* start, 70-76: the select, then the close *)
  | t_cancelled s : f_crash s = false -> f_task s = TSelect -> f_cancel s = true -> step s None (set_task s TOver)
  | t_default s : f_crash s = false -> f_task s = TSelect -> f_cancel s = false -> step s None (set_task s TClosing)
  | t_close s : f_crash s = false -> f_task s = TClosing -> f_done s = false ->
      step s None (mkF TOver (f_result s) (f_err s) true (f_cancel s) (f_pc s) false)
  | t_panic s : f_crash s = false -> f_task s = TClosing -> f_done s = true -> step s (Some EPanic) (crashed s)
  (* calls *)
  | c_call s i o : f_crash s = false -> f_pc s i = PIdle -> step s (Some (ECall i o)) (set_pc s i (PAt o))
  | c_ret s i o r : f_crash s = false -> f_pc s i = PRet o r -> step s (Some (ERet i o r)) (set_pc s i PDone)
  (* Wait 102-109, WaitFor 111-120; Get 92-99 calls Wait *)
  | c_done s i o : f_crash s = false -> f_pc s i = PAt o -> o = OWait \/ o = OWaitFor -> f_done s = true ->
      step s None (set_pc s i (PRet o RNil))
  | c_cancelled s i o : f_crash s = false -> f_pc s i = PAt o -> o <> OCancel -> f_cancel s = true ->
      step s None (set_pc s i (PRet o RCancelled))
  | c_timeout s i : f_crash s = false -> f_pc s i = PAt OWaitFor -> step s None (set_pc s i (PRet OWaitFor RTimeout))
  | g_done s i : f_crash s = false -> f_pc s i = PAt OGet -> f_done s = true -> step s None (set_pc s i PRead1)
  | g_read1 s i : f_crash s = false -> f_pc s i = PRead1 -> step s None (set_pc s i (PRead2 (f_result s)))
  | g_read2 s i v : f_crash s = false -> f_pc s i = PRead2 v -> step s None (set_pc s i (PRet OGet (RGot v (f_err s))))
  (* Cancel, 80-90: the select, then the close *)
  | x_fulfilled s i : f_crash s = false -> f_pc s i = PAt OCancel -> f_done s = true -> step s None (set_pc s i (PRet OCancel RFulfilled))
  | x_cancelled s i : f_crash s = false -> f_pc s i = PAt OCancel -> f_cancel s = true -> step s None (set_pc s i (PRet OCancel RCancelled))
  | x_default s i : f_crash s = false -> f_pc s i = PAt OCancel -> f_done s = false -> f_cancel s = false -> step s None (set_pc s i PClosing)
  | x_close s i : f_crash s = false -> f_pc s i = PClosing -> f_cancel s = false ->
      step s None (mkF (f_task s) (f_result s) (f_err s) (f_done s) true (upd (f_pc s) i (PRet OCancel RNil)) false)
  | x_panic s i : f_crash s = false -> f_pc s i = PClosing -> f_cancel s = true -> step s (Some EPanic) (crashed s).

  Definition runs (tr : list event) (s : state) : Prop := exec step init tr s.
End Future.
Arguments op : clear implicits.
Arguments ret : clear implicits.
Arguments event : clear implicits.
Arguments pc : clear implicits.
Arguments task : clear implicits.
Arguments state : clear implicits.
