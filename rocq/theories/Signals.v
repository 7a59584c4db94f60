(* The signal handler of the server (server.go:122-129) around the process (Process.v).
   - sigChan (123) has no buffer, and os/signal does not wait: a signal that arrives while the handler's goroutine
     is not at its receive (127) is dropped.  The goroutine receives once (127) and calls stop (128).
   - Signals before Notify (124) are not modelled (they kill the process), nor is SIGKILL, which cannot be
     caught.
   - The goroutine is started by Init (126); the model begins when Serve has started the
     other goroutines. *)
From Coq Require Import List Bool.
From Verif Require Import Base Lts Db Topic Server Process.
Import ListNotations.

(* The handler: not at its receive yet; at it; before stop; in it or after it. *)
Inductive handler := HNew | HWaits | HGot | HStops.
Record host := mkH { h_proc : process; h_sig : handler }.
Inductive event := HProc (a : Process.event) | HSignal.

(* The call of stop. *)
Definition is_stop (l : option Process.event) : bool := match l with Some (XSrv (SReq (TPublish _ QGone))) => true | _ => false end.
Inductive step (clean : bool) : host -> option event -> host -> Prop :=
| proceeds x l x' h : Process.step clean x l x' -> is_stop l = false -> step clean (mkH x h) (option_map HProc l) (mkH x' h)
| waits x : step clean (mkH x HNew) None (mkH x HWaits)
| signal_got x : step clean (mkH x HWaits) (Some HSignal) (mkH x HGot)
| signal_lost x h : h <> HWaits -> step clean (mkH x h) (Some HSignal) (mkH x h)
| stops x l x' : Process.step clean x l x' -> is_stop l = true -> step clean (mkH x HGot) (option_map HProc l) (mkH x' HStops).

Definition runs (clean : bool) (d : db) (input : nat -> bytes) (f : bytes) (tr : list event) (x : host) : Prop := exec (step clean) (mkH (Process.start d input f) HNew) tr x.
(* What a run shows of the process. *)
Definition of_proc (tr : list event) : list Process.event := flat_map (fun a => match a with HProc b => [b] | HSignal => [] end) tr.
