(* pkg/concurrency/broadcast.go as a transition system. V is interface{}; vnil is nil. *)
From Coq Require Import List Arith Bool.
From Verif Require Import Lts.
Import ListNotations.

Section Broadcast.
  Context {V : Type} (vnil : V).
  Inductive event := ECallSet (i : nat) (v : V) | ERetSet (i : nat) (v : V) | ECallGet (i : nat) | ERetGet (i : nat) (v : V) | EPanic.
  (* A call: not made; Set before the assignment (29) and before the close (30); Get before the channel
     receive (34) and before the read (35); about to return. *)
  Inductive pc := PIdle | PSet (v : V) | PSetClose (v : V) | PSetRet (v : V) | PGet | PRead | PGetRet (v : V) | PDone.
  Record state := mkB { b_message : V; b_ready : bool; b_pc : nat -> pc; b_crash : bool }.
  (* NewBroadCaster, 21-26 *)
  Definition init : state := mkB vnil false (fun _ => PIdle) false.
  Definition set_pc (s : state) i p := mkB (b_message s) (b_ready s) (upd (b_pc s) i p) (b_crash s).
  Inductive step : state -> option event -> state -> Prop :=
  | call_set s i v : b_crash s = false -> b_pc s i = PIdle -> step s (Some (ECallSet i v)) (set_pc s i (PSet v))
  | call_get s i : b_crash s = false -> b_pc s i = PIdle -> step s (Some (ECallGet i)) (set_pc s i PGet)
  (* Set, 28-31 *)
  | set_message s i v : b_crash s = false -> b_pc s i = PSet v -> step s None (mkB v (b_ready s) (upd (b_pc s) i (PSetClose v)) false)
  | set_close s i v : b_crash s = false -> b_pc s i = PSetClose v -> b_ready s = false ->
      step s None (mkB (b_message s) true (upd (b_pc s) i (PSetRet v)) false)
  | set_panic s i v : b_crash s = false -> b_pc s i = PSetClose v -> b_ready s = true ->
      step s (Some EPanic) (mkB (b_message s) (b_ready s) (b_pc s) true)
  | set_ret s i v : b_crash s = false -> b_pc s i = PSetRet v -> step s (Some (ERetSet i v)) (set_pc s i PDone)
  (* Get, 33-36 *)
  | get_ready s i : b_crash s = false -> b_pc s i = PGet -> b_ready s = true -> step s None (set_pc s i PRead)
  | get_read s i : b_crash s = false -> b_pc s i = PRead -> step s None (set_pc s i (PGetRet (b_message s)))
  | get_ret s i v : b_crash s = false -> b_pc s i = PGetRet v -> step s (Some (ERetGet i v)) (set_pc s i PDone).
  Definition runs (tr : list event) (s : state) : Prop := exec step init tr s.
End Broadcast.
Arguments event : clear implicits.
Arguments pc : clear implicits.
Arguments state : clear implicits.
