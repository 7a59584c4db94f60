(* The whole program of a server that came up with a database file and with replication: the process
   and its signal handler (Signals.v) and the master serving replicas (Master.v), on one log file.
   - Records are written to the file by the log goroutines (engine.go:218); it is flushed for a
     replica (master.go:119) and by engine.Stop (engine.go:201).
   - engine.Start calls master.Start (engine.go:140-142) and engine.Stop calls master.Stop
     (engine.go:200) before its flush.
   - SetFile (engine.go:288-294) was called by Init (server.go:120, 344).
   - A crash of one part ends the process, and so does its exit. *)
From Coq Require Import List Bool ZArith.
From Verif Require Import Base Lts Db Log Persist Server Process Signals Master.
Import ListNotations.

Record system := mkY { y_host : host; y_mast : master }.
Inductive event := YHost (a : Signals.event) | YMaster (b : Master.event) | YBoth (a : Signals.event) (b : Master.event).
Definition y_srv (y : system) : Server.state := x_srv (h_proc (y_host y)).
Definition y_file (y : system) : pfile := x_file (h_proc (y_host y)).
Definition live (y : system) : Prop := x_gone (h_proc (y_host y)) = false /\ s_crash (y_srv y) = false /\ m_crash (y_mast y) = false.

(* What each part does without the other. *)
Definition host_alone (l : option Signals.event) : Prop := match l with Some (HProc (XLog _)) | Some (HProc XFlush) => False | _ => True end.
Definition master_alone (l : option Master.event) : Prop := match l with Some (MFile _) | Some (MLog _) | Some (MFlush _) | Some MStop => False | _ => True end.
Inductive move : system -> option event -> system -> Prop :=
| alone x l x' m : Signals.step true x l x' -> host_alone l -> move (mkY x m) (option_map YHost l) (mkY x' m)
| serves x m l m' : Master.step m l m' -> master_alone l -> m_file m' = m_file m -> move (mkY x m) (option_map YMaster l) (mkY x m')
(* engine.go:218 *)
| writes_ x x' m m' v d : Signals.step true x (Some (HProc (XLog v))) x' -> pack_log v = Some d -> Master.step m (Some (MLog d)) m' -> m_file m' = Some (x_file (h_proc x')) ->
    move (mkY x m) (Some (YBoth (HProc (XLog v)) (MLog d))) (mkY x' m')
(* master.go:119 *)
| flush_for x x' m m' h b : Signals.step true x (Some (HProc XFlush)) x' -> x_srv (h_proc x') = x_srv (h_proc x) -> m_h m h = HFlush -> b = MFlush h \/ b = MFail h ->
    Master.step m (Some b) m' -> m_file m' = Some (x_file (h_proc x')) -> move (mkY x m) (Some (YBoth (HProc XFlush) b)) (mkY x' m')
(* engine.go:200 *)
| stop_master x m m' : s_stop (x_srv (h_proc x)) = XShut -> Master.step m (Some MStop) m' -> move (mkY x m) (Some (YMaster MStop)) (mkY x m')
(* engine.go:201 *)
| stop_flush x x' m : Signals.step true x (Some (HProc XFlush)) x' -> s_stop (x_srv (h_proc x)) = XShut -> s_stop (x_srv (h_proc x')) = XFlushed -> m_stop m = SOver ->
    move (mkY x m) (Some (YHost (HProc XFlush))) (mkY x' (set_file m (x_file (h_proc x')))).
Definition step (y : system) (l : option event) (y' : system) : Prop := live y /\ move y l y'.
Definition start (d : db) (input : nat -> bytes) (f : bytes) : system := mkY (mkH (Process.start d input f) HNew) (set_file new (open_file f)).
Definition runs (d : db) (input : nat -> bytes) (f : bytes) (tr : list event) (y : system) : Prop := exec step (start d input f) tr y.

(* What a run shows of each part; the master was given the file before. *)
Definition hosts (tr : list event) : list Signals.event := flat_map (fun e => match e with YHost a | YBoth a _ => [a] | YMaster _ => [] end) tr.
Definition masters (f : bytes) (tr : list event) : list Master.event := MFile f :: flat_map (fun e => match e with YMaster b | YBoth _ b => [b] | YHost _ => [] end) tr.
