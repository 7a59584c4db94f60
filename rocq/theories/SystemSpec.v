(* Vocabulary for the whole program. *)
From Verif Require Import Base Lts Resp Db Engine Log LogSpec Recovery RecoverySpec OrderSpec Process Signals System.
From Coq Require Import List.
Import ListNotations.

(* Runs in which no log goroutine is started while one for a request that clashes is still running
   (as RestartSpec.patient, for the whole program). *)
Definition careful (y : system) (l : option System.event) (y' : system) : Prop :=
  System.step y l y' /\
  forall c k q v, l = Some (YHost (HProc (XSpawn c k q v))) -> forall w t q', In w (x_pend (h_proc (y_host y))) -> log_of t q' = Some w -> ~ clash q' q.
Definition careful_runs (d : db) (input : nat -> bytes) (f : bytes) (tr : list System.event) (y : system) : Prop := exec careful (System.start d input f) tr y.
