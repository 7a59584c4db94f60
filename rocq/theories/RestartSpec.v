(* Vocabulary for processes that end anywhere and are started again. *)
From Verif Require Import Base Lts Resp HashC HashProofs Command Db Engine Log LogSpec Persist Recovery RecoverySpec OrderSpec Server Process.
From Coq Require Import ZArith List Bool Permutation.
Import ListNotations.

(* The requests a run has executed. *)
Definition executed (tr : list Process.event) : list (env * robj) :=
  flat_map (fun a => match a with XSrv (SHandle _ _ e q _) => [(e, q)] | _ => [] end) tr.
(* [h]: what a run has executed, and the request being executed in the end if it has its log
   record already; with the stamps of the records the run has made. *)
Definition history (tr : list Process.event) (h : list entry) : Prop :=
  records h = spawned tr /\
  (requests h = executed tr \/
   exists h0 x c k v, h = h0 ++ [x] /\ requests h0 = executed tr /\ log_of (h_stamp x) (h_req x) = Some v /\
     In (XSpawn c k (h_req x) v) tr /\ forall e q o, ~ In (XSrv (SHandle c k e q o)) tr).

(* Runs in which no log goroutine is started while one for a request that clashes is still running. *)
Definition patient (clean : bool) (x : process) (l : option Process.event) (x' : process) : Prop :=
  Process.step clean x l x' /\
  forall c k q v, l = Some (XSpawn c k q v) -> forall w t q', In w (x_pend x) -> log_of t q' = Some w -> ~ clash q' q.
Definition pruns (clean : bool) (d : db) (input : nat -> bytes) (f : bytes) (tr : list Process.event) (x : process) : Prop :=
  exec (patient clean) (start d input f) tr x.

(* A file that ends with a complete record. *)
Definition whole (f : bytes) : Prop := exists vs bss, Forall2 packed vs bss /\ f = concat bss.

(* [lives hs f]: processes ran one after the other, each on the file and the contents the one before
   left, and the last left the file [f]; [hs] are their histories.  Each ended anywhere, but only a
   file without a torn record at its end is started from.  Requests being executed when a process
   ended would not have crashed it. *)
Inductive lives : list (list entry) -> bytes -> Prop :=
| lives_none : lives [] []
| lives_more hs f ords ds clean input tr x h d rs : lives hs f -> whole f -> (forall i, orders_ok (ords i)) -> recover ords f = Ret ds ->
    pruns clean (ds 1%Z) input f tr x -> history tr h -> run (ds 1%Z) (requests h) = Ret (d, rs) -> lives (hs ++ [h]) (p_file (x_file x)).

(* [h] is made of a first part of each history, of the logged requests of it in an order in which
   requests that clash are in the order they were executed. *)
Inductive survives : list (list entry) -> list entry -> Prop :=
| sv_none : survives [] []
| sv_more hs h h1 h2 m : survives hs h -> reordered free_entries (writes h1) h2 -> survives (hs ++ [h1]) (h ++ firstn m h2).
