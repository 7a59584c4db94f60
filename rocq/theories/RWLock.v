(* Methods that run one critical section under a sync.RWMutex, as a transition system. Used for
   lockedDataMap (pkg/types/data_map.go 56-104) and eventBus (pkg/concurrency/event_bus.go).
   S is the protected data, O the calls, R the results; writes o says whether o takes the write
   lock and mutates o whether it modifies the data; the access to the data takes time
   (begin .. end), and an access that runs at the same time as a modifying one kills the process (the Go runtime's "concurrent map writes").
   The mutex is modelled by its contract: any number of readers or one writer hold it, and a
   writer that waits for the readers keeps new readers and writers out (sync.RWMutex: "a blocked
   Lock call excludes new readers from acquiring the lock"). *)
From Coq Require Import List Arith Bool.
From Verif Require Import Lts.
Import ListNotations.

Section RWLock.
  Context {S O R : Type} (writes mutates : O -> bool) (apply : O -> S -> S * R).

  Inductive event := ECall (i : nat) (o : O) | EDo (i : nat) (o : O) (r : R) | ERet (i : nat) (o : O) (r : R) | ECrash.
  (* not called; waiting for the lock; a writer waiting for the readers; holding the lock; accessing the data; done, still holding it;
     lock released, about to return; returned *)
  Inductive pc := PIdle | PWant (o : O) | PPend (o : O) | PHold (o : O) | PBusy (o : O) | PAfter (o : O) (r : R) | PRet (o : O) (r : R) | PDone.
  Record state := mkRW { w_data : S; w_readers : list nat; w_writer : option nat; w_pc : nat -> pc; w_crash : bool }.
  Definition init (d : S) : state := mkRW d [] None (fun _ => PIdle) false.
  Definition set_pc (s : state) i p := mkRW (w_data s) (w_readers s) (w_writer s) (upd (w_pc s) i p) (w_crash s).
  Definition drop (i : nat) (l : list nat) : list nat := filter (fun j => negb (Nat.eqb j i)) l.

  Inductive step : state -> option event -> state -> Prop :=
  | call s i o : w_crash s = false -> w_pc s i = PIdle -> step s (Some (ECall i o)) (set_pc s i (PWant o))
  | rlock s i o : w_crash s = false -> w_pc s i = PWant o -> writes o = false -> w_writer s = None ->
      step s None (mkRW (w_data s) (i :: w_readers s) None (upd (w_pc s) i (PHold o)) false)
  | pend s i o : w_crash s = false -> w_pc s i = PWant o -> writes o = true -> w_writer s = None ->
      step s None (mkRW (w_data s) (w_readers s) (Some i) (upd (w_pc s) i (PPend o)) false)
  | lock s i o : w_crash s = false -> w_pc s i = PPend o -> w_readers s = [] ->
      step s None (mkRW (w_data s) [] (w_writer s) (upd (w_pc s) i (PHold o)) false)
  | begin s i o : w_crash s = false -> w_pc s i = PHold o -> step s None (set_pc s i (PBusy o))
  | clash s i j o o' : w_crash s = false -> i <> j -> w_pc s i = PBusy o -> w_pc s j = PBusy o' -> mutates o = true ->
      step s (Some ECrash) (mkRW (w_data s) (w_readers s) (w_writer s) (w_pc s) true)
  | end_ s i o : w_crash s = false -> w_pc s i = PBusy o ->
      step s (Some (EDo i o (snd (apply o (w_data s)))))
        (mkRW (fst (apply o (w_data s))) (w_readers s) (w_writer s) (upd (w_pc s) i (PAfter o (snd (apply o (w_data s))))) false)
  | runlock s i o r : w_crash s = false -> w_pc s i = PAfter o r -> writes o = false ->
      step s None (mkRW (w_data s) (drop i (w_readers s)) (w_writer s) (upd (w_pc s) i (PRet o r)) false)
  | unlock s i o r : w_crash s = false -> w_pc s i = PAfter o r -> writes o = true ->
      step s None (mkRW (w_data s) (w_readers s) None (upd (w_pc s) i (PRet o r)) false)
  | ret s i o r : w_crash s = false -> w_pc s i = PRet o r -> step s (Some (ERet i o r)) (set_pc s i PDone).

  Definition runs (d : S) (tr : list event) (s : state) : Prop := exec step (init d) tr s.

  (* The accesses in the order they took effect, and a sequential history of calls. *)
  Definition did (a : event) : list (nat * O * R) := match a with EDo i o r => [(i, o, r)] | _ => [] end.
  Definition accesses (tr : list event) : list (nat * O * R) := flat_map did tr.
  Inductive history : S -> list (nat * O * R) -> S -> Prop :=
  | h_nil d : history d [] d
  | h_cons d i o r d1 h d2 : apply o d = (d1, r) -> history d1 h d2 -> history d ((i, o, r) :: h) d2.
End RWLock.
Arguments event : clear implicits.
Arguments pc : clear implicits.
Arguments state : clear implicits.
(* The goroutines that called, and whether an event is a call. *)
Definition called {O R : Type} (tr : list (event O R)) : list nat := flat_map (fun a => match a with ECall i _ => [i] | _ => [] end) tr.
Definition is_call {O R : Type} (a : event O R) : Prop := match a with ECall _ _ => True | _ => False end.
