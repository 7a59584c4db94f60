(* pkg/replication/master.go as a transition system: the accept loop, the goroutines serving
   replicas, the goroutines writing to the log meanwhile, and Stop.
   - A connection is named by a number, its remote address; an address is not used again after its
     connection ended.
   - A write to the log (persistent.go:65-70) and a flush (45-50) happen at once: they are guarded by
     a mutex.  io.Copy at 131 reads the same file without it, piece by piece.
   - The map of connections is guarded by m.mutex except in stop (88), where the Go runtime ends
     the process if it finds a write to the map in progress (runtime/map.go: "concurrent map iteration
     and map write").  Whether it finds it depends on when exactly; both are possible here.
   - The engine flushes the log after Stop (engine.go:199-203), while replicas are still served.
   - SetFile (187-190) is not guarded at all; here it happens at once.
   - Temporary files are left out: the copy is private to its goroutine and removed when it
     returns (114-117).  Creating, opening, seeking and reading may fail at any time (MFail). *)
From Coq Require Import List Arith Bool ZArith.
From Verif Require Import Base Lts Log Persist Replication.
Import ListNotations.
Local Open Scope nat_scope.

(* handleConn 94-177: not accepted; before Lock (103); at 104; before Flush (119), with or without the
   temporary file; copying (131); before sending the length (156), with the copy; before sending the
   copy (165); before Lock (174); at 175; after Unlock (176), before Close (101); returned. *)
Inductive handler := HNone | HAsk | HPut | HFlush | HCopy (t : bytes) | HHead (t : bytes) | HBody (t : bytes) | HDone | HDel | HClose | HOver.
(* stop 83-92: not called; before Lock (85); before the loop; in it, with what it must still visit and
   what it has visited; returned. *)
Inductive stopper := SNone | SLock | SLoop | SRange (must seen : list nat) | SOver.

(* [m_busy]: the handler that is changing the map, under the mutex.  [m_open]: the connection is
   open on the master's side. *)
Record master := mkM {
  m_loop : bool; m_started : bool; m_shut : bool; m_conn : list nat; m_busy : option nat;
  m_h : nat -> handler; m_open : nat -> bool; m_file : option pfile; m_stop : stopper; m_crash : bool }.
Definition new : master := mkM false false false [] None (fun _ => HNone) (fun _ => false) None SNone false.
Definition set_h (m : master) h p := mkM (m_loop m) (m_started m) (m_shut m) (m_conn m) (m_busy m) (upd (m_h m) h p) (m_open m) (m_file m) (m_stop m) (m_crash m).
Definition set_open (m : master) h b := mkM (m_loop m) (m_started m) (m_shut m) (m_conn m) (m_busy m) (m_h m) (upd (m_open m) h b) (m_file m) (m_stop m) (m_crash m).
Definition set_map (m : master) l b := mkM (m_loop m) (m_started m) (m_shut m) l b (m_h m) (m_open m) (m_file m) (m_stop m) (m_crash m).
Definition set_file (m : master) p := mkM (m_loop m) (m_started m) (m_shut m) (m_conn m) (m_busy m) (m_h m) (m_open m) (Some p) (m_stop m) (p_dead p).
Definition set_stop (m : master) x := mkM (m_loop m) (m_started m) (m_shut m) (m_conn m) (m_busy m) (m_h m) (m_open m) (m_file m) x (m_crash m).
Definition over (m : master) h := set_open (set_h m h HOver) h false.

Inductive event :=
| MStart | MFile (f : bytes)
| MLog (d : bytes)            (* a write to the log *)
| MAccept (h : nat)
| MPut (h : nat) | MPutDone (h : nat)
| MFlush (h : nat)            (* a successful flush for h *)
| MCopied (h : nat)           (* the copy for h is complete *)
| MOut (h : nat) (b : bytes)  (* b is sent to h *)
| MFail (h : nat)             (* h is given up *)
| MDel (h : nat) | MDelDone (h : nat)
| MStop | MVisit (h : nat) | MStopped
| MCrash.

(* [p] is the beginning of [b] that was sent before an error. *)
Definition part (p b : bytes) : Prop := exists q, b = p ++ q.
Definition working (p : handler) : Prop := match p with HFlush | HCopy _ | HHead _ | HBody _ => True | _ => False end.

Inductive move : master -> option event -> master -> Prop :=
(* start 62-81 *)
| start_ m : m_started m = false -> move m (Some MStart) (mkM (negb (m_shut m)) true (m_shut m) (m_conn m) (m_busy m) (m_h m) (m_open m) (m_file m) (m_stop m) (m_crash m))
| loop_err m : m_loop m = true -> move m None (mkM false true (m_shut m) (m_conn m) (m_busy m) (m_h m) (m_open m) (m_file m) (m_stop m) (m_crash m))
| accept m h p : m_loop m = true -> m_h m h = HNone -> m_file m = Some p -> move m (Some (MAccept h)) (set_open (set_h m h HAsk) h true)
(* 95-98: the connection is not closed *)
| accept_none m h : m_loop m = true -> m_h m h = HNone -> m_file m = None -> move m (Some (MAccept h)) (set_open (set_h m h HOver) h true)
(* SetFile, and the log *)
| file_ m f : m_file m = None -> move m (Some (MFile f)) (set_file m (open_file f))
| log_ m p d ws p' ws' : m_file m = Some p -> write p d ws = (p', ws') -> move m (Some (MLog d)) (set_file m p')
(* engine.go:201, the flush when the engine stops *)
| sync_ m p ws p' ws' : m_file m = Some p -> flush p ws = (p', ws') -> move m None (set_file m p')
(* handleConn *)
| put m h : m_h m h = HAsk -> m_busy m = None -> move m (Some (MPut h)) (set_map (set_h m h HPut) (m_conn m) (Some h))
| put_done m h : m_h m h = HPut -> move m (Some (MPutDone h)) (set_map (set_h m h HFlush) (h :: m_conn m) None)
| flush_ok_ m h p ws p' ws' : m_h m h = HFlush -> m_file m = Some p -> flush p ws = (p', ws') -> p_err p' = false -> move m (Some (MFlush h)) (set_file (set_h m h (HCopy [])) p')
| flush_err_ m h p ws p' ws' : m_h m h = HFlush -> m_file m = Some p -> flush p ws = (p', ws') -> p_err p' = true -> move m (Some (MFail h)) (set_file (over m h) p')
| copy m h t p n : m_h m h = HCopy t -> m_file m = Some p -> List.length t < n <= List.length (p_file p) -> move m None (set_h m h (HCopy (firstn n (p_file p))))
| copied m h t p : m_h m h = HCopy t -> m_file m = Some p -> List.length t = List.length (p_file p) -> move m (Some (MCopied h)) (set_h m h (HHead t))
| head m h t : m_h m h = HHead t -> m_open m h = true -> move m (Some (MOut h (le32 (blen t)))) (set_h m h (HBody t))
| head_err m h t p : m_h m h = HHead t -> m_open m h = true -> part p (le32 (blen t)) -> move m (Some (MOut h p)) (over m h)
| body m h t : m_h m h = HBody t -> m_open m h = true -> move m (Some (MOut h t)) (set_h m h HDone)
| body_err m h t p : m_h m h = HBody t -> m_open m h = true -> part p t -> move m (Some (MOut h p)) (over m h)
| fail m h : working (m_h m h) -> move m (Some (MFail h)) (over m h)
| del m h : m_h m h = HDone -> m_busy m = None -> move m (Some (MDel h)) (set_map (set_h m h HDel) (m_conn m) (Some h))
| del_done m h : m_h m h = HDel -> move m (Some (MDelDone h)) (set_map (set_h m h HClose) (remove Nat.eq_dec h (m_conn m)) None)
| close_ m h : m_h m h = HClose -> move m None (over m h)
(* stop *)
| stop_ m : m_shut m = false -> move m (Some MStop) (mkM (m_loop m) (m_started m) true (m_conn m) (m_busy m) (m_h m) (m_open m) (m_file m) SLock (m_crash m))
| stop_lock m : m_stop m = SLock -> m_busy m = None -> move m None (set_stop m SLoop)
| stop_loop m : m_stop m = SLoop -> move m None (set_stop m (SRange (m_conn m) []))
| stop_visit m h l s : m_stop m = SRange l s -> In h (m_conn m) -> ~ In h s -> move m (Some (MVisit h)) (set_open (set_stop m (SRange l (h :: s))) h false)
| stop_end m l s : m_stop m = SRange l s -> (forall h, In h l -> In h (m_conn m) -> In h s) -> move m (Some MStopped) (set_stop m SOver)
| stop_race m l s h : m_stop m = SRange l s -> m_busy m = Some h ->
    move m (Some MCrash) (mkM (m_loop m) (m_started m) (m_shut m) (m_conn m) (m_busy m) (m_h m) (m_open m) (m_file m) (m_stop m) true).
Definition step (m : master) (l : option event) (m' : master) : Prop := m_crash m = false /\ move m l m'.
Definition runs (tr : list event) (m : master) : Prop := exec step new tr m.

(* What was sent to h, and what the log holds: the file given and the records written since. *)
Definition sent (h : nat) (tr : list event) : bytes := flat_map (fun a => match a with MOut h' b => if Nat.eqb h' h then b else [] | _ => [] end) tr.
Definition log (tr : list event) : bytes := flat_map (fun a => match a with MFile f => f | MLog d => d | _ => [] end) tr.
