(* pkg/log/persistent.go: the buffered log file.  PersistentFile guards every method with
   a mutex, so concurrent calls behave as some sequence of the operations below.  The
   bufio.Writer it wraps (Go standard library, bufio/bufio.go) is modelled in full for
   the methods used, Write and Flush; its buffer holds 4096 bytes.  WriteByte,
   WriteString, Size, Available and Buffered are not used by the project; Writer.v has
   them. *)
From Verif Require Import Base.
From Coq Require Import ZArith List Ascii Bool.
Import ListNotations.
Open Scope Z_scope.

(* What the operating system does with one write(2) loop of os.File.Write: everything is
   written; or it fails after some bytes; or the process dies after some bytes. *)
Inductive wout := WOk | WFail (n : nat) | WDie (n : nat).

(* [p_err] is bufio's sticky error; [p_dead] says the process has died, after which
   nothing happens any more. *)
Record pfile := mkPfile { p_file : bytes; p_buf : bytes; p_err : bool; p_dead : bool }.
Definition open_file (f : bytes) : pfile := mkPfile f [] false false.

(* os.File.Write on a file opened with O_APPEND (server.go:338): new file contents, how
   many bytes were written, whether an error was returned, whether the process died. *)
Definition file_write (f d : bytes) (w : wout) : bytes * nat * bool * bool :=
  match w with
  | WOk => (f ++ d, List.length d, false, false)
  | WFail n => (f ++ firstn n d, Nat.min n (List.length d), true, false)
  | WDie n => (f ++ firstn n d, Nat.min n (List.length d), true, true)
  end.

(* The outcomes of the coming file writes; once the list is used up all succeed. *)
Definition next_out (ws : list wout) : wout * list wout :=
  match ws with [] => (WOk, []) | w :: ws' => (w, ws') end.

Definition buf_size : nat := 4096.

(* bufio.Writer.Flush: with a sticky error or an empty buffer nothing is written; after a
   short write the rest stays in the buffer. *)
Definition flush (p : pfile) (ws : list wout) : pfile * list wout :=
  if p_err p then (p, ws)
  else match p_buf p with
  | [] => (p, ws)
  | _ =>
      let '(w, ws') := next_out ws in
      let '(f, n, e, dd) := file_write (p_file p) (p_buf p) w in
      (mkPfile f (skipn n (p_buf p)) e dd, ws')
  end.

(* bufio.Writer.Write on an empty buffer: data that does not fit goes straight to the
   file, the rest is kept. *)
Definition write_fresh (p : pfile) (d : bytes) (ws : list wout) : pfile * list wout :=
  if (List.length d <=? buf_size)%nat then (mkPfile (p_file p) d (p_err p) (p_dead p), ws)
  else
    let '(w, ws') := next_out ws in
    let '(f, _, e, dd) := file_write (p_file p) d w in
    (mkPfile f [] e dd, ws').

(* bufio.Writer.Write.  Its loop runs at most twice: if the data does not fit and the
   buffer is not empty, the buffer is filled and flushed; it is then empty. *)
Definition write (p : pfile) (d : bytes) (ws : list wout) : pfile * list wout :=
  if p_err p then (p, ws)
  else
    let room := (buf_size - List.length (p_buf p))%nat in
    if (List.length d <=? room)%nat then (mkPfile (p_file p) (p_buf p ++ d) false (p_dead p), ws)
    else match p_buf p with
    | [] => write_fresh p d ws
    | _ =>
        let '(p1, ws1) := flush (mkPfile (p_file p) (p_buf p ++ firstn room d) false (p_dead p)) ws in
        if p_err p1 then (p1, ws1) else write_fresh p1 (skipn room d) ws1
    end.

(* persistent.go:45-50 Flush, 65-70 Write: what is done, and whether it succeeded.  Once
   the process is dead nothing is done and nothing is reported. *)
Inductive pop := PWrite (d : bytes) | PFlush.
Definition step (p : pfile) (o : pop) (ws : list wout) : pfile * bool * list wout :=
  if p_dead p then (p, false, ws)
  else
    let '(p', ws') := match o with PWrite d => write p d ws | PFlush => flush p ws end in
    (p', negb (p_err p'), ws').
Fixpoint steps (p : pfile) (l : list pop) (ws : list wout) : pfile * list bool :=
  match l with
  | [] => (p, [])
  | o :: l' => let '(p1, ok, ws1) := step p o ws in let '(p2, oks) := steps p1 l' ws1 in (p2, ok :: oks)
  end.

(* pkg/db/engine.go:199-203 Stop, up to closing the shutdown channel.  [e.master] is nil
   when replication is off (engine.go:55-61), [e.file] when no database file was given;
   a method call through either crashes (master.stop closes connections only). *)
Definition stop (master : bool) (file : option pfile) (ws : list wout) : res (pfile * list wout) :=
  if master then match file with None => Panic | Some p => Ret (flush p ws) end else Panic.
