(* pkg/log/persistent.go:17-84, every method of PersistentFile.  Each method holds the mutex
   (19, 47-48, 66-67, 73-74, 80-81; the readers 32-33, 39-40, 59-60 share it) from its first to
   its last step, so calls of several goroutines behave as some sequence of calls.  They are
   those of the Go 1.14 bufio.Writer (bufio/bufio.go), written out with its loops; Persist.v
   has the two that the project uses, without loops. *)
From Coq Require Import List Arith Bool.
From Verif Require Import Base Persist.
Import ListNotations.
Local Open Scope nat_scope.

(* persistent.go:57-62 Size, 31-36 Available, 38-43 Buffered; bufio: len(b.buf), len(b.buf)-b.n,
   b.n.  bufio.NewWriter makes a buffer of 4096 bytes. *)
Definition size (p : pfile) : nat := buf_size.
Definition available (p : pfile) : nat := buf_size - List.length (p_buf p).
Definition buffered (p : pfile) : nat := List.length (p_buf p).

(* The loop and the end of bufio's Write ([direct]: with an empty buffer the data goes straight
   to the file) and of its WriteString (the data goes through the buffer).  [nn] bytes have been
   taken; None: more than [fuel] rounds. *)
Fixpoint put (direct : bool) (fuel : nat) (p : pfile) (d : bytes) (nn : nat) (ws : list wout) : option (pfile * nat * list wout) :=
  match fuel with
  | 0 => None
  | S fuel' =>
      if (available p <? List.length d) && negb (p_err p) then
        if direct && (buffered p =? 0) then
          let '(w, ws') := next_out ws in
          let '(f, n, e, dd) := file_write (p_file p) d w in
          put direct fuel' (mkPfile f (p_buf p) e dd) (skipn n d) (nn + n) ws'
        else
          let n := Nat.min (available p) (List.length d) in
          let '(p', ws') := flush (mkPfile (p_file p) (p_buf p ++ firstn n d) (p_err p) (p_dead p)) ws in
          put direct fuel' p' (skipn n d) (nn + n) ws'
      else if p_err p then Some (p, nn, ws)
      else Some (mkPfile (p_file p) (p_buf p ++ d) (p_err p) (p_dead p), nn + List.length d, ws)
  end.
(* bufio's WriteByte: a full buffer is flushed first. *)
Definition put_byte (p : pfile) (c : Ascii.ascii) (ws : list wout) : pfile * nat * list wout :=
  if p_err p then (p, 0, ws)
  else
    let '(p', ws') := if available p =? 0 then flush p ws else (p, ws) in
    if p_err p' then (p', 0, ws') else (mkPfile (p_file p') (p_buf p' ++ [c]) (p_err p') (p_dead p'), 1, ws').

(* One call: how much it took (the int that Write and WriteString return; Flush takes nothing,
   WriteByte all or nothing) and whether it returned a nil error. *)
Inductive call := CWrite (d : bytes) | CByte (c : Ascii.ascii) | CString (d : bytes) | CFlush.
Definition do (fuel : nat) (p : pfile) (o : call) (ws : list wout) : option (pfile * nat * bool * list wout) :=
  if p_dead p then Some (p, 0, false, ws)
  else
    match
      match o with
      | CWrite d => put true fuel p d 0 ws
      | CString d => put false fuel p d 0 ws
      | CByte c => Some (put_byte p c ws)
      | CFlush => let '(p', ws') := flush p ws in Some (p', 0, ws')
      end
    with
    | Some (p', n, ws') => Some (p', n, negb (p_err p'), ws')
    | None => None
    end.
Fixpoint calls (fuel : nat) (p : pfile) (l : list call) (ws : list wout) : option (pfile * list (nat * bool)) :=
  match l with
  | [] => Some (p, [])
  | o :: l' =>
      match do fuel p o ws with
      | Some (p', n, ok, ws') => match calls fuel p' l' ws' with Some (p2, rs) => Some (p2, (n, ok) :: rs) | None => None end
      | None => None
      end
  end.
