(* pkg/replication: how a replica copies the master's log. *)
From Verif Require Import Base UtilIndex Resp Log Persist.
From Coq Require Import ZArith List Ascii Bool.
Import ListNotations.
Open Scope Z_scope.

(* master.go:94-177 handleConn, for a master with a file: flush, copy the file, send its
   size (as a uint32) and its contents.  None: an error, nothing is sent.  The copy is
   taken of the file as it is then; [copied] is what io.Copy read. *)
Definition replica_stream (copied : bytes) : bytes := le32 (blen copied) ++ copied.
Definition serve_replica (p : pfile) (ws : list wout) : pfile * option bytes :=
  let '(p', _) := flush p ws in
  if p_err p' then (p', None) else (p', Some (replica_stream (p_file p'))).

(* replica.go:39-65 Receive on everything the connection delivered before it ended;
   None is an error. *)
Definition receive (s : bytes) : option (list vlog) :=
  match read_exact 4 s with
  | None => None
  | Some (h, s1) =>
      let n := le32_value h in
      if n =? 0 then Some []
      else match read_exact n s1 with
           | None => None
           | Some (m, _) => let '(l, e) := parse_log m in if e then None else Some l
           end
  end.

(* pkg/network/server.go:317-335 fromMaster: the records that are applied. *)
Definition from_master (s : bytes) : list vlog := match receive s with Some l => l | None => [] end.
