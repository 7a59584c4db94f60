(* cmd/client/main.go: the command line client talking to a server. *)
From Verif Require Import Base Resp StringC HashC Command Db Engine Conn Client.
From Coq Require Import ZArith List Ascii String Bool.
Import ListNotations.
Local Open Scope nat_scope.

(* What happens in turn: a line is typed (without its line feed; main.go:30-34), other clients'
   requests are handled, or the server closes the idle connection (conn.go:142-144). *)
Inductive doing := Typed (e : env) (line : bytes) | Others (h : list (env * robj)) | Expires.
(* main.go:54 and 49-51; other output (prompts, failed writes) is left out. *)
Inductive screen := Shows (t : bytes) | Leaves.

(* main.go:35-37 *)
Definition quits (line : bytes) : bool := bytes_eqb line (bs "QUIT") || bytes_eqb line (bs "quit").

(* main.go:28-56, the loop.  [d] is the server's database and [u] what it sent and the client has not
   read.  The server reads the request, and sends its reply, which is complete before the client
   goes on (the client waits in Parse).  The client reads through a new bufio.Reader each time (48);
   what this has read ahead, [k] bytes, is dropped.  A request is never answered by silence here:
   what is typed is always an array (codec.go:37).  Lines are below the scanner's 64 KB limit. *)
Inductive talk : db -> bytes -> list doing -> list screen -> Prop :=
| talk_end d u : talk d u [] []
| talk_others d u h d' rs l scr : run d h = Ret (d', rs) -> talk d' u l scr -> talk d u (Others h :: l) scr
| talk_expires d u l scr : talk_closed (u ++ close_message) l scr -> talk d u (Expires :: l) scr
| talk_quit d u e line l : quits line = true -> talk d u (Typed e line :: l) []
| talk_line d u e line l scr req q d' r o rest k : quits line = false -> format_input line = Some req -> parse req = POk q [] ->
    handle e d q = Ret (d', Some r) -> parse (u ++ Resp.encode r) = POk o rest -> k <= List.length rest -> talk d' (skipn k rest) l scr ->
    talk d u (Typed e line :: l) (Shows (format_output o) :: scr)
| talk_error d u e line l req q d' r er : quits line = false -> format_input line = Some req -> parse req = POk q [] ->
    handle e d q = Ret (d', Some r) -> parse (u ++ Resp.encode r) = PErr er -> talk d u (Typed e line :: l) [Leaves]
(* After the server has closed the connection nothing more is answered; writes may still succeed,
   or fail, and then nothing is read (43-46). *)
with talk_closed : bytes -> list doing -> list screen -> Prop :=
| closed_end u : talk_closed u [] []
| closed_other u x l scr : (forall e line, x <> Typed e line) -> talk_closed u l scr -> talk_closed u (x :: l) scr
| closed_quit u e line l : quits line = true -> talk_closed u (Typed e line :: l) []
| closed_write u e line l scr : quits line = false -> talk_closed u l scr -> talk_closed u (Typed e line :: l) scr
| closed_line u e line l scr o rest k : quits line = false -> parse u = POk o rest -> k <= List.length rest -> talk_closed (skipn k rest) l scr ->
    talk_closed u (Typed e line :: l) (Shows (format_output o) :: scr)
| closed_error u e line l er : quits line = false -> parse u = PErr er -> talk_closed u (Typed e line :: l) [Leaves].
