(* C88: how many bytes the log takes. *)
From Verif Require Import Base Resp Command Db Engine Log LogSpec Recovery SizeSpec.
From Coq Require Import ZArith List String.
Import ListNotations.
Open Scope Z_scope.

(* the bytes of the records in the file *)
Definition log_bytes (l : list vlog) : Z := sum (fun v => blen (pack v)) l.
(* what one request may add: three times its own bytes, its identifier and host, and a constant *)
Definition record_bound (x : entry) : Z := 150 + blen (t_id (h_stamp x)) + blen (t_host (h_stamp x)) + 3 * blen (Resp.encode (h_req x)).
(* set k v, from a client of host "host" *)
Definition one_write : entry :=
  mkEntry (mkEnv (fun _ l => l) []) (mkStamp (bs "id") 1 (bs "host")) (RArr [RBulk (bs "set"); RBulk (bs "k"); RBulk (bs "v")]).
