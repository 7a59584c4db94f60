(* pkg/network/server.go: what a server starts from. *)
From Verif Require Import Base Resp StringC HashC Command Db Engine Log Persist Replication Recovery.
From Coq Require Import ZArith List Ascii String Bool.
From stdpp Require Import gmap.
Open Scope Z_scope.

(* server.go:338-342: no database file configured, one that cannot be opened, or its contents. *)
Inductive source := NoSource | OpenFails | Opened (f : bytes).

(* server.go:305-315 syncExternal with 317-335 fromMaster and 337-356 fromFile.  [m] is what came
   from the master before the connection ended; None: no master configured, or it could not be
   reached.  [o1], [o2] give the map iteration orders of each command replayed. *)
Definition sync_external (o1 o2 : nat -> orders) (f : source) (m : option bytes) : res dbs :=
  let from (ds : dbs) := match m with
    | Some s => build ds (zip (map o2 (seq 0 (length (from_master s)))) (from_master s))
    | None => Ret ds
    end in
  match f with
  | NoSource => Ret no_dbs
  | OpenFails => from no_dbs
  | Opened b => let! ds := recover o1 b in from ds
  end.
