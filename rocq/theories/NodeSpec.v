(* Vocabulary for servers that are stopped and started again. *)
From Verif Require Import Base Resp RespSpec HashC HashProofs Command Db Engine EngineProofs Log LogSpec Persist PersistSpec Recovery RecoverySpec.
From Coq Require Import ZArith List Ascii String Bool.
From stdpp Require Import gmap.
Open Scope Z_scope.

(* [life h f]: a server that was started and ended any number of times has the file [f], which
   holds the records of the requests [h].  In each session it starts from the file, handles
   requests [h2], writes their records through the buffered file in that order, with flushes,
   failures and the death of the process at any point ([ws]); and the records of the first [m] of
   them are what is in the file in the end. *)
Inductive life : list entry -> bytes -> Prop :=
| life_new : life [] []
| life_session h f ords ds h2 d rs l ws p oks m bss : life h f -> (forall i, orders_ok (ords i)) -> recover ords f = Ret ds ->
    run (ds 1) (requests h2) = Ret (d, rs) -> Forall2 packed (records h2) (written_by l) ->
    steps (open_file f) l ws = (p, oks) -> Forall2 packed (records (firstn m h2)) bss -> p_file p = f ++ List.concat bss ->
    life (h ++ firstn m h2) (p_file p).
