(* What is asked of the path of a request through the server: the objects a byte stream holds,
   and the outcome of handling requests one after the other. *)
From Coq Require Import List Arith.
From Verif Require Import Base Resp Engine Db.
Import ListNotations.

(* From [b] the reader takes the objects [qs] one after the other and leaves [r]. *)
Inductive objects (b : bytes) : list robj -> bytes -> Prop :=
| objects_none : objects b [] b
| objects_more qs r q r' : objects b qs r -> parse r = POk q r' -> objects b (qs ++ [q]) r'.

(* Handling [l] one request after the other from [d] gives the replies in [l] and ends in [d']. *)
Inductive in_turn (d : db) : list (env * robj * option robj) -> db -> Prop :=
| turn_none : in_turn d [] d
| turn_more l d1 e q o d2 : in_turn d l d1 -> handle e d1 q = Ret (d2, o) -> in_turn d (l ++ [(e, q, o)]) d2.
