(* C103: contents that differ only in empty values, and the commands that tell them apart. *)
From Coq Require Import List ZArith.
From Verif Require Import Base Resp Command SpecDb RequestSpec.
From stdpp Require Import gmap.

(* The same strings, and under every key the same list, hash and set, if an absent one is taken for
   an empty one. *)
Definition same_but_empty (s s' : sdb) : Prop :=
  ss s = ss s' /\
  (forall k, default [] (sl s !! k) = default [] (sl s' !! k)) /\
  (forall k, default ∅ (sh s !! k) = default ∅ (sh s' !! k)) /\
  (forall k, default ∅ (st s !! k) = default ∅ (st s' !! k)).
(* LSET and LINSERT; LREM of the reserved text; HGET, HEXISTS, HSTRLEN and SISMEMBER of the empty
   string; the commands that list a hash or a set; SPOP and SRANDMEMBER without a count. *)
Definition tells (c : cmd) : Prop :=
  match c with
  | CLset _ _ _ | CLinsert _ _ _ _ | CHgetall _ | CHkeys _ | CHvals _ | CSmembers _ => True
  | CLrem _ _ v => v = reserved
  | CHget _ f | CHexists _ f | CHstrlen _ f | CSismember _ f => f = []
  | CSpop _ _ cs | CSrandmember _ _ cs => cs = false
  | _ => False
  end.
Definition told (q : robj) : Prop := exists c, asks q c /\ tells c.
