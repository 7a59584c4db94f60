(* What an object read from a connection keeps in memory: the texts that the implementations of
   RedisObject (pkg/protocol/resp.go:68-76, 126-130, 174-178, 206-210) store. Lengths only;
   headers, pointers and spare capacity of slices are left out. *)
From Verif Require Import Base Resp.
From Coq Require Import List.
Import ListNotations.

(* data, and stringRep and byteRep, of a string and of an error (resp.go:78-107, 132-153); the last two of an integer (180-188); of an array (213-238), whose reps contain those
   of its elements, and the elements themselves. *)
Fixpoint held (o : robj) : nat :=
  match o with
  | RSimple d | RBulk d | RErr d => length d + 2 * length (encode o)
  | RNullBulk | RInt _ | RNullArr => 2 * length (encode o)
  | RArr l => 2 * length (encode o) + list_sum (map held l)
  end.
