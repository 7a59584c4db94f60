(* C105: which request undoes which, and how the data afterwards may differ from the data before. *)
From Coq Require Import List ZArith.
From Verif Require Import Base IntSpec Resp Command SpecDb RequestSpec IdealSpec EmptySpec.
From stdpp Require Import gmap.
Open Scope Z_scope.

(* The same up to empty values (C103) and the way numbers are written. *)
Definition same_text (o o' : option bytes) : Prop :=
  o = o' \/ exists t t' n, o = Some t /\ o' = Some t' /\ is_int t n /\ canonical t' n.
Definition nearly_same (s s' : sdb) : Prop :=
  (forall k, same_text (ss s !! k) (ss s' !! k)) /\ same_but_empty (with_ss s ∅) (with_ss s' ∅).
(* [undo s c r c' r']: on contents [s] the command [c] was answered by [r]; then [c'] is to undo it,
   and to be answered by [r']. A push by a pop; a sum by the difference; additions to a set or hash,
   if all were new, by removals; removals from a set, if all were there, by additions. *)
Inductive undo (s : sdb) : cmd -> robj -> cmd -> robj -> Prop :=
| u_lpush k v n : undo s (CLpush k [v]) (RInt n) (CLpop k) (RBulk v)
| u_rpush k v n : undo s (CRpush k [v]) (RInt n) (CRpop k) (RBulk v)
| u_incr k a t n r : ss s !! k = Some t -> is_int t n -> undo s (CIncr k a) (RInt r) (CDecr k a) (RInt n)
| u_decr k a t n r : ss s !! k = Some t -> is_int t n -> undo s (CDecr k a) (RInt r) (CIncr k a) (RInt n)
| u_sadd k vs : undo s (CSadd k vs) (r_nat (length vs)) (CSrem k vs) (r_nat (length vs))
| u_srem k vs : undo s (CSrem k vs) (r_nat (length vs)) (CSadd k vs) (r_nat (length vs))
| u_hset k fs vs : undo s (CHset k fs vs) (r_nat (length fs)) (CHdel k fs) (r_nat (length fs)).
(* The same of one value. *)
Definition near_at (t : kind) (k : bytes) (s s' : sdb) : Prop :=
  match t with
  | KStr => same_text (ss s !! k) (ss s' !! k)
  | KList => default [] (sl s !! k) = default [] (sl s' !! k)
  | KHash => default ∅ (sh s !! k) = default ∅ (sh s' !! k)
  | KSet => default ∅ (st s !! k) = default ∅ (st s' !! k)
  end.
