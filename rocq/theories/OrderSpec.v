(* Vocabulary for the order of requests: which requests may be exchanged. *)
From Verif Require Import Base Resp Command SpecDb RequestSpec IdealSpec Log Recovery RecoverySpec.
From Coq Require Import ZArith List Ascii String Bool.
From stdpp Require Import gmap.

(* One of the two requests may write a value that the other names. *)
Definition clash (q1 q2 : robj) : Prop :=
  exists c1 c2 k, asks q1 c1 /\ asks q2 c2 /\ kind_of c1 = kind_of c2 /\
    ((k ∈ written c1 /\ k ∈ names c2) \/ (k ∈ names c1 /\ k ∈ written c2)).

(* The second list is the first with neighbours exchanged, any number of times, each
   time two that [free] allows to exchange. *)
Inductive reordered {A} (free : A -> A -> Prop) : list A -> list A -> Prop :=
| ro_same l : reordered free l l
| ro_swap l1 x y l2 : free x y -> reordered free (l1 ++ x :: y :: l2) (l1 ++ y :: x :: l2)
| ro_trans l1 l2 l3 : reordered free l1 l2 -> reordered free l2 l3 -> reordered free l1 l3.

(* the same, said of whole lists: the next element of the second list is taken out of
   the first past elements that may be exchanged with it *)
Inductive picked {A} (free : A -> A -> Prop) : list A -> list A -> Prop :=
| pk_nil : picked free [] []
| pk_next l1 x l2 l : Forall (fun y => free y x) l1 -> picked free (l1 ++ l2) l -> picked free (l1 ++ x :: l2) (x :: l).

Definition free_entries (x y : entry) : Prop := ~ clash (h_req x) (h_req y).

(* the requests that are logged *)
Definition logs (x : entry) : bool := match log_of (h_stamp x) (h_req x) with Some _ => true | None => false end.
Definition writes (h : list entry) : list entry := List.filter logs h.

(* Executions of the logging in which no request that is logged is handled while the record of one
   it clashes with is still to be written. *)
Inductive lpatient : lstate -> Prop :=
| lp_init : lpatient l_init
| lp_step a b : lpatient a -> lstep a b ->
    (forall q, l_executed b = l_executed a ++ [q] -> logs q = true ->
       forall x v, x ∈ l_executed a -> log_of (h_stamp x) (h_req x) = Some v -> v ∈ l_pending a -> free_entries x q) ->
    lpatient b.
