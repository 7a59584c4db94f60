(* What a map from strings to values should answer, from the history of calls alone. *)
From Coq Require Import List ZArith String.
From Verif Require Import Lts RWLock DataMap.
Import ListNotations.

Section Spec.
  Context {V : Type}.
  Notation entry := (nat * op V * res V)%type.
  Notation event := (RWLock.event (op V) (res V)).

  (* The value of a key after some calls, oldest first. *)
  Fixpoint value_from (k : string) (cur : option V) (h : list entry) : option V :=
    match h with
    | [] => cur
    | (_, OSet k' v, _) :: h' => value_from k (if String.eqb k k' then Some v else cur) h'
    | (_, ORemove k', _) :: h' => value_from k (if String.eqb k k' then None else cur) h'
    | _ :: h' => value_from k cur h'
    end.
  Definition value_of (k : string) (h : list entry) : option V := value_from k None h.
  (* n keys have a value *)
  Definition key_count (h : list entry) (n : Z) : Prop :=
    exists ks, NoDup ks /\ (forall k, In k ks <-> value_of k h <> None) /\ n = Z.of_nat (List.length ks).

  Definition right (h : list entry) (o : op V) (r : res V) : Prop :=
    match o with
    | OSet _ _ | ORemove _ => r = RUnit
    | OGet k => r = RGet (value_of k h)
    | OHas k => exists b, r = RHas b /\ (b = true <-> value_of k h <> None)
    | OLen => exists n, r = RLen n /\ key_count h n
    end.
  (* every call was answered right, given the calls before it *)
  Definition all_right (h : list entry) : Prop :=
    forall p i o r q, h = p ++ (i, o, r) :: q -> right p o r.
  Definition all_right_but_len (h : list entry) : Prop :=
    forall p i o r q, h = p ++ (i, o, r) :: q -> o <> OLen -> right p o r.

  Definition mutates (o : op V) : Prop := match o with OSet _ _ | ORemove _ => True | _ => False end.
  (* no two calls of Set or Remove overlap *)
  Definition one_writer (tr : list event) : Prop :=
    forall pre i o post, tr = pre ++ ECall i o :: post -> mutates o ->
      forall j o', In (ECall j o') pre -> mutates o' -> exists r, In (ERet j o' r) pre.
  (* every Set and Remove called so far has returned *)
  Definition quiet (tr : list event) : Prop :=
    forall j o, In (ECall j o) tr -> mutates o -> exists r, In (ERet j o r) tr.
End Spec.
