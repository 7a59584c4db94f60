(* When a topic exists, from the history of calls alone: the last NewTopic or RemoveTopic
   call for it decides. *)
From Coq Require Import List Bool String.
From Verif Require Import EventBus.
Import ListNotations.

Fixpoint exists_from (t : string) (cur : bool) (h : list (nat * op * res)) : bool :=
  match h with
  | [] => cur
  | (_, BNew t', _) :: h' => exists_from t (if String.eqb t t' then true else cur) h'
  | (_, BRemove t', _) :: h' => exists_from t (if String.eqb t t' then false else cur) h'
  | _ :: h' => exists_from t cur h'
  end.
Definition topic_exists (t : string) (h : list (nat * op * res)) : bool := exists_from t false h.
Definition bus_right (h : list (nat * op * res)) (o : op) (r : res) : Prop :=
  match o with
  | BPublish t | BSubscribe t => if topic_exists t h then r = RTopic else r = RNoSuchTopic
  | BNew t => r = RBool (negb (topic_exists t h))
  | BRemove t | BExist t => r = RBool (topic_exists t h)
  end.
Definition bus_all_right (h : list (nat * op * res)) : Prop := forall p i o r q, h = p ++ (i, o, r) :: q -> bus_right p o r.
