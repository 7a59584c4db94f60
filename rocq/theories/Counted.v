(* Runs of a transition system with the number of their steps, the internal ones included. *)
From Coq Require Import List Arith Lia.
From Verif Require Import Lts.
Import ListNotations.

Inductive steps {S L : Type} (step : S -> option L -> S -> Prop) (s : S) : nat -> list L -> S -> Prop :=
| steps_start : steps step s 0 [] s
| steps_tau n tr s1 s2 : steps step s n tr s1 -> step s1 None s2 -> steps step s (Datatypes.S n) tr s2
| steps_act n tr s1 a s2 : steps step s n tr s1 -> step s1 (Some a) s2 -> steps step s (Datatypes.S n) (tr ++ [a]) s2.


(* Nothing can happen any more but what [input] says comes from outside. *)
Definition at_rest {S L : Type} (step : S -> option L -> S -> Prop) (input : L -> Prop) (s : S) : Prop :=
  forall l s', step s l s' -> exists a, l = Some a /\ input a.
