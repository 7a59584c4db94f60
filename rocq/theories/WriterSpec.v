(* C100: what a caller of the log file gives it and what the file takes. *)
From Coq Require Import List Arith.
From Verif Require Import Base Persist Writer.
Import ListNotations.

Definition given (o : call) : bytes := match o with CWrite d | CString d => d | CByte c => [c] | CFlush => [] end.
Definition taken (o : call) (n : nat) : bytes := firstn n (given o).
Fixpoint all_taken (l : list call) (rs : list (nat * bool)) : bytes :=
  match l, rs with o :: l', (n, _) :: rs' => taken o n ++ all_taken l' rs' | _, _ => [] end.
Definition all_given (l : list call) : bytes := concat (map given l).
(* More rounds than any of the calls can need. *)
Definition enough (fuel : nat) (l : list call) : Prop := forall o, In o l -> List.length (given o) + 2 < fuel.
