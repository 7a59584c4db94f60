(* C102: which commands that write may be sent again, and what the second reply is. *)
From Coq Require Import List ZArith.
From Verif Require Import Base Resp Command SpecDb RequestSpec IdealSpec.
Import ListNotations.
Open Scope Z_scope.

Definition repeatable (c : cmd) : Prop :=
  match c with
  | CSet _ _ | CMset _ _ | CLset _ _ _ | CHset _ _ _ | CHdel _ _ | CSadd _ _ | CSrem _ _ => True
  | CLrem _ n _ => n = 0
  | _ => False
  end.
(* Commands that count what they added or removed do so once; the others say the same again, but
   for the text of an internal error. *)
Definition again (c : cmd) (r r' : robj) : Prop :=
  match c with
  | CHset _ (_ :: _) _ | CHdel _ _ | CSadd _ _ | CSrem _ _ | CLrem _ _ _ => r' = RInt 0
  | CSet _ _ | CMset _ _ | CLset _ _ _ | CHset _ [] _ => r' = r \/ (is_internal_error r /\ is_internal_error r')
  | _ => False
  end.
