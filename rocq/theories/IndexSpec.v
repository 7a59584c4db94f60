(* Positions and byte order, independent of the model. *)
From Verif Require Import Base.
From Coq Require Import ZArith List Ascii Bool.
Import ListNotations.
Open Scope Z_scope.

(* Position meant by index [i] in a sequence of [size] elements. *)
Definition position (i size : Z) : Z := if i <? 0 then size + i else i.

(* Standard lexicographic order on byte strings. *)
Inductive lex_lt : bytes -> bytes -> Prop :=
| lex_nil c s : lex_lt [] (c :: s)
| lex_head a b s t : byteZ a < byteZ b -> lex_lt (a :: s) (b :: t)
| lex_tail a s t : lex_lt s t -> lex_lt (a :: s) (a :: t).
