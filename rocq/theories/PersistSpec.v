(* What the buffered file promises, without buffers: the bytes written so far. *)
From Verif Require Import Base Persist.
From Coq Require Import List.
Import ListNotations.

Fixpoint written_by (l : list pop) : list bytes :=
  match l with [] => [] | PWrite d :: l' => d :: written_by l' | PFlush :: l' => written_by l' end.
Definition begins (p s : bytes) : Prop := exists t, s = p ++ t.
