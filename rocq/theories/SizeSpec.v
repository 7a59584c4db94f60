(* C87: how much is held.  Every key, element, field, value and member counts its bytes and one more. *)
From Verif Require Import Base SpecDb.
From Coq Require Import ZArith List.
From stdpp Require Import gmap.
Open Scope Z_scope.

Definition item (b : bytes) : Z := 1 + blen b.
Fixpoint sum {A : Type} (f : A -> Z) (l : list A) : Z := match l with [] => 0 | x :: l' => f x + sum f l' end.
Definition map_sum {A : Type} (f : A -> Z) (m : gmap bytes A) : Z := sum (fun kv => item (fst kv) + f (snd kv)) (map_to_list m).
Definition data_size (s : sdb) : Z :=
  map_sum item (ss s) + map_sum (sum item) (sl s) + map_sum (map_sum item) (sh s) + map_sum (fun X : gset bytes => sum item (elements X)) (st s).
