(* Reference operations on mathematical sequences of byte strings.
   Nothing here refers to the model of the Go code. *)
From Verif Require Import Base IndexSpec.
From Coq Require Import ZArith List Ascii Bool.
Import ListNotations.
Open Scope Z_scope.

(* remove the first [n] occurrences of [v], left to right *)
Fixpoint remove_first (n : nat) (v : bytes) (l : list bytes) : list bytes :=
  match n, l with
  | O, _ => l
  | _, [] => []
  | S n', x :: l' =>
      if bytes_eqb x v then remove_first n' v l' else x :: remove_first n v l'
  end.
(* remove the last [n] occurrences *)
Definition remove_last (n : nat) (v : bytes) (l : list bytes) : list bytes :=
  rev (remove_first n v (rev l)).

(* put [x] before/after the first occurrence of [pivot] *)
Fixpoint insert_near (after : bool) (pivot x : bytes) (l : list bytes) : option (list bytes) :=
  match l with
  | [] => None
  | y :: l' =>
      if bytes_eqb y pivot then Some (if after then y :: x :: l' else x :: y :: l')
      else match insert_near after pivot x l' with
           | Some r => Some (y :: r)
           | None => None
           end
  end.

(* elements at positions a..b inclusive *)
Definition sub_list {A} (a b : Z) (l : list A) : list A :=
  firstn (Z.to_nat (b - a + 1)) (skipn (Z.to_nat a) l).

(* The bounds the Go code really uses: the right end is resolved twice. *)
Definition seg_right (r size : Z) : Z := position (Z.min (position r size) (size - 1)) size.
(* Range and Trim on sequences: which part is selected. *)
Definition seg_sel (a b : Z) (vs : list bytes) : option (list bytes) :=
  let size := Z.of_nat (length vs) in
  let pa := position a size in let pb := seg_right b size in
  if (0 <=? pa) && (pa <? size) && (pa <=? pb) && (pb <? size)
  then Some (firstn (Z.to_nat (pb - pa + 1)) (skipn (Z.to_nat pa) vs)) else None.

(* What LREM does to the sequence, for every count. *)
Definition lrem_spec (count : Z) (v : bytes) (vs : list bytes) : list bytes :=
  if count =? 0 then remove_first (length vs) v vs
  else if 0 <? count then remove_first (Z.to_nat count) v vs
  else remove_last (Z.to_nat (- count)) v vs.
