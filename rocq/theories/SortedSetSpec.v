(* What a sorted set is meant to do: members with scores, in no particular order.
   m_height and the flag t are bookkeeping for the cases in which the code keeps up with it:
   m_height is the number of levels the member is linked on; t says that the member with the
   highest rank is the one at hand for PopMax. *)
From Coq Require Import ZArith List Bool Permutation Sorted SpecFloat.
From Verif Require Import Base IndexSpec SkipList.
Import ListNotations.
Open Scope nat_scope.

Record member := Member { m_score : spec_float; m_name : bytes; m_height : nat }.
(* (score, name) in ascending order. *)
Definition precedes (x y : member) : Prop :=
  SFcompare (m_score x) (m_score y) = Some Lt \/ (SFcompare (m_score x) (m_score y) = Some Eq /\ lex_lt (m_name x) (m_name y)).
Definition tallest (A : list member) : nat := fold_right (fun x n => Nat.max (m_height x) n) 1 A.
(* Not NaN, not the empty name, 1 to 32 levels. *)
Definition proper (x : member) : Prop := m_score x <> S754_nan /\ m_name x <> [] /\ 1 <= m_height x <= 32.

(* A member is added with d random levels; a present one is left alone. *)
Inductive put (A : list member) (t : bool) (s : spec_float) (e : bytes) (d : nat) : list member -> bool -> Prop :=
| put_present : In e (map m_name A) -> put A t s e d A t
| put_new t' : ~ In e (map m_name A) -> proper (Member s e d) ->
    (t' = true <-> t = true \/ forall y, In y A -> precedes y (Member s e d)) ->
    put A t s e d (Member s e (Nat.max (tallest A) d) :: A) t'.
(* A member is removed: nothing that comes after it may be on more levels. *)
Inductive take (x : member) (t : bool) : list member -> list member -> bool -> Prop :=
| take_one A A1 A2 t' : A = A1 ++ x :: A2 -> (forall y, In y (A1 ++ A2) -> precedes x y -> m_height y <= m_height x) ->
    (t' = true <-> t = true /\ exists y, In y (A1 ++ A2) /\ precedes x y) -> take x t A (A1 ++ A2) t'.
Inductive put_all : list member -> bool -> list spec_float -> list bytes -> list nat -> list member -> bool -> Prop :=
| put_all_nil A t ds : put_all A t [] [] ds A t
| put_all_cons A t s ss e es d ds A' t' A'' t'' : put A t s e d A' t' -> put_all A' t' ss es ds A'' t'' ->
    put_all A t (s :: ss) (e :: es) (d :: ds) A'' t''.
Inductive take_all : list member -> bool -> list bytes -> list member -> bool -> Prop :=
| take_all_nil A t : take_all A t [] A t
| take_all_absent A t e es A' t' : ~ In e (map m_name A) -> take_all A t es A' t' -> take_all A t (e :: es) A' t'
| take_all_cons A t x es A' t' A'' t'' : take x t A A' t' -> take_all A' t' es A'' t'' -> take_all A t (m_name x :: es) A'' t''.

(* One call, its result, and the set afterwards. *)
Inductive does : list member -> bool -> zop -> zret -> list member -> bool -> Prop :=
| does_add A t ss es ds A' t' : put_all A t ss es ds A' t' -> does A t (OAdd ss es ds) ZDone A' t'
| does_mismatch A t ss es ds : List.length ss <> List.length es -> does A t (OAdd ss es ds) (ZFail ELength) A t
| does_del A t es A' t' : take_all A t es A' t' -> does A t (ODel es) ZDone A' t'
| does_score A t x : In x A -> does A t (OScore (m_name x)) (ZScore (m_score x)) A t
| does_no_score A t e : ~ In e (map m_name A) -> does A t (OScore e) (ZFail ENotFound) A t
| does_incr A t x f d A' t' A'' t'' : take x t A A' t' -> put A' t' (SFadd 53 1024 (m_score x) f) (m_name x) d A'' t'' ->
    does A t (OIncr (m_name x) f d) (ZScore (SFadd 53 1024 (m_score x) f)) A'' t''
| does_no_incr A t e f d : ~ In e (map m_name A) -> does A t (OIncr e f d) (ZFail ENotFound) A t
| does_min_empty t : does [] t OPopMin (ZFail EEmpty) [] t
| does_min A t x A' t' : In x A -> (forall y, In y A -> y = x \/ precedes x y) -> take x t A A' t' ->
    does A t OPopMin (ZData (Some (m_name x))) A' t'
| does_max_empty t : does [] t OPopMax (ZFail EEmpty) [] t
| does_max A x A' t' : In x A -> (forall y, In y A -> y = x \/ precedes y x) -> take x true A A' t' ->
    does A true OPopMax (ZData (Some (m_name x))) A' t'
| does_len A t : does A t OLen (ZInt (Z.of_nat (List.length A))) A t
| does_no_rank A t e : ~ In e (map m_name A) -> does A t (ORank e) (ZFail ENotFound) A t.
Inductive history : list zop -> list zret -> list member -> bool -> Prop :=
| history_nil : history [] [] [] true
| history_snoc os rs A t o r A' t' : history os rs A t -> does A t o r A' t' -> history (os ++ [o]) (rs ++ [r]) A' t'.

(* A set with members on equally many levels, and a call that draws the same number (a call whose
   arguments the code can handle). *)
Definition even (d : nat) (A : list member) : Prop := Forall (fun x => proper x /\ m_height x = d) A /\ NoDup (map m_name A).
Definition calm (d : nat) (A : list member) (o : zop) : Prop :=
  match o with
  | OAdd ss es ds => List.length ss = List.length es -> List.length ds = List.length es /\ Forall (eq d) ds /\ Forall (fun s => s <> S754_nan) ss /\ Forall (fun e => e <> []) es
  | ODel _ | OScore _ | OPopMin | OLen => True
  | OIncr e f d' => d' = d /\ forall x, In x A -> m_name x = e -> SFadd 53 1024 (m_score x) f <> S754_nan
  | OPopMax => A = []
  | ORank e => ~ In e (map m_name A)
  | OUnimplemented => False
  end.
(* A history of Add, Score and Len only, with whatever levels. *)
Definition adding (o : zop) : Prop :=
  match o with
  | OAdd ss es ds => List.length ss = List.length es -> List.length ds = List.length es /\ Forall (fun d => 1 <= d <= 32) ds /\ Forall (fun s => s <> S754_nan) ss /\ Forall (fun e => e <> []) es
  | OScore _ | OLen => True
  | _ => False
  end.
