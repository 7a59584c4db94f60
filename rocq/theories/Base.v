(* Shared conventions: byte strings, int64, panics, outcomes.
   Go strings are immutable byte sequences; they are modelled as lists of bytes. *)
From Coq Require Import ZArith List Ascii String Bool Lia.
From Coq Require Import ZifyBool.
Import ListNotations.
Open Scope Z_scope.
Open Scope list_scope.

(* A Go string / []byte. *)
Definition bytes := list ascii.

(* String literals. *)
Definition bs (s : string) : bytes := list_ascii_of_string s.

(* Numeric value of a byte, 0..255. *)
Definition byteZ (c : ascii) : Z := Z.of_N (N_of_ascii c).

(* The byte with the given value (mod 256). *)
Definition byteOf (z : Z) : ascii := ascii_of_N (Z.to_N z).

(* Byte equality (Go's == on bytes). *)
Definition byte_eqb (a b : ascii) : bool := Ascii.eqb a b.

(* Go's == on strings. *)
Fixpoint bytes_eqb (a b : bytes) : bool :=
  match a, b with
  | [], [] => true
  | x :: a', y :: b' => byte_eqb x y && bytes_eqb a' b'
  | _, _ => false
  end.

(* len(s) as a Go int.  Slices longer than 2^63-1 do not exist in Go. *)
Definition blen (s : bytes) : Z := Z.of_nat (List.length s).

(* Two's complement wrap-around of int64 (Go's int and int64 on a 64 bit
   platform; integer overflow is silent in Go). *)
Definition wrap64 (z : Z) : Z := (z + 2 ^ 63) mod 2 ^ 64 - 2 ^ 63.

(* The int64 range. *)
Definition int64_ok (z : Z) : Prop := - 2 ^ 63 <= z < 2 ^ 63.
Definition int64_okb (z : Z) : bool := (- 2 ^ 63 <=? z) && (z <? 2 ^ 63).

(* A computation that may hit a Go run-time panic (nil dereference, slice or
   index out of range).  [NoFuel] is the model's own marker for a loop that did
   not finish within its fuel; it is proved unreachable. *)
Inductive res (A : Type) : Type :=
| Ret (a : A)
| Panic
| NoFuel.
Arguments Ret {A} a.
Arguments Panic {A}.
Arguments NoFuel {A}.

Definition rbind {A B} (m : res A) (f : A -> res B) : res B :=
  match m with Ret a => f a | Panic => Panic | NoFuel => NoFuel end.

Notation "'let!' x ':=' m 'in' k" := (rbind m (fun x => k))
  (at level 200, x pattern, m at level 100, k at level 200, right associativity).

(* CR, LF *)
Definition CR : ascii := "013"%char.
Definition LF : ascii := "010"%char.
Definition CRLF : bytes := [CR; LF].

(* Keep integer arithmetic folded under [simpl]/[cbn]. *)
Global Arguments Z.add : simpl never.
Global Arguments Z.sub : simpl never.
Global Arguments Z.mul : simpl never.
Global Arguments Z.pow : simpl never.
Global Arguments Z.div : simpl never.
Global Arguments Z.modulo : simpl never.
Global Arguments Z.of_nat : simpl never.
Global Arguments Z.to_nat : simpl never.
Global Arguments Z.opp : simpl never.
Global Arguments Z.leb : simpl never.
Global Arguments Z.ltb : simpl never.
Global Arguments Z.eqb : simpl never.
Global Arguments byteOf : simpl never.
Global Arguments byteZ : simpl never.
