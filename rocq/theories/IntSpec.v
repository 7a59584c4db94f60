(* Decimal numerals, independent of the parser and printer. *)
From Verif Require Import Base.
From Coq Require Import ZArith List Ascii Bool.
Import ListNotations.
Open Scope Z_scope.

(* A decimal digit. *)
Definition is_digit (c : ascii) : Prop := 48 <= byteZ c <= 57.
(* Positional value of a digit string. *)
Fixpoint dec_value (s : bytes) : Z :=
  match s with
  | [] => 0
  | c :: s' => (byteZ c - 48) * 10 ^ Z.of_nat (List.length s') + dec_value s'
  end.
(* [s] is a decimal numeral denoting [z]: optional sign, then digits. *)
Definition denotes (s : bytes) (z : Z) : Prop :=
  exists sign ds,
    s = sign ++ ds /\ ds <> [] /\ Forall is_digit ds /\
    ((sign = [] \/ sign = ["+"%char]) /\ z = dec_value ds \/
     sign = ["-"%char] /\ z = - dec_value ds).
(* The numeral a printer should produce: a minus sign exactly for negative numbers, no
   plus sign, no superfluous leading zero. *)
Definition canonical (s : bytes) (z : Z) : Prop :=
  exists ds,
    s = (if z <? 0 then ["-"%char] else []) ++ ds /\ ds <> [] /\ Forall is_digit ds /\
    dec_value ds = Z.abs z /\ (forall c r, ds = c :: r -> byteZ c = 48 -> r = []).
