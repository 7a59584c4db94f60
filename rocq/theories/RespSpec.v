(* Which RESP objects exist on the wire. *)
From Verif Require Import Base IntSpec Resp.
From Coq Require Import ZArith List Ascii Bool.
Import ListNotations.
Open Scope Z_scope.

(* A payload that fits on a RESP line: no LF directly after CR or LF. *)
Definition line_ok (d : bytes) : Prop :=
  forall a b, d <> a ++ CR :: LF :: b /\ d <> a ++ LF :: LF :: b.

(* Objects that can be written on the wire. *)
Inductive obj_ok : robj -> Prop :=
| ok_simple d : line_ok d -> obj_ok (RSimple d)
| ok_bulk d : blen d < 2 ^ 63 - 2 -> obj_ok (RBulk d)
| ok_nullbulk : obj_ok RNullBulk
| ok_err d : line_ok d -> obj_ok (RErr d)
| ok_int z : int64_ok z -> obj_ok (RInt z)
| ok_arr l : Z.of_nat (List.length l) < 2 ^ 63 -> Forall obj_ok l -> obj_ok (RArr l)
| ok_nullarr : obj_ok RNullArr.

(* The bytes contain, somewhere, a bulk header whose length denotes -2. *)
Definition has_bad_bulk (s : bytes) : Prop :=
  exists a num b, s = a ++ "$"%char :: num ++ CRLF ++ b /\ denotes num (-2).
