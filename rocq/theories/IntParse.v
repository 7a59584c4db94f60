(* Decimal integers: strconv.ParseInt(s, 10, 64) and fmt "%d". *)
From Verif Require Import Base.
From Coq Require Import ZArith List Ascii Bool.
Import ListNotations.
Open Scope Z_scope.

(* '0'..'9' test and value.  strconv/atoi.go:ParseUint, base 10 digit step. *)
Definition digit_val (c : ascii) : option Z :=
  let v := byteZ c in
  if (48 <=? v) && (v <=? 57) then Some (v - 48) else None.

(* strconv.ParseUint digit loop for base 10.  Simplification: the accumulator is
   unbounded and the range check is done at the end instead of at every step;
   Go reports an error (of either kind) in exactly the same cases and vertex
   never looks at the kind of the error. *)
Fixpoint parse_digits (acc : Z) (s : bytes) : option Z :=
  match s with
  | [] => Some acc
  | c :: s' =>
      match digit_val c with
      | Some d => parse_digits (acc * 10 + d) s'
      | None => None
      end
  end.

(* strconv.ParseInt(s, 10, 64), as used by pkg/util/util.go:80-82 (ParseInt64),
   pkg/container/int_variant.go:24-30, pkg/protocol/reader.go:89,114,126.
   [None] is a non-nil error. *)
Definition parse_int (s : bytes) : option Z :=
  match s with
  | [] => None
  | c :: s' =>
      let '(neg, body) :=
        if byte_eqb c "+"%char then (false, s')
        else if byte_eqb c "-"%char then (true, s')
        else (false, s) in
      match body with
      | [] => None
      | _ =>
          match parse_digits 0 body with
          | None => None
          | Some un =>
              if negb neg && (2 ^ 63 <=? un) then None
              else if neg && (2 ^ 63 <? un) then None
              else Some (if neg then - un else un)
          end
      end
  end.

(* Decimal digits of a non-negative number, most significant first. *)
Fixpoint dec_digits (fuel : nat) (n : Z) (acc : bytes) : bytes :=
  match fuel with
  | O => acc
  | S f =>
      let acc' := byteOf (48 + n mod 10) :: acc in
      if n / 10 =? 0 then acc' else dec_digits f (n / 10) acc'
  end.

(* fmt.Sprintf("%d", z): pkg/protocol/resp.go:91,182,216 and
   pkg/container/int_variant.go:46.  The fuel (bit length + 1) is never reached. *)
Definition format_int (z : Z) : bytes :=
  let n := Z.abs z in
  let ds := dec_digits (S (Z.to_nat (Z.log2 n))) n [] in
  if z <? 0 then "-"%char :: ds else ds.
