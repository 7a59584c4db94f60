(* pkg/container/string.go, int_variant.go: the StringContainer value. *)
From Verif Require Import Base IntParse UtilIndex Resp.
From Coq Require Import ZArith NArith List Ascii Bool.
Import ListNotations.
Open Scope Z_scope.

(* string.go:23-29.  [s_int] is the intVar interface: None is a nil interface
   (int_variant.go:24-30), Some v an intVariantImpl holding v. *)
Record strc := mkStrc {
  s_data : bytes;
  s_bytes : bytes;
  s_size : Z;
  s_hash : N;
  s_int : option Z
}.

(* hash/fnv New64a: FNV-1a, 64 bit. *)
Definition fnv1a (s : bytes) : N :=
  fold_left (fun h c => ((N.lxor h (N_of_ascii c)) * 1099511628211) mod 2 ^ 64)%N s
            14695981039346656037%N.

(* string.go:32-40 update: everything but intVar. *)
Definition s_update (s : strc) (d : bytes) : strc :=
  mkStrc d d (blen d) (fnv1a d) (s_int s).

(* string.go:43-50 NewString, int_variant.go:24-30 newIntVariant. *)
Definition new_string (d : bytes) : strc :=
  mkStrc d d (blen d) (fnv1a d) (parse_int d).

(* string.go:13 dummy: the text carried by the list sentinels. *)
Definition dummy_text : bytes :=
  ["d"; "u"; "m"; "m"; "y"; " "; "s"; "t"; "r"; "i"; "n"; "g"]%char.
Definition dummy : strc := new_string dummy_text.

(* string.go:58-68 Equals.  The pointer comparison at 59 is omitted: equal
   pointers have equal hash and data, so it cannot change the answer. *)
Definition s_equals (a b : strc) : bool :=
  if negb (s_hash a =? s_hash b)%N then false else bytes_eqb (s_data a) (s_data b).

(* string.go:87-89 Append. *)
Definition s_append (a b : strc) : strc := new_string (s_data a ++ s_data b).

(* string.go:92-94 AsSimpleStringObject. *)
Definition as_simple (s : strc) : robj := RSimple (s_data s).

(* string.go:98-103 AsBulkStringObject: the empty string becomes a null bulk. *)
Definition as_bulk (s : strc) : robj :=
  if s_size s =? 0 then RNullBulk else RBulk (s_data s).

(* string.go:131-139 Increase with int_variant.go:36-38,44-46: int64 addition wraps,
   then data/bytes/size/hash are recomputed from the decimal text. *)
Definition s_increase (s : strc) (n : Z) : option (strc * Z) :=
  match s_int s with
  | None => None
  | Some v =>
      let v' := wrap64 (v + n) in
      Some (s_update (mkStrc (s_data s) (s_bytes s) (s_size s) (s_hash s) (Some v')) (format_int v'), v')
  end.

(* string.go:143-151 Decrease. *)
Definition s_decrease (s : strc) (n : Z) : option (strc * Z) :=
  match s_int s with
  | None => None
  | Some v =>
      let v' := wrap64 (v - n) in
      Some (s_update (mkStrc (s_data s) (s_bytes s) (s_size s) (s_hash s) (Some v')) (format_int v'), v')
  end.

(* string.go:154-156 CompareTo. *)
Definition s_compare (a b : strc) : Z := lexical_compare (s_data a) (s_data b).

(* Go slice expression d[a:b]; callers have 0 <= a <= b <= len(d). *)
Definition bslice (d : bytes) (a b : Z) : bytes :=
  firstn (Z.to_nat (b - a)) (skipn (Z.to_nat a) d).

(* string.go:160-167 GetRange; None is ErrRangeInvalid. *)
Definition s_getrange (s : strc) (a b : Z) : option strc :=
  let '(ra, rb) := slice_resolve a b (s_size s) in
  if (ra =? -1) || (rb =? -1) then None
  else Some (new_string (bslice (s_data s) ra (rb + 1))).
