(* unicode/utf8.ValidString, on which proto3 string fields depend. *)
From Verif Require Import Base.
From Coq Require Import ZArith List Ascii Bool.
Import ListNotations.
Open Scope Z_scope.

(* Go standard library, unicode/utf8 ValidString: the first byte gives the size and
   the range of the second byte, further bytes are 80..BF. *)
Definition cont (c : ascii) : bool := (128 <=? byteZ c) && (byteZ c <=? 191).
Definition within (lo hi : Z) (c : ascii) : bool := (lo <=? byteZ c) && (byteZ c <=? hi).
Fixpoint valid_utf8 (s : bytes) : bool :=
  match s with
  | [] => true
  | a :: s1 =>
      if byteZ a <? 128 then valid_utf8 s1
      else if within 194 223 a then
        match s1 with b :: s2 => cont b && valid_utf8 s2 | _ => false end
      else if within 224 239 a then
        match s1 with
        | b :: c :: s3 =>
            within (if byteZ a =? 224 then 160 else 128) (if byteZ a =? 237 then 159 else 191) b && cont c && valid_utf8 s3
        | _ => false
        end
      else if within 240 244 a then
        match s1 with
        | b :: c :: d :: s4 =>
            within (if byteZ a =? 240 then 144 else 128) (if byteZ a =? 244 then 143 else 191) b && cont c && cont d && valid_utf8 s4
        | _ => false
        end
      else false
  end.
