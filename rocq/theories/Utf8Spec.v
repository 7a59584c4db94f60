(* UTF-8 as an encoding of Unicode scalar values. *)
From Verif Require Import Base.
From Coq Require Import ZArith List Ascii Bool.
Import ListNotations.
Open Scope Z_scope.

Definition scalar (u : Z) : Prop := 0 <= u < 55296 \/ 57344 <= u < 1114112.
Definition utf8_char (u : Z) : bytes :=
  if u <? 128 then [byteOf u]
  else if u <? 2048 then [byteOf (192 + u / 64); byteOf (128 + u mod 64)]
  else if u <? 65536 then [byteOf (224 + u / 4096); byteOf (128 + u / 64 mod 64); byteOf (128 + u mod 64)]
  else [byteOf (240 + u / 262144); byteOf (128 + u / 4096 mod 64); byteOf (128 + u / 64 mod 64); byteOf (128 + u mod 64)].
(* [utf8 s]: [s] is the encoding of some text. *)
Definition utf8 (s : bytes) : Prop := exists us, Forall scalar us /\ s = concat (map utf8_char us).
