(* What is asked of replies on the wire. *)
From Verif Require Import Base Resp RespSpec.
From Coq Require Import ZArith List Ascii String Bool.
Import ListNotations.

(* If the reply is an internal error, its text fits on one line. *)
Definition clean_text (r : robj) : Prop := forall t, r = RErr (bs "ERR vertex server internal error, err=" ++ t) -> line_ok t.

(* The replies that were given, leaving out requests without one. *)
Definition given (rs : list (option robj)) : list robj := flat_map (fun o => match o with Some r => [r] | None => [] end) rs.
