(* C86: how deep arrays are nested in an object. *)
From Verif Require Import Base Resp.
From Coq Require Import List.
Import ListNotations.

Fixpoint depth (o : robj) : nat := match o with RArr l => S (list_max (map depth l)) | _ => 0 end.
(* What requests are: an array of strings, numbers and so on. *)
Definition is_array (o : robj) : bool := match o with RArr _ => true | _ => false end.
Definition flat (o : robj) : Prop := match o with RArr l => Forall (fun x => is_array x = false) l | _ => True end.
(* n arrays, each in the next. *)
Fixpoint nested (n : nat) : robj := match n with O => RArr [] | S n => RArr [nested n] end.
