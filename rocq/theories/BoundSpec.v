(* C84: what is counted. *)
From Coq Require Import List Arith.
From Verif Require Import Base Lts Resp Server.
From Verif Require Export Counted.
Import ListNotations.
Local Open Scope nat_scope.

(* The connections accepted, and the number of objects read. *)
Definition accepted (tr : list event) : list nat := flat_map (fun a => match a with SAccept c => [c] | _ => [] end) tr.
Definition read_count (tr : list event) : nat := list_sum (map (fun a => match a with SRead _ _ _ _ => 1 | _ => 0 end) tr).
