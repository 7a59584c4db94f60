(* What is asked of the description of a log record. *)
From Verif Require Import Base Log.
From Coq Require Import ZArith List Ascii String.
Open Scope Z_scope.

(* Not one of the control characters below the space, so no line break. *)
Definition visible (c : ascii) : Prop := 32 <= byteZ c.
Definition no_comma (s : bytes) : Prop := Forall (fun c => c <> ","%char) s.
(* What FormatLog does not quote holds no comma; the numbers are those of Go. *)
Definition tame (v : vlog) : Prop := no_comma (v_id v) /\ no_comma (v_host v) /\ no_comma (v_name v) /\ int64_ok (v_time v) /\ int64_ok (v_index v).
