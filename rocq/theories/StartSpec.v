(* What a configuration asks for. *)
From Coq Require Import ZArith.
From Verif Require Import Start.
Open Scope Z_scope.

(* The port on which replicas are to be served. *)
Definition wanted (c : config) (p : Z) : Prop :=
  (0 < replica_port c /\ replica_port c <> port c /\ p = replica_port c) \/ ((replica_port c <= 0 \/ replica_port c = port c) /\ p = port c + 1).
Definition can_listen (w : world) (p : Z) : Prop := 0 <= p <= 65535 /\ w_free w p = true.
