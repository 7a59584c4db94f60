(* Vocabulary for C89: what comes to the master from outside, and what a failure is. *)
From Coq Require Import List Arith.
From Verif Require Import Base Lts Log Persist Master.
Import ListNotations.

(* From outside: Start, SetFile, a write to the log, a connection, Stop; and, among the steps
   without a name, those that concern no replica and not Stop: the engine's flush, and the error
   that ends the accept loop. *)
Definition outside (m : master) (l : option event) (m' : master) : Prop :=
  match l with
  | Some MStart | Some (MFile _) | Some (MLog _) | Some (MAccept _) | Some MStop => True
  | None => m_h m' = m_h m /\ m_stop m' = m_stop m
  | _ => False
  end.
Definition own (m : master) (l : option event) (m' : master) : Prop := step m l m' /\ ~ outside m l m'.
(* A replica is given up though its connection is open and the log has no error. *)
Definition failure (m : master) (l : option event) : Prop :=
  exists h, l = Some (MFail h) /\ m_open m h = true /\ forall p, m_file m = Some p -> p_err p = false.
Definition at_rest (m : master) : Prop := forall l m', step m l m' -> outside m l m' \/ failure m l.
(* The replicas that connected. *)
Definition accepted (tr : list event) : list nat := flat_map (fun a => match a with MAccept h => [h] | _ => [] end) tr.
