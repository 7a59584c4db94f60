(* C49: the broadcaster, over every schedule and any number of callers. *)
From Coq Require Import List Arith.
From Verif Require Import Lts Broadcast BroadcastProofs.
Import ListNotations.
Tactic Notation "tau" uconstr(c) := eapply exec_cons_tau; [eapply c; try reflexivity; try discriminate; auto | ].
Tactic Notation "act" uconstr(c) := eapply exec_cons; [eapply c; try reflexivity; try discriminate; auto | ].

(* A Get returns only after, and only the value of, a Set. *)
Theorem C49_get_after_set : forall (V : Type) (vnil : V) tr s i v, runs vnil tr s -> In (ERetGet i v) tr -> exists j, before tr (ECallSet j v) (ERetGet i v).
Proof. exact (fun V vnil tr s i v => get_value vnil tr s i v). Qed.
Print Assumptions C49_get_after_set.
(* With one Set, every Get returns its value. *)
Theorem C49_one_set_one_value : forall (V : Type) (vnil : V) tr s j v i w, runs vnil tr s ->
  (forall k u, In (ECallSet k u) tr -> k = j) -> In (ECallSet j v) tr -> In (ERetGet i w) tr -> w = v.
Proof. exact (fun V vnil tr s j v i w => one_set vnil tr s j v i w). Qed.
Print Assumptions C49_one_set_one_value.
(* Every Get called can return once a Set has returned. *)
Theorem C49_get_can_return : forall (V : Type) (vnil : V) tr s i j v, runs vnil tr s -> ~ In EPanic tr -> In (ERetSet j v) tr -> In (ECallGet i) tr ->
  (exists w, In (ERetGet i w) tr) \/ exists w s', runs vnil (tr ++ [ERetGet i w]) s'.
Proof. exact (fun V vnil tr s i j v => get_can_return vnil tr s i j v). Qed.
Print Assumptions C49_get_can_return.
(* Only one Set ever returns; another one never does, and can crash; only a second Set crashes. *)
Theorem C49_one_set_returns : forall (V : Type) (vnil : V) tr s i j v w, runs vnil tr s -> ~ before tr (ERetSet i v) (ERetSet j w).
Proof. exact (fun V vnil tr s i j v w => one_set_returns vnil tr s i j v w). Qed.
Print Assumptions C49_one_set_returns.
Theorem C49_second_set_crashes : forall (V : Type) (vnil : V) tr s i v j w, runs vnil tr s -> ~ In EPanic tr ->
  In (ERetSet i v) tr -> In (ECallSet j w) tr -> j <> i -> (forall u, ~ In (ERetSet j u) tr) /\ exists s', runs vnil (tr ++ [EPanic]) s'.
Proof. exact (fun V vnil tr s i v j w => second_set_crashes vnil tr s i v j w). Qed.
Print Assumptions C49_second_set_crashes.
Theorem C49_crash_needs_two_sets : forall (V : Type) (vnil : V) tr s, runs vnil tr s -> In EPanic tr -> exists i j v w, i <> j /\ In (ECallSet i v) tr /\ In (ECallSet j w) tr.
Proof. exact (fun V vnil tr s => panic_two_sets vnil tr s). Qed.
Print Assumptions C49_crash_needs_two_sets.
Example C49_ex : exists s, runs 0 [ECallGet 1; ECallSet 2 7; ERetSet 2 7; ERetGet 1 7; ECallGet 3; ERetGet 3 7] s.
Proof.
  eexists. unfold runs. act call_get. act call_set. tau (set_message _ 2). tau (set_close _ 2). act set_ret. tau (get_ready _ 1). tau (get_read _ 1). act get_ret.
  act call_get. tau (get_ready _ 3). tau (get_read _ 3). act get_ret. apply exec_start.
Qed.
Example C49_second_ex : exists s, runs 0 [ECallSet 1 7; ERetSet 1 7; ECallSet 2 8; EPanic] s.
Proof. eexists. unfold runs. act call_set. tau (set_message _ 1). tau (set_close _ 1). act set_ret. act call_set. tau (set_message _ 2). act (set_panic _ 2). apply exec_start. Qed.
