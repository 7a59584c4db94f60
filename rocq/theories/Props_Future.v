(* C37, C38: futures, over every schedule and any number of callers. *)
From Coq Require Import List Arith.
From Verif Require Import Lts Future FutureProofs.
Import ListNotations.

(* C37: what each method can return, in terms of what happened before. *)
Theorem C37_get_is_the_tasks_result : forall (V E : Type) (vnil : V) (enil : E) tr s i v e, runs vnil enil tr s ->
  In (ERet i OGet (RGot v e)) tr -> before tr (EFinish v e) (ERet i OGet (RGot v e)).
Proof. exact (fun V E vnil enil tr s i v e H => returns vnil enil tr s i OGet (RGot v e) H). Qed.
Print Assumptions C37_get_is_the_tasks_result.
Theorem C37_wait_nil_after_finish : forall (V E : Type) (vnil : V) (enil : E) tr s i o, runs vnil enil tr s -> o = OWait \/ o = OWaitFor ->
  In (ERet i o RNil) tr -> exists v e, before tr (EFinish v e) (ERet i o RNil).
Proof. intros V E vnil enil tr s i o H [-> | ->] Hin; exact (returns vnil enil tr s i _ _ H Hin). Qed.
Print Assumptions C37_wait_nil_after_finish.
Theorem C37_cancelled_only_if_cancelled : forall (V E : Type) (vnil : V) (enil : E) tr s i o, runs vnil enil tr s ->
  In (ERet i o RCancelled) tr -> exists j, before tr (ECall j OCancel) (ERet i o RCancelled).
Proof. intros V E vnil enil tr s i o H Hin. pose proof (returns vnil enil tr s i _ _ H Hin) as R. now destruct o. Qed.
Print Assumptions C37_cancelled_only_if_cancelled.
Theorem C37_one_result : forall (V E : Type) (vnil : V) (enil : E) tr s v1 e1 v2 e2, runs vnil enil tr s -> ~ before tr (EFinish v1 e1) (EFinish v2 e2).
Proof. exact (fun V E vnil enil tr s v1 e1 v2 e2 => one_finish vnil enil tr s v1 e1 v2 e2). Qed.
Print Assumptions C37_one_result.
(* Get and Wait return nothing else; in particular Get never reports success without a result. *)
Theorem C37_only_these_results : forall (V E : Type) (vnil : V) (enil : E) tr s i o r, runs vnil enil tr s -> In (ERet i o r) tr ->
  match o with
  | OGet => (exists v e, r = RGot v e) \/ r = RCancelled
  | OWait => r = RNil \/ r = RCancelled
  | OWaitFor => r = RNil \/ r = RCancelled \/ r = RTimeout
  | OCancel => r = RNil \/ r = RCancelled \/ r = RFulfilled
  end.
Proof. intros V E vnil enil tr s i o r H Hin. pose proof (returns vnil enil tr s i o r H Hin). destruct o, r; eauto; contradiction. Qed.
Print Assumptions C37_only_these_results.
(* Nobody waits in vain: once the task is done and nobody cancels, every call can return. *)
Theorem C37_calls_can_return : forall (V E : Type) (vnil : V) (enil : E) tr s i o v e, runs vnil enil tr s ->
  In (EFinish v e) tr -> (forall j, ~ In (ECall j OCancel) tr) -> ~ In EPanic tr -> In (ECall i o) tr -> (forall r, ~ In (ERet i o r) tr) ->
  exists tr' s', runs vnil enil (tr ++ tr') s' /\ exists r, In (ERet i o r) tr'.
Proof. exact (fun V E vnil enil tr s i o v e => get_returns vnil enil tr s i o v e). Qed.
Print Assumptions C37_calls_can_return.

Tactic Notation "tau" uconstr(c) := eapply exec_cons_tau; [eapply c; try reflexivity; try discriminate; auto | ].
Tactic Notation "act" uconstr(c) := eapply exec_cons; [eapply c; try reflexivity; try discriminate; auto | ].

Example C37_ex : exists s, runs 0 0 [ECall 1 OGet; ECall 2 OWait; EFinish 7 8; ERet 1 OGet (RGot 7 8); ERet 2 OWait RNil] s.
Proof.
  eexists. unfold runs. act (c_call (init 0 0) 1 OGet). act c_call. act t_finish. tau t_store1. tau t_store2. tau t_default.
  tau t_close.
  tau (g_done _ 1). tau (g_read1 _ 1). tau (g_read2 _ 1).
  act c_ret.
  tau (c_done _ 2 OWait). act c_ret. apply exec_start.
Qed.
Example C37_cancelled_ex : exists s, runs 0 0 [ECall 1 OGet; ECall 2 OCancel; ERet 1 OGet RCancelled; ERet 2 OCancel RNil] s.
Proof.
  eexists. unfold runs. act (c_call (init 0 0) 1 OGet). act c_call.
  tau (x_default _ 2). tau (x_close _ 2).
  tau (c_cancelled _ 1 OGet).
  act c_ret. act c_ret. apply exec_start.
Qed.

(* C38 is false: a Get called after Cancel returned nil can return the task's result. *)
Theorem C38_decisive_refuted : exists tr (s : state nat nat) v e, runs 0 0 tr s /\
  before tr (ERet 1 OCancel RNil) (ECall 2 OGet) /\ In (ERet 2 OGet (RGot v e)) tr.
Proof.
  exists [EFinish 7 8; ECall 1 OCancel; ERet 1 OCancel RNil; ECall 2 OGet; ERet 2 OGet (RGot 7 8)]. eexists. exists 7, 8.
  split; [|split; [exists [EFinish 7 8; ECall 1 OCancel], [], [ERet 2 OGet (RGot 7 8)]; reflexivity|cbn; auto 10]].
  unfold runs. act (t_finish (init 0 0) 7 8). tau t_store1. tau t_store2. tau t_default.
  act (c_call _ 1).
  tau (x_default _ 1). tau (x_close _ 1).
  act c_ret.
  tau t_close.
  act (c_call _ 2).
  tau (g_done _ 2). tau (g_read1 _ 2). tau (g_read2 _ 2).
  act c_ret. apply exec_start.
Qed.
Print Assumptions C38_decisive_refuted.
(* C38 is false: two Cancel calls at the same time can crash the process. *)
Theorem C38_crash_refuted : exists tr (s : state nat nat), runs 0 0 tr s /\ In EPanic tr.
Proof.
  exists [ECall 1 OCancel; ECall 2 OCancel; EPanic]. eexists. split; [|cbn; auto]. unfold runs.
  act (c_call _ 1). act (c_call _ 2).
  tau (x_default _ 1). tau (x_default _ 2).
  tau (x_close _ 1). act (x_panic _ 2). apply exec_start.
Qed.
Print Assumptions C38_crash_refuted.
(* What holds: Cancel succeeds at most once. *)
Theorem C38_succeeds_once_partial : forall (V E : Type) (vnil : V) (enil : E) tr s i j, runs vnil enil tr s ->
  ~ before tr (ERet i OCancel RNil) (ERet j OCancel RNil).
Proof. exact (fun V E vnil enil tr s i j => cancel_once vnil enil tr s i j). Qed.
Print Assumptions C38_succeeds_once_partial.
(* A Cancel that returned nil before the task finished is decisive, for every caller. *)
Theorem C38_early_cancel_partial : forall (V E : Type) (vnil : V) (enil : E) tr s i v e j w d, runs vnil enil tr s ->
  before tr (ERet i OCancel RNil) (EFinish v e) ->
  ~ In (ERet j OGet (RGot w d)) tr /\ ~ In (ERet j OWait RNil) tr /\ ~ In (ERet j OWaitFor RNil) tr.
Proof. exact (fun V E vnil enil tr s i v e j w d => early_cancel vnil enil tr s i v e j w d). Qed.
Print Assumptions C38_early_cancel_partial.
(* A crash needs two Cancel calls that overlap: neither returned nil before the other began. *)
Theorem C38_crash_needs_overlap_partial : forall (V E : Type) (vnil : V) (enil : E) tr s, runs vnil enil tr s -> In EPanic tr ->
  exists i j, i <> j /\ In (ECall i OCancel) tr /\ In (ECall j OCancel) tr /\ (forall r, ~ In (ERet i OCancel r) tr) /\ ~ before tr (ERet j OCancel RNil) (ECall i OCancel).
Proof. exact (fun V E vnil enil tr s => crash_overlap vnil enil tr s). Qed.
Print Assumptions C38_crash_needs_overlap_partial.
Example C38_early_ex : exists tr (s : state nat nat), runs 0 0 tr s /\ before tr (ERet 1 OCancel RNil) (EFinish 7 8).
Proof.
  exists [ECall 1 OCancel; ERet 1 OCancel RNil; EFinish 7 8]. eexists. split; [|exists [ECall 1 OCancel], [], []; reflexivity]. unfold runs.
  act (c_call _ 1). tau (x_default _ 1). tau (x_close _ 1).
  act c_ret. act t_finish. apply exec_start.
Qed.
