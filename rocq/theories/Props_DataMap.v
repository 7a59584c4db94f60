(* C47 *)
From Coq Require Import List Arith Bool ZArith String Lia.
From Verif Require Import Lts Counted RWLock RWLockProofs RWLockRest DataMap DataMapSpec DataMapProofs DataMapRest.
From stdpp Require Import gmap strings.
Import ListNotations.
Local Open Scope Z_scope.
Local Open Scope string_scope.

(* C47: the simple map, for every sequence of calls. *)
Theorem C47_simple : forall (V : Type) (os : list (op V)), all_right (run ∅ os).
Proof. exact @simple_right. Qed.
Print Assumptions C47_simple.
Example C47_simple_ex : map snd (run ∅ [OSet "a" 1; OSet "b" 2; OSet "a" 3; OGet "a"; ORemove "b"; OHas "b"; OLen])
  = [RUnit; RUnit; RUnit; RGet (Some 3); RUnit; RHas false; RLen 1].
Proof. vm_compute. reflexivity. Qed.

(* C47: the locked map under any concurrency: the accesses, in the order they took effect, are
   answered as one sequential history ... *)
Theorem C47_locked_answers : forall (V : Type) tr (s : RWLock.state _ (op V) (res V)),
  locked_runs ∅ tr s -> all_right (accesses tr).
Proof. exact @locked_right. Qed.
Print Assumptions C47_locked_answers.
(* ... each returned call is exactly one of them, between its call and its return, ... *)
Theorem C47_locked_returns : forall (V : Type) tr (s : RWLock.state _ (op V) (res V)) i o r,
  locked_runs ∅ tr s -> In (ERet i o r) tr -> List.filter (about i) tr = [ECall i o; EDo i o r; ERet i o r].
Proof. exact (fun V tr s i o r => returned _ _ _ modifiers_lock ∅ tr s i o r). Qed.
Print Assumptions C47_locked_returns.
(* ... and no two accesses ever clash. *)
Theorem C47_locked_safe : forall (V : Type) tr (s : RWLock.state _ (op V) (res V)),
  locked_runs ∅ tr s -> ~ In ECrash tr.
Proof. exact (fun V tr s => no_crash _ _ _ modifiers_lock ∅ tr s). Qed.
Print Assumptions C47_locked_safe.
(* Every call ends: when nothing can happen but further calls, all calls have returned, ... *)
Theorem C47_locked_rest : forall (V : Type) tr (s : RWLock.state _ (op V) (res V)) i o,
  locked_runs ∅ tr s -> at_rest (RWLock.step DataMap.writes DataMap.mutates DataMap.perform) is_call s -> In (ECall i o) tr -> exists r, In (ERet i o r) tr.
Proof. exact (fun V tr s i o => rest _ _ _ modifiers_lock ∅ tr s i o). Qed.
Print Assumptions C47_locked_rest.
(* ... and this comes after at most seven steps for each call, whatever the schedule. *)
Theorem C47_locked_bound : forall (V : Type) n tr (s : RWLock.state _ (op V) (res V)),
  steps (RWLock.step DataMap.writes DataMap.mutates DataMap.perform) (RWLock.init ∅) n tr s -> (n <= 7 * List.length (called tr))%nat.
Proof. exact (fun V n tr s => bound _ _ _ modifiers_lock ∅ n tr s). Qed.
Print Assumptions C47_locked_bound.
(* Whoever has not called can, and from every state all calls can return. *)
Theorem C47_locked_accepts : forall (V : Type) tr (s : RWLock.state _ (op V) (res V)) i o,
  locked_runs ∅ tr s -> ~ In i (called tr) -> exists s', RWLock.step DataMap.writes DataMap.mutates DataMap.perform s (Some (ECall i o)) s'.
Proof. exact (fun V tr s i o => accepts _ _ _ modifiers_lock ∅ tr s i o). Qed.
Print Assumptions C47_locked_accepts.
Theorem C47_locked_finish : forall (V : Type) tr (s : RWLock.state _ (op V) (res V)), locked_runs ∅ tr s ->
  exists tr' s', exec (RWLock.step DataMap.writes DataMap.mutates DataMap.perform) s tr' s' /\ List.Forall (fun a => ~ is_call a) tr' /\
  forall i o, In (ECall i o) tr -> exists r, In (ERet i o r) (tr ++ tr')%list.
Proof. exact (fun V tr s => finish _ _ _ modifiers_lock ∅ tr s). Qed.
Print Assumptions C47_locked_finish.
(* Get, Has and Len do not wait for each other. *)
Definition only_reads {V : Type} (o : op V) : Prop := match o with OSet _ _ | ORemove _ => False | _ => True end.
Theorem C47_locked_overlap : forall (V : Type) (l : list (nat * op V)), List.NoDup (map fst l) -> (forall i o, In (i, o) l -> only_reads o) ->
  exists tr s, locked_runs ∅ tr s /\ forall i o, In (i, o) l -> w_pc s i = RWLock.PBusy o.
Proof. intros V l ND H. apply overlap; [exact ND|]. intros i o Hi. apply H in Hi. destruct o; cbn in *; tauto. Qed.
Print Assumptions C47_locked_overlap.
Example C47_finish_ex : List.NoDup (map fst [(0%nat, OGet (V:=Z) "a"); (1%nat, OLen)]) /\ exists s, locked_runs (V:=Z) ∅ [ECall 0 (OSet "a" 7); ECall 1 OLen] s /\ ~ In 2%nat (called [ECall (R:=res Z) 0 (OSet "a" 7); ECall 1 OLen]).
Proof.
  split; [repeat constructor; cbn; intuition discriminate|]. eexists. split; [|cbn; intuition discriminate].
  eapply exec_cons; [apply RWLock.call; reflexivity|]. eapply exec_cons; [apply RWLock.call; reflexivity|]. apply exec_start.
Qed.
Theorem C47_sync_rest : forall (V : Type) tr (s : DataMap.state V) i o,
  sync_runs tr s -> at_rest DataMap.step is_call s -> In (ECall i o) tr -> exists r, In (ERet i o r) tr.
Proof. exact @sync_rest. Qed.
Print Assumptions C47_sync_rest.
Theorem C47_sync_bound : forall (V : Type) n tr (s : DataMap.state V),
  steps DataMap.step DataMap.init n tr s -> (n <= 5 * List.length (called tr))%nat.
Proof. exact @sync_bound. Qed.
Print Assumptions C47_sync_bound.

Ltac norm := cbn [RWLock.set_pc RWLock.init w_data w_readers w_writer w_pc w_crash DataMap.set_pc DataMap.init m_map m_size m_pc].
Tactic Notation "tau" uconstr(c) := eapply exec_cons_tau; [eapply c; try reflexivity; try discriminate; auto | norm].
Tactic Notation "act" uconstr(c) := eapply exec_cons; [eapply c; try reflexivity; try discriminate; auto | norm].

(* A writer waits for a reader; two readers overlap. *)
Example C47_locked_ex : exists s, locked_runs (V:=Z) ∅
  [ECall 0 (OSet "a" 7); EDo 0 (OSet "a" 7) RUnit; ERet 0 (OSet "a" 7) RUnit;
   ECall 1 OLen; ECall 2 (OGet "a"); EDo 2 (OGet "a") (RGet (Some 7)); EDo 1 OLen (RLen 1);
   ERet 1 OLen (RLen 1); ERet 2 (OGet "a") (RGet (Some 7))] s.
Proof.
  eexists. unfold locked_runs, RWLock.runs.
  act (RWLock.call _ _ _ _ 0%nat). tau (RWLock.pend _ _ _ _ 0%nat). tau (RWLock.lock _ _ _ _ 0%nat). tau (RWLock.begin _ _ _ _ 0%nat). act (end_eq _ _ _ _ 0%nat). tau (RWLock.unlock _ _ _ _ 0%nat). act (RWLock.ret _ _ _ _ 0%nat).
  act (RWLock.call _ _ _ _ 1%nat). act (RWLock.call _ _ _ _ 2%nat). tau (RWLock.rlock _ _ _ _ 1%nat). tau (RWLock.rlock _ _ _ _ 2%nat).
  tau (RWLock.begin _ _ _ _ 1%nat). tau (RWLock.begin _ _ _ _ 2%nat). act (end_eq _ _ _ _ 2%nat). act (end_eq _ _ _ _ 1%nat).
  tau (RWLock.runlock _ _ _ _ 1%nat). tau (RWLock.runlock _ _ _ _ 2%nat). act (RWLock.ret _ _ _ _ 1%nat). act (RWLock.ret _ _ _ _ 2%nat).
  apply exec_start.
Qed.

(* After one Set nothing but a call can happen. *)
Example C47_rest_ex : (exists s, locked_runs (V:=Z) ∅ [ECall 0 (OSet "a" 7); EDo 0 (OSet "a" 7) RUnit; ERet 0 (OSet "a" 7) RUnit] s /\
    at_rest (RWLock.step DataMap.writes DataMap.mutates DataMap.perform) is_call s) /\
  (exists s, sync_runs (V:=Z) [ECall 0 (OSet "a" 7); EDo 0 (OSet "a" 7) RUnit; ERet 0 (OSet "a" 7) RUnit] s /\ at_rest DataMap.step is_call s).
Proof.
  split.
  - eexists. split.
    + unfold locked_runs, RWLock.runs. act (RWLock.call _ _ _ _ 0%nat). tau (RWLock.pend _ _ _ _ 0%nat). tau (RWLock.lock _ _ _ _ 0%nat). tau (RWLock.begin _ _ _ _ 0%nat). act (end_eq _ _ _ _ 0%nat). tau (RWLock.unlock _ _ _ _ 0%nat). act (RWLock.ret _ _ _ _ 0%nat). apply exec_start.
    + intros l s' St. inversion St; subst; try (eexists; split; [reflexivity|exact I]); exfalso;
        match goal with P : ?f ?i = _ |- _ => is_var i; destruct i; vm_compute in P; discriminate P end.
  - eexists. split.
    + unfold sync_runs. act (DataMap.call _ 0%nat). tau (DataMap.set_has _ 0%nat). tau (DataMap.set_add _ 0%nat). act (DataMap.set_store _ 0%nat). act (DataMap.ret _ 0%nat). apply exec_start.
    + intros l s' St. inversion St; subst; try (eexists; split; [reflexivity|exact I]); exfalso;
        match goal with P : ?f ?i = _ |- _ => is_var i; destruct i; vm_compute in P; discriminate P end.
Qed.

(* C47 is false of the sync map: after two overlapping Sets of the same new key have returned,
   with nothing else going on, Len says 2 though there is one key. *)
Theorem C47_sync_len_refuted : exists (tr : list (RWLock.event (op Z) (res Z))) s,
  sync_runs tr s /\ quiet tr /\ In (ERet 2 OLen (RLen 2)) tr /\ key_count (accesses tr) 1.
Proof.
  set (tr := [ECall 0 (OSet "a" 5); ECall 1 (OSet "a" 6); EDo 0 (OSet "a" 5) RUnit; EDo 1 (OSet "a" 6) RUnit;
    ERet 0 (OSet "a" 5) RUnit; ERet 1 (OSet "a" 6) RUnit; ECall 2 OLen; EDo 2 OLen (RLen 2); ERet 2 OLen (RLen 2)] : list (RWLock.event (op Z) (res Z))).
  assert (R : exists s, sync_runs tr s).
  { eexists. unfold sync_runs, tr.
    act (DataMap.call _ 0%nat). act (DataMap.call _ 1%nat). tau (DataMap.set_has _ 0%nat). tau (DataMap.set_has _ 1%nat).
    tau (DataMap.set_add _ 0%nat). tau (DataMap.set_add _ 1%nat). act (DataMap.set_store _ 0%nat). act (DataMap.set_store _ 1%nat).
    act (DataMap.ret _ 0%nat). act (DataMap.ret _ 1%nat). act (DataMap.call _ 2%nat). act (len_eq _ 2%nat). act (DataMap.ret _ 2%nat).
    apply exec_start. }
  destruct R as [s R]. exists tr, s. split; [exact R|]. split; [|split].
  - intros j o H M. unfold tr in H. cbn in H. exists RUnit. unfold tr.
    repeat destruct H as [H|H]; try discriminate; inversion H; subst; cbn; auto 10; contradiction.
  - unfold tr. cbn. auto 12.
  - exists ["a"]. split; [repeat constructor; cbn; auto|]. split; [|reflexivity]. intros k. unfold tr. cbn. unfold value_of. cbn.
    destruct (String.eqb_spec k "a") as [->|N]; split.
    + intros _. discriminate.
    + intros _. now left.
    + intros [E|[]]. exfalso. now apply N.
    + intros E. exfalso. now apply E.
Qed.
Print Assumptions C47_sync_len_refuted.

(* What the sync map does keep, under any concurrency: every answer but Len's is that of one
   sequential history of accesses, ... *)
Theorem C47_sync_values_partial : forall (V : Type) tr (s : DataMap.state V),
  sync_runs tr s -> all_right_but_len (accesses tr).
Proof. exact @sync_right. Qed.
Print Assumptions C47_sync_values_partial.
Theorem C47_sync_returns_partial : forall (V : Type) tr (s : DataMap.state V) i o r,
  sync_runs tr s -> In (ERet i o r) tr -> List.filter (about i) tr = [ECall i o; EDo i o r; ERet i o r].
Proof. exact @sync_returned. Qed.
Print Assumptions C47_sync_returns_partial.
(* ... and Len is right (as an int32) if Sets and Removes never overlap each other and none is in
   progress when Len reads. *)
Theorem C47_sync_len_partial : forall (V : Type) pre i n post (s : DataMap.state V),
  sync_runs (pre ++ EDo i OLen (RLen n) :: post) s -> one_writer pre -> quiet pre ->
  exists k, key_count (accesses pre) k /\ n = wrap32 k.
Proof. exact @sync_len. Qed.
Print Assumptions C47_sync_len_partial.
Example C47_sync_ex : exists s, sync_runs (V:=Z)
  [ECall 0 (OSet "a" 5); ECall 3 (OGet "a"); EDo 3 (OGet "a") (RGet None); EDo 0 (OSet "a" 5) RUnit; ERet 0 (OSet "a" 5) RUnit;
   ECall 2 OLen; EDo 2 OLen (RLen 1); ERet 3 (OGet "a") (RGet None)] s.
Proof.
  eexists. unfold sync_runs. act (DataMap.call _ 0%nat). act (DataMap.call _ 3%nat). tau (DataMap.set_has _ 0%nat). tau (DataMap.set_add _ 0%nat).
  act (get_eq _ 3%nat). act (DataMap.set_store _ 0%nat). act (DataMap.ret _ 0%nat). act (DataMap.call _ 2%nat). act (len_eq _ 2%nat). act (DataMap.ret _ 3%nat). apply exec_start.
Qed.
