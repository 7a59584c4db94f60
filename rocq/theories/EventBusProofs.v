From Coq Require Import List Arith Bool String.
From Verif Require Import Lts RWLock RWLockProofs EventBus EventBusSpec.
From stdpp Require Import gmap strings.
Import ListNotations.

Notation history := (RWLock.history perform).
Lemma has_in t m : has t m = true <-> t ∈ m.
Proof. unfold has. destruct (decide (t ∈ m)); split; congruence. Qed.
Lemma has_add (t t' : string) m : has t ({[t']} ∪ m) = if String.eqb t t' then true else has t m.
Proof.
  unfold has. destruct (String.eqb_spec t t') as [->|N]; (destruct (decide _); destruct (decide _) || idtac); try reflexivity; exfalso; set_solver.
Qed.
Lemma has_del (t t' : string) m : has t (m ∖ {[t']}) = if String.eqb t t' then false else has t m.
Proof.
  unfold has. destruct (String.eqb_spec t t') as [->|N]; (destruct (decide _); destruct (decide _) || idtac); try reflexivity; exfalso; set_solver.
Qed.
Lemma history_exists t m h m' : history m h m' -> has t m' = exists_from t (has t m) h.
Proof.
  induction 1 as [|m i o r m1 h m2 E H IH]; [reflexivity|]. rewrite IH.
  destruct o as [k|k|k|k|k]; cbn in E |- *.
  - inversion E; subst. reflexivity.
  - inversion E; subst. reflexivity.
  - destruct (has k m) eqn:F; inversion E; subst; rewrite ?has_add; [|reflexivity]. destruct (String.eqb_spec t k) as [->|]; [now rewrite F|reflexivity].
  - destruct (has k m) eqn:F; inversion E; subst; rewrite ?has_del; [reflexivity|]. destruct (String.eqb_spec t k) as [->|]; [now rewrite F|reflexivity].
  - inversion E; subst. reflexivity.
Qed.
Lemma history_split m p i o r q m' : history m (p ++ (i, o, r) :: q) m' -> exists m1, history m p m1 /\ r = snd (perform o m1).
Proof.
  revert m. induction p as [|[[j o'] r'] p IH]; intros m H; inversion H; subst.
  - exists m. split; [constructor|]. match goal with E : perform o m = _ |- _ => now rewrite E end.
  - match goal with E : history _ (p ++ _) _ |- _ => destruct (IH _ E) as (m1 & A & B) end. exists m1. split; [|exact B]. econstructor; eauto.
Qed.
Lemma modifiers_lock (o : op) : mutates o = true -> writes o = true.
Proof. now destruct o. Qed.
Theorem bus_answers tr s : bus_runs ∅ tr s -> bus_all_right (accesses tr).
Proof.
  intros H. apply (sequential _ _ _ modifiers_lock) in H. intros p i o r q E. rewrite E in H. apply history_split in H as (m1 & H & ->).
  assert (Z : forall t, has t m1 = topic_exists t p) by (intros t; exact (history_exists t _ _ _ H)).
  destruct o as [k|k|k|k|k]; cbn; rewrite <- ?Z; destruct (has k m1); reflexivity.
Qed.
