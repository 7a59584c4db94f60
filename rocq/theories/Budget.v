(* How many steps calls can take: every call has a budget that depends on where it is, and every step is
   paid from it. *)
From Coq Require Import List Arith Lia.
From Verif Require Import Lts.
Import ListNotations.

Section Budget.
  Context {P : Type} (cost : P -> nat).
  Fixpoint sum (f : nat -> P) (l : list nat) : nat := match l with [] => 0 | i :: l' => cost (f i) + sum f l' end.
  Lemma sum_out f i p l : ~ In i l -> sum (upd f i p) l = sum f l.
  Proof. induction l as [|j l IH]; cbn; [reflexivity|]. intros N. rewrite upd_ne by intuition congruence. rewrite IH; [reflexivity|tauto]. Qed.
  Lemma sum_in f i p l : NoDup l -> In i l -> sum (upd f i p) l + cost (f i) = sum f l + cost p.
  Proof.
    induction 1 as [|j l N ND IH]; cbn; [tauto|]. intros [->|H].
    - rewrite upd_eq, (sum_out f i p l N). lia.
    - rewrite upd_ne by congruence. specialize (IH H). lia.
  Qed.
  (* What all calls together may still spend. *)
  Definition owns (f : nat -> P) (w : nat) : Prop := exists l, NoDup l /\ (forall i, ~ In i l -> cost (f i) = 0) /\ sum f l = w.
  Lemma owns_none f : (forall i, cost (f i) = 0) -> owns f 0.
  Proof. intros H. exists []. split; [constructor|]. split; [auto|reflexivity]. Qed.
  Lemma owns_upd f w i p : owns f w -> exists w', owns (upd f i p) w' /\ w' + cost (f i) = w + cost p.
  Proof.
    intros (l & ND & O & <-). destruct (in_dec Nat.eq_dec i l) as [I|I].
    - exists (sum (upd f i p) l). split; [|now apply sum_in]. exists l. split; [exact ND|]. split; [|reflexivity]. intros j J. rewrite upd_ne by congruence. auto.
    - exists (sum (upd f i p) (i :: l)). split; [|cbn; rewrite upd_eq, sum_out, (O i) by assumption; lia]. exists (i :: l). split; [now constructor|]. split; [|reflexivity].
      cbn. intros j J. rewrite upd_ne by (intros ->; tauto). apply O. tauto.
  Qed.
  Lemma owns_ext f g w : (forall i, cost (g i) = cost (f i)) -> owns f w -> owns g w.
  Proof.
    intros E (l & ND & O & <-). exists l. split; [exact ND|]. split; [intros i Hi; rewrite E; auto|]. clear ND O. induction l as [|i l IH]; cbn; [reflexivity|]. now rewrite E, IH.
  Qed.
  Lemma owns_le f w i : owns f w -> cost (f i) <= w.
  Proof.
    intros (l & _ & O & <-). destruct (in_dec Nat.eq_dec i l) as [I|I]; [|rewrite (O i I); lia]. clear O. induction l as [|j l IH]; [destruct I|]. cbn. destruct I as [->|I]; [lia|]. specialize (IH I). lia.
  Qed.
End Budget.
