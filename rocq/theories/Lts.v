(* Transition systems: the common notion of run used by the models of concurrent code.
   A step is either internal (None) or shows an action (Some a). *)
From Coq Require Import List Arith Lia Bool.
Import ListNotations.

Section Lts.
  Context {S L : Type} (step : S -> option L -> S -> Prop).

  (* exec s tr s': from s a run shows the actions tr, oldest first, and arrives in s'. *)
  Inductive exec (s : S) : list L -> S -> Prop :=
  | exec_start : exec s [] s
  | exec_tau tr s1 s2 : exec s tr s1 -> step s1 None s2 -> exec s tr s2
  | exec_act tr s1 a s2 : exec s tr s1 -> step s1 (Some a) s2 -> exec s (tr ++ [a]) s2.

  Lemma exec_app (s s1 s2 : S) (t1 t2 : list L) : exec s t1 s1 -> exec s1 t2 s2 -> exec s (t1 ++ t2) s2.
  Proof.
    intros H1 H2. induction H2 as [|tr s2 s3 H IH St|tr s2 a s3 H IH St].
    - now rewrite app_nil_r.
    - exact (exec_tau _ _ _ _ IH St).
    - rewrite app_assoc. exact (exec_act _ _ _ _ _ IH St).
  Qed.

  Lemma exec_split (s s' : S) (pre : list L) (a : L) (post : list L) : exec s (pre ++ a :: post) s' ->
    exists s1 s2, exec s pre s1 /\ step s1 (Some a) s2 /\ exec s2 post s'.
  Proof.
    intros H. remember (pre ++ a :: post) as tr eqn:E. revert post E.
    induction H as [|tr s1 s2 H IH St|tr s1 b s2 H IH St]; intros post E.
    - now destruct pre.
    - destruct (IH post E) as (u & v & A & B & C). exists u, v. repeat split; auto. exact (exec_tau _ _ _ _ C St).
    - destruct (rev post) as [|z p] eqn:R.
      + assert (post = []) as -> by (rewrite <- (rev_involutive post), R; reflexivity).
        apply app_inj_tail in E as [-> ->]. exists s1, s2. repeat split; auto. apply exec_start.
      + assert (post = rev p ++ [z]) as -> by (rewrite <- (rev_involutive post), R; reflexivity).
        rewrite app_comm_cons, app_assoc in E. apply app_inj_tail in E as [-> ->].
        destruct (IH _ eq_refl) as (u & v & A & B & C). exists u, v. repeat split; auto. exact (exec_act _ _ _ _ _ C St).
  Qed.

  (* An invariant of the trace and the state. *)
  Lemma exec_inv (I : list L -> S -> Prop) (s0 : S) : I [] s0 ->
    (forall tr s s', I tr s -> step s None s' -> I tr s') ->
    (forall tr s a s', I tr s -> step s (Some a) s' -> I (tr ++ [a]) s') ->
    forall tr s, exec s0 tr s -> I tr s.
  Proof. intros H0 Ht Ha tr s H. induction H; eauto. Qed.

  Lemma exec_one (s s' : S) (a : L) : step s (Some a) s' -> exec s [a] s'.
  Proof. intros H. change [a] with ([] ++ [a]). eapply exec_act; [apply exec_start|exact H]. Qed.
  Lemma exec_one_tau (s s' : S) : step s None s' -> exec s [] s'.
  Proof. intros H. eapply exec_tau; [apply exec_start|exact H]. Qed.
  Lemma exec_cons_tau (s s1 s' : S) tr : step s None s1 -> exec s1 tr s' -> exec s tr s'.
  Proof. intros H E. change tr with ([] ++ tr). eapply exec_app; [apply exec_one_tau; exact H|exact E]. Qed.
  Lemma exec_cons (s s1 s' : S) a tr : step s (Some a) s1 -> exec s1 tr s' -> exec s (a :: tr) s'.
  Proof. intros H E. change (a :: tr) with ([a] ++ tr). eapply exec_app; [apply exec_one; exact H|exact E]. Qed.
End Lts.

(* Functional update, for tables of goroutines. *)
Definition upd {A : Type} (f : nat -> A) (i : nat) (x : A) : nat -> A := fun j => if Nat.eqb j i then x else f j.
Lemma upd_eq {A : Type} (f : nat -> A) i x : upd f i x i = x.
Proof. unfold upd. now rewrite Nat.eqb_refl. Qed.
Lemma upd_ne {A : Type} (f : nat -> A) i j x : j <> i -> upd f i x j = f j.
Proof. intros H. unfold upd. destruct (Nat.eqb_spec j i); [contradiction|reflexivity]. Qed.
Lemma upd_case {A : Type} (f : nat -> A) i j x : (j = i /\ upd f i x j = x) \/ (j <> i /\ upd f i x j = f j).
Proof. unfold upd. destruct (Nat.eqb_spec j i); auto. Qed.

(* a happens before b in the trace. *)
Definition before {L : Type} (tr : list L) (a b : L) : Prop := exists x y z, tr = x ++ a :: y ++ b :: z.
Lemma before_in {L : Type} (tr : list L) a b : before tr a b -> In a tr /\ In b tr.
Proof. intros (x & y & z & ->). split; rewrite !in_app_iff; cbn; rewrite ?in_app_iff; cbn; auto. Qed.
Lemma before_snoc {L : Type} (tr : list L) a b c : before (tr ++ [c]) a b <-> before tr a b \/ (In a tr /\ b = c).
Proof.
  split.
  - intros (x & y & z & E). destruct (rev z) as [|w p] eqn:R.
    + assert (z = []) as -> by (rewrite <- (rev_involutive z), R; reflexivity).
      rewrite app_comm_cons, app_assoc in E. apply app_inj_tail in E as [-> ->]. right. split; [|reflexivity]. rewrite in_app_iff. cbn. auto.
    + assert (z = rev p ++ [w]) as -> by (rewrite <- (rev_involutive z), R; reflexivity).
      left. exists x, y, (rev p). rewrite app_comm_cons, !app_assoc, app_comm_cons, app_assoc in E. apply app_inj_tail in E as [-> ->].
      now rewrite <- !app_assoc.
  - intros [(x & y & z & ->)|[H ->]].
    + exists x, y, (z ++ [c]). rewrite <- !app_assoc. cbn. now rewrite <- !app_assoc.
    + apply in_split in H as (x & y & ->). exists x, y, []. now rewrite <- app_assoc.
Qed.
Lemma in_snoc {L : Type} (tr : list L) a b : In a (tr ++ [b]) <-> In a tr \/ a = b.
Proof. rewrite in_app_iff. cbn. intuition. Qed.
Lemma before_cut {L : Type} (tr : list L) a b : before tr a b -> exists pre post, tr = pre ++ b :: post /\ In a pre.
Proof. intros (x & y & z & ->). exists (x ++ a :: y), z. rewrite <- app_assoc. split; [reflexivity|]. rewrite in_app_iff. cbn. auto. Qed.
