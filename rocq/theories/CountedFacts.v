From Coq Require Import List Arith Lia.
From Verif Require Import Lts Counted.
Import ListNotations.

Lemma steps_exec {S L : Type} (R : S -> option L -> S -> Prop) s n tr s' : steps R s n tr s' -> exec R s tr s'.
Proof. induction 1 as [|n tr s1 s2 H IH St|n tr s1 a s2 H IH St]; [apply exec_start|exact (exec_tau _ _ _ _ _ IH St)|exact (exec_act _ _ _ _ _ _ IH St)]. Qed.
Lemma exec_steps {S L : Type} (R : S -> option L -> S -> Prop) s tr s' : exec R s tr s' -> exists n, steps R s n tr s'.
Proof.
  induction 1 as [|tr s1 s2 H [n IH] St|tr s1 a s2 H [n IH] St]; [exists 0; constructor|exists (Datatypes.S n); exact (steps_tau _ _ _ _ _ _ IH St)|exists (Datatypes.S n); exact (steps_act _ _ _ _ _ _ _ IH St)].
Qed.
(* A sum over goroutines when one of them moves. *)
Lemma sum_same (f g : nat -> nat) l : (forall i, In i l -> f i = g i) -> list_sum (map f l) = list_sum (map g l).
Proof. intros H. f_equal. now apply map_ext_in. Qed.
Lemma sum_cons a l : list_sum (a :: l) = a + list_sum l.
Proof. reflexivity. Qed.
Lemma nodup_snoc {A : Type} (l : list A) x : NoDup l -> ~ In x l -> NoDup (l ++ [x]).
Proof.
  induction l as [|y l IH]; intros ND N; cbn; [repeat constructor; auto|]. inversion ND; subst. constructor.
  - rewrite in_app_iff. cbn in *. intuition.
  - apply IH; [assumption|]. intros H. apply N. now right.
Qed.
Lemma sum_upd {A : Type} (w : A -> nat) (p : nat -> A) i x l : NoDup l -> In i l ->
  list_sum (map (fun j => w (upd p i x j)) l) + w (p i) = list_sum (map (fun j => w (p j)) l) + w x.
Proof.
  induction l as [|j l IH]; intros ND Hi; [contradiction|]. inversion ND as [|? ? Nj ND']; subst. cbn [map]. rewrite !sum_cons. destruct Hi as [->|Hi].
  - rewrite upd_eq, (sum_same (fun j => w (upd p i x j)) (fun j => w (p j))); [lia|]. intros j Hj. rewrite upd_ne; [reflexivity|]. intros ->. contradiction.
  - rewrite upd_ne by (intros ->; contradiction). specialize (IH ND' Hi). lia.
Qed.
Lemma sum_le (f : nat -> nat) b l : (forall i, f i <= b) -> list_sum (map f l) <= b * length l.
Proof. intros H. induction l as [|i l IH]; [cbn; lia|]. cbn [map length]. rewrite sum_cons. specialize (H i). lia. Qed.
