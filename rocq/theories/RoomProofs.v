(* How many events a data channel takes with nobody receiving. *)
From Coq Require Import List Arith ZArith Lia.
From Verif Require Import Lts DataChannel DataChannelProofs.
Import ListNotations.

Section Room.
  Context {A : Type}.
  (* One Send after the other, calls numbered from i. *)
  Fixpoint sends (i : nat) (es : list A) : list (event A) :=
    match es with [] => [] | e :: es' => ECall i (OSend e) :: EPut i e :: ERet i (OSend e) RSuccess :: sends (S i) es' end.
  Lemma room_for es : forall i (s : state A), d_crash s = false -> (forall j, i <= j -> d_pc s j = PIdle) -> length (d_buf s) + length es <= d_cap s ->
    exists s', exec step s (sends i es) s' /\ d_buf s' = d_buf s ++ es.
  Proof.
    induction es as [|e es IH]; intros i s C P L.
    - exists s. split; [constructor|]. now rewrite app_nil_r.
    - cbn [sends length] in *.
      set (s1 := set_pc s i (PSend e)).
      set (s2 := mkD (d_cap s1) (d_buf s1 ++ [e]) (d_flag s1) (d_closed s1) (upd (d_pc s1) i (PRet (OSend e) RSuccess)) false).
      set (s3 := set_pc s2 i PDone).
      destruct (IH (S i) s3) as (s' & X & B); [reflexivity| |cbn; rewrite app_length; cbn; lia|].
      { intros j Hj. cbn. rewrite !upd_ne by lia. apply P. lia. }
      exists s'. split; [|rewrite B; cbn; now rewrite <- app_assoc].
      eapply exec_cons; [apply (c_send s i e); auto|]. eapply exec_cons; [apply (s_put s1 i e); [exact C|cbn; now rewrite upd_eq|cbn; lia]|].
      eapply exec_cons; [apply (c_ret s2 i (OSend e) RSuccess); [reflexivity|cbn; now rewrite upd_eq]|]. exact X.
  Qed.
  Theorem size_room (size : Z) : (forall tr (s : state A), runs (capacity size) tr s -> length (puts tr) <= length (takes tr) + Z.to_nat size) /\
    forall es : list A, length es <= Z.to_nat size -> exists s, runs (capacity size) (sends 0 es) s.
  Proof.
    assert (Cap : capacity size = Z.to_nat size) by (unfold capacity; destruct (Z.leb_spec size 0); lia). split.
    - intros tr s R. destruct (fifo _ _ _ R) as [E L]. apply (f_equal (@length A)) in E. rewrite app_length, !map_length in E. lia.
    - intros es L. destruct (room_for es 0 (init (capacity size))) as (s' & X & _); [reflexivity|reflexivity|cbn; lia|]. exists s'. exact X.
  Qed.
End Room.
