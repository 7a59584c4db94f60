(* What calls of a future wait for, and how many steps they take. *)
From Coq Require Import List Arith Bool Lia.
From Verif Require Import Base Lts Counted CountedFacts Budget Future FutureProofs WaitSpec.
Import ListNotations.

Section Future.
  Context {V E : Type} (vnil : V) (enil : E).
  Implicit Types (tr : list (event V E)) (s : state V E).
  Notation runs := (runs vnil enil).
  Lemma one_op tr s i o o' : runs tr s -> In (ECall i o) tr -> In (ECall i o') tr -> o = o'.
  Proof.
    intros H. revert o o'. induction H as [|tr s1 s2 H IH St|tr s1 a s2 H IH St]; [cbn; tauto|exact IH|]. pose proof (i_pc _ _ (runs_inv _ _ _ _ H) i) as Q.
    intros o o' Ho Ho'. apply in_snoc in Ho, Ho'. destruct Ho as [Ho|Ho], Ho' as [Ho'|Ho']; auto; subst; try congruence;
    inversion St; subst; match goal with P : f_pc _ _ = _ |- _ => rewrite P in Q end; destruct Q as [Q _]; exfalso; eapply Q; eassumption.
  Qed.
  Lemma fu_moves s l s' : future_rests s -> step s l s' -> match l with Some (ECall _ _) | Some (EFinish _ _) => True | Some _ => False | None => exists i, f_pc s i = PAt OWaitFor /\ f_pc s' i = PRet OWaitFor RTimeout end.
  Proof. intros Q St. destruct (Q l s' St) as [(i & o & ->)|[(v & e & ->)|(i & -> & H)]]; [exact I|exact I|eauto]. Qed.
  Lemma fu_tau s i p' s' : future_rests s -> (forall j, f_pc s' j = upd (f_pc s) i p' j) -> p' <> PRet OWaitFor RTimeout -> ~ step s None s'.
  Proof.
    intros Q U N St. destruct (fu_moves _ _ _ Q St) as (j & J & J'). rewrite U in J'. destruct (Nat.eq_dec j i) as [->|D].
    - rewrite upd_eq in J'. congruence.
    - rewrite upd_ne in J' by exact D. congruence.
  Qed.
  Lemma fu_task s s' : future_rests s -> f_pc s' = f_pc s -> ~ step s None s'.
  Proof. intros Q U St. destruct (fu_moves _ _ _ Q St) as (j & J & J'). congruence. Qed.
  Lemma answered_flag tr s j r : runs tr s -> In (ERet j OCancel r) tr -> f_done s = true \/ f_cancel s = true.
  Proof.
    intros H. induction H as [|tr s1 s2 H IH St|tr s1 a s2 H IH St]; [intros []| |]; intros G.
    - specialize (IH G). inversion St; subst; cbn; tauto.
    - apply in_snoc in G as [G|G]; [specialize (IH G); inversion St; subst; cbn; tauto|]. subst a. inversion St; subst. cbn.
      pose proof (i_pc _ _ (runs_inv _ _ _ _ H) j) as Q. match goal with P : f_pc _ j = _ |- _ => rewrite P in Q end. destruct Q as (_ & _ & Q). destruct r; cbn in Q; tauto.
  Qed.
  Theorem future_rest tr s : runs tr s -> ~ In EPanic tr -> future_rests s -> forall i o, In (ECall i o) tr -> (forall r, ~ In (ERet i o r) tr) ->
    o <> OCancel /\ (forall v e, ~ In (EFinish v e) tr) /\ (forall j r, ~ In (ERet j OCancel r) tr).
  Proof.
    intros R NP Q i o Hc Hr. pose proof (runs_inv _ _ _ _ R) as I. destruct (called_pending _ _ _ _ _ _ R Hc Hr) as [P1 P2].
    assert (C : f_crash s = false) by (destruct (f_crash s) eqn:X; [destruct (NP (crash_panic _ _ _ _ R X))|reflexivity]).
    pose proof (i_pc _ _ I i) as K. destruct (f_pc s i) as [|o'| |w| |o' r|] eqn:P; try congruence.
    - destruct K as [K _]. pose proof (one_op _ _ _ _ _ R Hc K) as <-.
      assert (D : f_done s = false).
      { destruct (f_done s) eqn:D; [|reflexivity]. exfalso. destruct o.
        - eapply (fu_tau s i); [exact Q| | |apply (g_done s i C P D)]; [reflexivity|discriminate].
        - eapply (fu_tau s i); [exact Q| | |apply (c_done s i _ C P (or_introl eq_refl) D)]; [reflexivity|discriminate].
        - eapply (fu_tau s i); [exact Q| | |apply (c_done s i _ C P (or_intror eq_refl) D)]; [reflexivity|discriminate].
        - eapply (fu_tau s i); [exact Q| | |apply (x_fulfilled s i C P D)]; [reflexivity|discriminate]. }
      assert (X : f_cancel s = false).
      { destruct (f_cancel s) eqn:X; [|reflexivity]. exfalso. destruct o.
        4: eapply (fu_tau s i); [exact Q| | |apply (x_cancelled s i C P X)]; [reflexivity|discriminate].
        all: eapply (fu_tau s i); [exact Q| | |apply (c_cancelled s i _ C P ltac:(discriminate) X)]; [reflexivity|discriminate]. }
      split; [|split].
      + intros ->. eapply (fu_tau s i); [exact Q| | |apply (x_default s i C P D X)]; [reflexivity|discriminate].
      + pose proof (i_task _ _ I) as T. unfold task_ok in T. destruct (f_task s) as [|v e|e| | |] eqn:F; [exact T| | | | |]; exfalso.
        * eapply fu_task; [exact Q| |apply (t_store1 s v e C F)]. reflexivity.
        * eapply fu_task; [exact Q| |apply (t_store2 s e C F)]. reflexivity.
        * eapply fu_task; [exact Q| |apply (t_default s C F X)]. reflexivity.
        * eapply fu_task; [exact Q| |apply (t_close s C F D)]. reflexivity.
        * destruct (over_why _ _ _ _ R F); congruence.
      + intros j r G. destruct (answered_flag _ _ _ _ R G); congruence.
    - exfalso. eapply (fu_tau s i); [exact Q| | |apply (g_read1 s i C P)]; [reflexivity|discriminate].
    - exfalso. eapply (fu_tau s i); [exact Q| | |apply (g_read2 s i w C P)]; [reflexivity|discriminate].
    - exfalso. destruct (f_cancel s) eqn:X.
      + exact (fu_moves _ _ _ Q (x_panic s i C P X)).
      + eapply (fu_tau s i); [exact Q| | |apply (x_close s i C P X)]; [reflexivity|discriminate].
    - exfalso. exact (fu_moves _ _ _ Q (c_ret s i o' r C P)).
  Qed.

  Definition fu_cost (p : pc V E) : nat := match p with PIdle | PDone => 0 | PRet _ _ => 1 | PRead2 _ => 2 | PRead1 => 3 | PAt _ => 4 | PClosing => 2 end.
  Definition ta_cost (t : task V E) : nat := match t with TRunning => 5 | TStore1 _ _ => 4 | TStore2 _ => 3 | TSelect => 2 | TClosing => 1 | TOver => 0 end.
  Lemma fu_counted n tr s : steps step (init vnil enil) n tr s ->
    exists w, owns fu_cost (f_pc s) w /\ n + w + ta_cost (f_task s) <= 5 * length (future_calls tr) + 5 + (if f_crash s then 1 else 0) /\ (f_crash s = true -> 1 <= w + ta_cost (f_task s)).
  Proof.
    induction 1 as [|n tr s1 s2 H (w & W & L & Lc) St|n tr s1 a s2 H (w & W & L & Lc) St].
    - exists 0. split; [now apply owns_none|]. split; [cbn; lia|discriminate].
    - inversion St; subst; cbn [f_pc f_task f_crash set_pc set_task crashed];
      repeat match goal with F : f_crash _ = _ |- _ => rewrite F in * | F : f_task _ = _ |- _ => rewrite F in * end; cbn [ta_cost] in *;
      try (exists w; split; [exact W|]; split; [lia|]; first [discriminate | intros _; lia | intros _; match goal with P : f_pc _ ?i = _ |- _ => pose proof (owns_le fu_cost _ _ i W) as Q; rewrite P in Q; cbn [fu_cost] in Q; lia end]);
      match goal with |- exists w, owns _ (upd _ ?i ?p) w /\ _ => destruct (owns_upd fu_cost _ _ i p W) as (w' & W' & Q); exists w'; split; [exact W'|] end;
      match goal with P : f_pc _ _ = _ |- _ => rewrite P in Q end; cbn [fu_cost] in Q; (split; [lia|intros; first [discriminate|lia]]).
    - unfold future_calls in *. rewrite flat_map_app, app_length. inversion St; subst; cbn [f_pc f_task f_crash set_pc set_task crashed flat_map app length] in *;
      repeat match goal with F : f_crash _ = _ |- _ => rewrite F in * | F : f_task _ = _ |- _ => rewrite F in * end; cbn [ta_cost] in *;
      try (exists w; split; [exact W|]; split; [lia|]; first [discriminate | intros _; lia | intros _; match goal with P : f_pc _ ?i = _ |- _ => pose proof (owns_le fu_cost _ _ i W) as Q; rewrite P in Q; cbn [fu_cost] in Q; lia end]);
      match goal with |- exists w, owns _ (upd _ ?i ?p) w /\ _ => destruct (owns_upd fu_cost _ _ i p W) as (w' & W' & Q); exists w'; split; [exact W'|] end;
      match goal with P : f_pc _ _ = _ |- _ => rewrite P in Q end; cbn [fu_cost] in Q; (split; [lia|intros; first [discriminate|lia]]).
  Qed.
  Theorem future_bound n tr s : steps step (init vnil enil) n tr s -> n <= 5 * length (future_calls tr) + 5.
  Proof. intros H. destruct (fu_counted _ _ _ H) as (w & _ & L & Lc). destruct (f_crash s); [specialize (Lc eq_refl)|]; lia. Qed.
End Future.
