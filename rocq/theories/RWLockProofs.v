(* Mutual exclusion, and every run is a sequential history (linearizability). *)
From Coq Require Import List Arith Bool Lia.
From Verif Require Import Lts RWLock.
Import ListNotations.

Section Proofs.
  Context {S O R : Type} (writes mutates : O -> bool) (apply : O -> S -> S * R).
  Context (modifiers_lock : forall o, mutates o = true -> writes o = true).
  Notation state := (state S O R). Notation event := (event O R). Notation pc := (pc O R).
  Notation step := (RWLock.step writes mutates apply). Notation runs := (RWLock.runs writes mutates apply).
  Implicit Types (tr : list event) (s : state).

  Definition holds (p : pc) : option O := match p with PHold o | PBusy o | PAfter o _ => Some o | _ => None end.
  Definition about (i : nat) (a : event) : bool := match a with ECall j _ | EDo j _ _ | ERet j _ _ => Nat.eqb j i | ECrash => false end.
  Definition proj (i : nat) tr : list event := filter (about i) tr.
  Lemma proj_snoc i tr a : proj i (tr ++ [a]) = proj i tr ++ (if about i a then [a] else []).
  Proof. unfold proj. rewrite filter_app. reflexivity. Qed.
  Inductive stage (i : nat) : list event -> pc -> Prop :=
  | st_idle : stage i [] PIdle
  | st_want o : stage i [ECall i o] (PWant o)
  | st_pend o : stage i [ECall i o] (PPend o)
  | st_hold o : stage i [ECall i o] (PHold o)
  | st_busy o : stage i [ECall i o] (PBusy o)
  | st_after o r : stage i [ECall i o; EDo i o r] (PAfter o r)
  | st_ret o r : stage i [ECall i o; EDo i o r] (PRet o r)
  | st_done o r : stage i [ECall i o; EDo i o r; ERet i o r] PDone.
  Lemma stage_inv i h p : stage i h p ->
    match p with PIdle => h = [] | PWant o | PPend o | PHold o | PBusy o => h = [ECall i o] | PAfter o r | PRet o r => h = [ECall i o; EDo i o r] | PDone => exists o r, h = [ECall i o; EDo i o r; ERet i o r] end.
  Proof. destruct 1; eauto. Qed.

  Record inv (d : S) tr s : Prop := mkInv {
    i_stage : forall i, stage i (proj i tr) (w_pc s i);
    i_hist : history apply d (accesses tr) (w_data s);
    i_reader : forall i o, holds (w_pc s i) = Some o -> writes o = false -> In i (w_readers s);
    i_writer : forall i o, holds (w_pc s i) = Some o -> writes o = true -> w_writer s = Some i;
    i_pend : forall i o, w_pc s i = PPend o -> w_writer s = Some i /\ writes o = true;
    i_excl : forall i o, holds (w_pc s i) = Some o -> writes o = true -> w_readers s = [];
    i_alive : w_crash s = false /\ ~ In ECrash tr }.

  Lemma history_snoc d h d1 i o r d2 : history apply d h d1 -> apply o d1 = (d2, r) -> history apply d (h ++ [(i, o, r)]) d2.
  Proof. induction 1; cbn; intros E; econstructor; eauto. constructor. Qed.
  Lemma acc_snoc tr a : accesses (tr ++ [a]) = accesses tr ++ did a.
  Proof. unfold accesses. rewrite flat_map_app. cbn. now rewrite app_nil_r. Qed.
  Lemma in_drop i j l : In j (drop i l) <-> In j l /\ j <> i.
  Proof. unfold drop. rewrite filter_In. destruct (Nat.eqb_spec j i); cbn; intuition congruence. Qed.
  Ltac dpc i j := destruct (Nat.eq_dec j i) as [->|?]; [rewrite ?(upd_eq _ i)|rewrite ?(upd_ne _ i j) by assumption].
  Lemma eqb_ne i j : j <> i -> Nat.eqb i j = false.
  Proof. intros H. apply Nat.eqb_neq. congruence. Qed.

  Lemma inv_init d : inv d [] (init d).
  Proof. constructor; cbn; try discriminate; auto; intros; constructor. Qed.

  Lemma step_inv d tr s l s' : inv d tr s -> step s l s' -> inv d (match l with None => tr | Some a => tr ++ [a] end) s'.
  Proof.
    intros [Is Ih Ir Iw Ip Ie [Ia Ia']] St.
    assert (Quiet : forall a, a <> ECrash -> ~ In ECrash (tr ++ [a])) by (intros a N Hc; apply in_snoc in Hc as [Hc|Hc]; [auto|congruence]).
    destruct St.
    - (* call *) pose proof (stage_inv _ _ _ (Is i)) as S1. rewrite H0 in S1.
      constructor; cbn [set_pc w_data w_readers w_writer w_pc w_crash]; [| | | | | |split; [exact Ia|apply Quiet; discriminate]].
      + intros j. rewrite proj_snoc. cbn. dpc i j; [rewrite Nat.eqb_refl, S1; constructor|rewrite eqb_ne, app_nil_r by assumption; apply Is].
      + rewrite acc_snoc. cbn. now rewrite app_nil_r.
      + intros j p. dpc i j; [discriminate|eauto].
      + intros j p. dpc i j; [discriminate|eauto].
      + intros j p. dpc i j; [discriminate|eauto].
      + intros j p. dpc i j; [discriminate|eauto].
    - (* rlock *) pose proof (stage_inv _ _ _ (Is i)) as S1. rewrite H0 in S1.
      constructor; cbn [set_pc w_data w_readers w_writer w_pc w_crash]; [|exact Ih| | | | |now split].
      + intros j. dpc i j; [rewrite S1; constructor|apply Is].
      + intros j p. dpc i j; [now left|right; eauto].
      + intros j p. dpc i j; [cbn; congruence|]. intros Hj Hp. rewrite <- H2. eauto.
      + intros j p. dpc i j; [discriminate|]. rewrite <- H2. eauto.
      + intros j p. dpc i j; [cbn; congruence|]. intros Hj Hp. rewrite (Iw _ _ Hj Hp) in H2. discriminate.
    - (* pend *) pose proof (stage_inv _ _ _ (Is i)) as S1. rewrite H0 in S1.
      constructor; cbn [set_pc w_data w_readers w_writer w_pc w_crash]; [|exact Ih| | | | |now split].
      + intros j. dpc i j; [rewrite S1; constructor|apply Is].
      + intros j p. dpc i j; [discriminate|eauto].
      + intros j p. dpc i j; [discriminate|]. intros Hj Hp. rewrite (Iw _ _ Hj Hp) in H2. discriminate.
      + intros j p. dpc i j; [intros E; injection E as <-; auto|]. intros Hj. destruct (Ip _ _ Hj) as [X _]. rewrite X in H2. discriminate.
      + intros j p. dpc i j; [discriminate|eauto].
    - (* lock *) pose proof (stage_inv _ _ _ (Is i)) as S1. rewrite H0 in S1. destruct (Ip _ _ H0) as [W1 W2].
      constructor; cbn [set_pc w_data w_readers w_writer w_pc w_crash]; [|exact Ih| | | |reflexivity|now split].
      + intros j. dpc i j; [rewrite S1; constructor|apply Is].
      + intros j p. dpc i j; [cbn; congruence|]. intros Hj Hp. rewrite <- H1. eauto.
      + intros j p. dpc i j; [auto|eauto].
      + intros j p. dpc i j; [discriminate|eauto].
    - (* begin *) pose proof (stage_inv _ _ _ (Is i)) as S1. rewrite H0 in S1.
      constructor; cbn [set_pc w_data w_readers w_writer w_pc w_crash]; [|exact Ih| | | | |now split].
      + intros j. dpc i j; [rewrite S1; constructor|apply Is].
      + intros j p. dpc i j; [|eauto]. intros Hp. apply Ir. now rewrite H0.
      + intros j p. dpc i j; [|eauto]. intros Hp. apply Iw. now rewrite H0.
      + intros j p. dpc i j; [discriminate|eauto].
      + intros j p. dpc i j; [|eauto]. intros Hp. apply (Ie i). now rewrite H0.
    - (* clash: impossible *) exfalso.
      assert (W : w_writer s = Some i) by (apply (Iw i o); [now rewrite H1|now apply modifiers_lock]).
      assert (N : w_readers s = []) by (apply (Ie i o); [now rewrite H1|now apply modifiers_lock]).
      destruct (writes o') eqn:W'.
      + assert (w_writer s = Some j) by (apply (Iw j o'); [now rewrite H2|assumption]). congruence.
      + assert (In j (w_readers s)) as Hj by (apply (Ir j o'); [now rewrite H2|assumption]). rewrite N in Hj. contradiction.
    - (* end *) pose proof (stage_inv _ _ _ (Is i)) as S1. rewrite H0 in S1.
      constructor; cbn [set_pc w_data w_readers w_writer w_pc w_crash]; [| | | | | |split; [reflexivity|apply Quiet; discriminate]].
      + intros j. rewrite proj_snoc. cbn. dpc i j; [rewrite Nat.eqb_refl, S1; constructor|rewrite eqb_ne, app_nil_r by assumption; apply Is].
      + rewrite acc_snoc. cbn. eapply history_snoc; [exact Ih|]. now destruct (apply o (w_data s)).
      + intros j p. dpc i j; [|eauto]. intros Hp. apply Ir. rewrite H0. exact Hp.
      + intros j p. dpc i j; [|eauto]. intros Hp. apply Iw. rewrite H0. exact Hp.
      + intros j p. dpc i j; [discriminate|eauto].
      + intros j p. dpc i j; [|eauto]. intros Hp. apply (Ie i). rewrite H0. exact Hp.
    - (* runlock *) pose proof (stage_inv _ _ _ (Is i)) as S1. rewrite H0 in S1.
      constructor; cbn [set_pc w_data w_readers w_writer w_pc w_crash]; [|exact Ih| | | | |now split].
      + intros j. dpc i j; [rewrite S1; constructor|apply Is].
      + intros j p. dpc i j; [discriminate|]. intros Hj Hp. apply in_drop. eauto.
      + intros j p. dpc i j; [discriminate|eauto].
      + intros j p. dpc i j; [discriminate|eauto].
      + intros j p. dpc i j; [discriminate|]. intros Hj Hp. now rewrite (Ie _ _ Hj Hp).
    - (* unlock *) pose proof (stage_inv _ _ _ (Is i)) as S1. rewrite H0 in S1.
      assert (Wi : w_writer s = Some i) by (apply (Iw i o); [now rewrite H0|assumption]).
      constructor; cbn [set_pc w_data w_readers w_writer w_pc w_crash]; [|exact Ih| | | | |now split].
      + intros j. dpc i j; [rewrite S1; constructor|apply Is].
      + intros j p. dpc i j; [discriminate|eauto].
      + intros j p. dpc i j; [discriminate|]. intros Hj Hp. pose proof (Iw _ _ Hj Hp). congruence.
      + intros j p. dpc i j; [discriminate|]. intros Hj. destruct (Ip _ _ Hj). congruence.
      + intros j p. dpc i j; [discriminate|eauto].
    - (* ret *) pose proof (stage_inv _ _ _ (Is i)) as S1. rewrite H0 in S1.
      constructor; cbn [set_pc w_data w_readers w_writer w_pc w_crash]; [| | | | | |split; [exact Ia|apply Quiet; discriminate]].
      + intros j. rewrite proj_snoc. cbn. dpc i j; [rewrite Nat.eqb_refl, S1; constructor|rewrite eqb_ne, app_nil_r by assumption; apply Is].
      + rewrite acc_snoc. cbn. now rewrite app_nil_r.
      + intros j p. dpc i j; [discriminate|eauto].
      + intros j p. dpc i j; [discriminate|eauto].
      + intros j p. dpc i j; [discriminate|eauto].
      + intros j p. dpc i j; [discriminate|eauto].
  Qed.
  Lemma runs_inv d tr s : runs d tr s -> inv d tr s.
  Proof.
    intros H. eapply (exec_inv step); [apply inv_init| | |exact H].
    - intros ? ? ? I St. exact (step_inv _ _ _ _ _ I St).
    - intros ? ? ? ? I St. exact (step_inv _ _ _ _ _ I St).
  Qed.

  Lemma end_eq s i o r : w_crash s = false -> w_pc s i = PBusy o -> snd (apply o (w_data s)) = r ->
    step s (Some (EDo i o r)) (mkRW (fst (apply o (w_data s))) (w_readers s) (w_writer s) (upd (w_pc s) i (PAfter o r)) false).
  Proof. intros A B <-. now constructor. Qed.
  Theorem no_crash d tr s : runs d tr s -> ~ In ECrash tr.
  Proof. intros H. exact (proj2 (i_alive _ _ _ (runs_inv _ _ _ H))). Qed.
  Theorem sequential d tr s : runs d tr s -> history apply d (accesses tr) (w_data s).
  Proof. intros H. exact (i_hist _ _ _ (runs_inv _ _ _ H)). Qed.
  (* Each return is of exactly one access with that result, between call and return. *)
  Theorem returned d tr s i o r : runs d tr s -> In (ERet i o r) tr -> proj i tr = [ECall i o; EDo i o r; ERet i o r].
  Proof.
    intros H Hin. pose proof (stage_inv _ _ _ (i_stage _ _ _ (runs_inv _ _ _ H) i)) as S1.
    assert (Z : In (ERet i o r) (proj i tr)) by (unfold proj; apply filter_In; cbn; now rewrite Nat.eqb_refl).
    destruct (w_pc s i); rewrite ?S1 in Z; cbn in Z; try (decompose [or] Z; try discriminate; contradiction).
    destruct S1 as (o' & r' & S1). rewrite S1 in Z |- *. cbn in Z. decompose [or] Z; try discriminate; [|contradiction]. congruence.
  Qed.
  Lemma in_accesses i o r tr : In (i, o, r) (accesses tr) <-> In (EDo i o r) tr.
  Proof.
    unfold accesses. rewrite in_flat_map. split.
    - intros (x & Hx & P). destruct x; cbn in P; try contradiction. destruct P as [P|[]]. inversion P; subst. exact Hx.
    - intros H. exists (EDo i o r). cbn. auto.
  Qed.
  Theorem return_done d tr s i o r : runs d tr s -> In (ERet i o r) tr -> In (i, o, r) (accesses tr).
  Proof.
    intros H Hin. apply in_accesses. assert (Z : In (EDo i o r) (proj i tr)) by (rewrite (returned _ _ _ _ _ _ H Hin); cbn; auto). now apply filter_In in Z.
  Qed.
  (* Real time order is respected. *)
  Theorem real_time d tr s i o r j o' : runs d tr s -> before tr (ERet i o r) (ECall j o') ->
    exists p q, accesses tr = p ++ q /\ In (i, o, r) p /\ forall o2 r2, ~ In (j, o2, r2) p.
  Proof.
    intros H B. apply before_cut in B as (pre & post & -> & Hi). apply exec_split in H as (s1 & s2 & Rn & St & _).
    exists (accesses pre), (accesses (ECall j o' :: post)). split; [unfold accesses; apply flat_map_app|]. split; [exact (return_done _ _ _ _ _ _ Rn Hi)|].
    intros o2 r2 Hin. apply in_accesses in Hin. pose proof (stage_inv _ _ _ (i_stage _ _ _ (runs_inv _ _ _ Rn) j)) as S1.
    inversion St; subst. match goal with Q : w_pc s1 j = _ |- _ => rewrite Q in S1 end.
    assert (Z : In (EDo j o2 r2) (proj j pre)) by (unfold proj; apply filter_In; cbn; now rewrite Nat.eqb_refl). rewrite S1 in Z. contradiction.
  Qed.
End Proofs.
