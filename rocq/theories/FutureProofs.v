(* Invariants of the Future. *)
From Coq Require Import List Arith Bool Lia.
From Verif Require Import Lts Future.
Import ListNotations.

Section Proofs.
  Context {V E : Type} (vnil : V) (enil : E).
  Notation state := (state V E). Notation event := (event V E). Notation ret := (ret V E). Notation pc := (pc V E).
  Notation runs := (runs vnil enil). Notation step := (@Future.step V E).

  Definition task_ok (tr : list event) (s : state) : Prop :=
    match f_task s with
    | TRunning => forall v e, ~ In (EFinish v e) tr
    | TStore1 v e => In (EFinish v e) tr
    | TStore2 e => In (EFinish (f_result s) e) tr
    | TSelect | TClosing | TOver => In (EFinish (f_result s) (f_err s)) tr
    end.
  Definition ret_ok (tr : list event) (s : state) (o : op) (r : ret) : Prop :=
    match o, r with
    | OGet, RGot v e => In (EFinish v e) tr /\ f_done s = true
    | OWait, RNil | OWaitFor, RNil | OCancel, RFulfilled => f_done s = true
    | OCancel, RNil => f_cancel s = true
    | _, RCancelled => f_cancel s = true
    | OWaitFor, RTimeout => True
    | _, _ => False
    end.
  Definition pc_ok (tr : list event) (s : state) (i : nat) (p : pc) : Prop :=
    match p with
    | PIdle => (forall o, ~ In (ECall i o) tr) /\ (forall o r, ~ In (ERet i o r) tr)
    | PAt o => In (ECall i o) tr /\ (forall o r, ~ In (ERet i o r) tr)
    | PRead1 => In (ECall i OGet) tr /\ (forall o r, ~ In (ERet i o r) tr) /\ f_done s = true
    | PRead2 v => In (ECall i OGet) tr /\ (forall o r, ~ In (ERet i o r) tr) /\ f_done s = true /\ v = f_result s
    | PClosing => In (ECall i OCancel) tr /\ (forall o r, ~ In (ERet i o r) tr)
    | PRet o r => In (ECall i o) tr /\ (forall o r, ~ In (ERet i o r) tr) /\ ret_ok tr s o r
    | PDone => True
    end.
  Record inv (tr : list event) (s : state) : Prop := mkInv {
    i_task : task_ok tr s;
    i_done : f_done s = true -> f_task s = TOver;
    i_cancel : f_cancel s = true -> exists w, In (ECall w OCancel) tr /\ (f_pc s w = PRet OCancel RNil \/ f_pc s w = PDone) /\
      forall i, f_pc s i = PRet OCancel RNil \/ In (ERet i OCancel RNil) tr -> i = w;
    i_uncancel : f_cancel s = false -> forall i, f_pc s i <> PRet OCancel RNil /\ ~ In (ERet i OCancel RNil) tr;
    i_pc : forall i, pc_ok tr s i (f_pc s i);
    i_late : forall i j, before tr (ERet j OCancel RNil) (ECall i OCancel) -> f_pc s i <> PClosing;
    i_once : forall v1 e1 v2 e2, ~ before tr (EFinish v1 e1) (EFinish v2 e2);
    i_same : forall v1 e1 v2 e2, In (EFinish v1 e1) tr -> In (EFinish v2 e2) tr -> v1 = v2 /\ e1 = e2;
    i_crash : In EPanic tr -> f_crash s = true }.

  Lemma inv_init : inv [] (init vnil enil).
  Proof.
    constructor; cbn; try discriminate; try tauto; try (now intros; auto).
    intros ? ? ? ? H. now apply before_in in H as [].
  Qed.

  (* Frame: an internal step that keeps the fields mentioned. *)
  Lemma pc_frame (tr : list event) (s s' : state) i p : (f_done s = true -> f_done s' = true) -> (f_cancel s = true -> f_cancel s' = true) ->
    (f_done s = true -> f_result s' = f_result s) -> pc_ok tr s i p -> pc_ok tr s' i p.
  Proof.
    intros Hd Hc Hr H. destruct p as [|o| |v| |o r|]; cbn in *; auto.
    - tauto.
    - destruct H as (A & B & C & ->). repeat split; auto. symmetry; auto.
    - destruct H as (A & B & C). repeat split; auto. destruct o, r; cbn in *; tauto.
  Qed.

  Ltac dpc i j := destruct (Nat.eq_dec j i) as [->|?]; [rewrite ?upd_eq in *|rewrite ?upd_ne in * by assumption].

  Lemma inv_pc (tr : list event) (s : state) i p : inv tr s -> f_crash s = false ->
    pc_ok tr s i p -> f_pc s i <> PDone -> f_pc s i <> PRet OCancel RNil -> p <> PRet OCancel RNil ->
    (p = PClosing -> f_pc s i = PClosing \/ f_cancel s = false) -> inv tr (set_pc s i p).
  Proof.
    intros I Hcr Hp Hn Hn' Hp' Hcl. destruct I as [It Id Ic Iu Ip Il Io Is Icr].
    constructor; cbn [f_task f_result f_err f_done f_cancel f_pc f_crash set_pc]; auto.
    - intros H. destruct (Ic H) as (w & A & B & C). exists w. split; [exact A|]. split.
      + dpc i w; [destruct B; contradiction|exact B].
      + intros j. specialize (C j). dpc i j; [intros [?|?]; [contradiction|apply C; auto]|exact C].
    - intros H j. specialize (Iu H j). dpc i j; tauto.
    - intros j. dpc i j; [exact Hp|apply Ip].
    - intros j k H. specialize (Il j k H). dpc i j; [|exact Il]. intros ->. destruct (Hcl eq_refl) as [?|Hc]; [contradiction|].
      apply before_in in H as [H _]. now apply (Iu Hc k) in H.
  Qed.

  (* A new action which is neither EFinish nor EPanic. *)
  Lemma pc_mono (tr : list event) (s : state) i p a : pc_ok tr s i p -> (forall o, a <> ECall i o) -> (forall o r, a <> ERet i o r) -> pc_ok (tr ++ [a]) s i p.
  Proof.
    intros H Hc Hr. assert (M : forall x, In x tr -> In x (tr ++ [a])) by (intros; apply in_snoc; auto).
    assert (N1 : (forall o, ~ In (ECall i o) tr) -> (forall o, ~ In (ECall i o) (tr ++ [a])))
      by (intros Q o Q'; apply in_snoc in Q' as [Q'|Q']; [now apply Q in Q'|now apply (Hc o)]).
    assert (N2 : (forall o r, ~ In (ERet i o r) tr) -> (forall o r, ~ In (ERet i o r) (tr ++ [a])))
      by (intros Q o r Q'; apply in_snoc in Q' as [Q'|Q']; [now apply Q in Q'|now apply (Hr o r)]).
    destruct p as [|o| |v| |o r|]; cbn in *; intuition.
    destruct o, r; cbn in *; intuition.
  Qed.

  Ltac pcq Q := match goal with P : f_pc _ _ = _ |- _ => rewrite P in Q end.
  Ltac now_frame Icr := constructor; cbn [set_task crashed f_task f_result f_err f_done f_cancel f_pc f_crash]; auto; try congruence;
    try (match goal with s : Future.state V E |- _ => intros i; apply pc_frame with (s := s); auto; congruence end);
    try (let Hp := fresh in intros Hp; apply Icr in Hp; congruence).

  Lemma step_inv tr s l s' : inv tr s -> step s l s' -> inv (match l with None => tr | Some a => tr ++ [a] end) s'.
  Proof.
    intros I St. pose proof I as [It Id Ic Iu Ip Il Io Is Icr].
    destruct St; cbn [set_task crashed];
      try (match goal with H : f_pc s ?i = _ |- _ => pose proof (Ip i) as P; rewrite H in P; cbn in P end;
           apply inv_pc; auto; try congruence; cbn; intuition; fail).
    - (* finish *)
      unfold task_ok in It. rewrite H0 in It.
      constructor; cbn [set_task crashed f_task f_result f_err f_done f_cancel f_pc f_crash]; auto.
      + cbn. apply in_snoc. auto.
      + intros D. rewrite (Id D) in H0. discriminate.
      + intros C. destruct (Ic C) as (w & A & B & D). exists w. split; [apply in_snoc; auto|]. split; [exact B|].
        intros i [?|Hi]; [auto|]. apply in_snoc in Hi as [Hi|Hi]; [auto|discriminate].
      + intros C i. destruct (Iu C i) as [A B]. split; [exact A|]. intros Hi. apply in_snoc in Hi as [Hi|Hi]; [auto|discriminate].
      + intros i. apply pc_frame with (s := s); auto. apply pc_mono; [apply Ip| |]; discriminate.
      + intros i j Hb. apply before_snoc in Hb as [Hb|[_ Hb]]; [eauto|discriminate].
      + intros v1 e1 v2 e2 Hb. apply before_snoc in Hb as [Hb|[Hb _]]; [eapply Io; eauto|eapply It; eauto].
      + intros v1 e1 v2 e2 H1 H2. apply in_snoc in H1, H2. destruct H1 as [H1|H1]; [now apply It in H1|]. destruct H2 as [H2|H2]; [now apply It in H2|].
        inversion H1; inversion H2; subst; auto.
      + intros Hp. apply in_snoc in Hp as [Hp|Hp]; [auto|discriminate].
    - (* store1 *) unfold task_ok in It. rewrite H0 in It. assert (D : f_done s = false) by (destruct (f_done s) eqn:D; [rewrite (Id eq_refl) in H0; discriminate|reflexivity]). now_frame Icr.
    - (* store2 *) unfold task_ok in It. rewrite H0 in It. assert (D : f_done s = false) by (destruct (f_done s) eqn:D; [rewrite (Id eq_refl) in H0; discriminate|reflexivity]). now_frame Icr.
    - (* cancelled *) unfold task_ok in It. rewrite H0 in It. now_frame Icr.
    - (* default *) unfold task_ok in It. rewrite H0 in It. assert (D : f_done s = false) by (destruct (f_done s) eqn:D; [rewrite (Id eq_refl) in H0; discriminate|reflexivity]). now_frame Icr.
    - (* close *) unfold task_ok in It. rewrite H0 in It. now_frame Icr.
    - (* panic in start: impossible *) rewrite (Id H1) in H0. discriminate.
    - (* call *)
      pose proof (Ip i) as P. rewrite H0 in P. destruct P as [P1 P2].
      assert (M : forall x, In x tr -> In x (tr ++ [ECall i o])) by (intros; apply in_snoc; auto).
      constructor; cbn [f_task f_result f_err f_done f_cancel f_pc f_crash set_pc]; auto.
      + unfold task_ok in *; cbn. destruct (f_task s); auto. intros v e Hi. apply in_snoc in Hi as [Hi|Hi]; [now apply It in Hi|discriminate].
      + intros C. destruct (Ic C) as (w & A & B & D). exists w. split; [auto|]. split.
        * dpc i w; [destruct B; congruence|exact B].
        * intros j. specialize (D j). dpc i j; (intros [?|Hi]; [try discriminate; auto|]); apply in_snoc in Hi as [Hi|Hi]; try discriminate; auto.
      + intros C j. destruct (Iu C j) as [A B]. split.
        * dpc i j; [discriminate|exact A].
        * intros Hi. apply in_snoc in Hi as [Hi|Hi]; [auto|discriminate].
      + intros j. dpc i j.
        * cbn. split; [apply in_snoc; auto|]. intros o' r Hi. apply in_snoc in Hi as [Hi|Hi]; [now apply P2 in Hi|discriminate].
        * apply pc_frame with (s := s); auto. apply pc_mono; [apply Ip|congruence|discriminate].
      + intros j k Hb. dpc i j; [discriminate|]. apply before_snoc in Hb as [Hb|[_ Hb]]; [eauto|congruence].
      + intros v1 e1 v2 e2 Hb. apply before_snoc in Hb as [Hb|[_ Hb]]; [eapply Io; eauto|discriminate].
      + intros v1 e1 v2 e2 Q1 Q2. apply in_snoc in Q1 as [Q1|Q1]; [|discriminate]. apply in_snoc in Q2 as [Q2|Q2]; [|discriminate]. eauto.
      + intros Hp. apply in_snoc in Hp as [Hp|Hp]; [auto|discriminate].
    - (* return *)
      pose proof (Ip i) as P. rewrite H0 in P. destruct P as (P1 & P2 & P3).
      assert (M : forall x, In x tr -> In x (tr ++ [ERet i o r])) by (intros; apply in_snoc; auto).
      constructor; cbn [f_task f_result f_err f_done f_cancel f_pc f_crash set_pc]; auto.
      + unfold task_ok in *; cbn. destruct (f_task s); auto. intros v e Hi. apply in_snoc in Hi as [Hi|Hi]; [now apply It in Hi|discriminate].
      + intros C. destruct (Ic C) as (w & A & B & D). exists w. split; [auto|]. split.
        * dpc i w; [now right|exact B].
        * intros j [Hj|Hj].
          -- revert Hj. dpc i j; [discriminate|auto].
          -- apply in_snoc in Hj as [Hj|Hj]; [auto|]. inversion Hj; subst. auto.
      + intros C j. destruct (Iu C j) as [A B]. split.
        * dpc i j; [discriminate|exact A].
        * intros Hi. apply in_snoc in Hi as [Hi|Hi]; [auto|]. inversion Hi; subst. destruct (Iu C i) as [A' _]. contradiction.
      + intros j. dpc i j; [constructor|]. apply pc_frame with (s := s); auto. apply pc_mono; [apply Ip|discriminate|congruence].
      + intros j k Hb. dpc i j; [discriminate|]. apply before_snoc in Hb as [Hb|[_ Hb]]; [eauto|discriminate].
      + intros v1 e1 v2 e2 Hb. apply before_snoc in Hb as [Hb|[_ Hb]]; [eapply Io; eauto|discriminate].
      + intros v1 e1 v2 e2 Q1 Q2. apply in_snoc in Q1 as [Q1|Q1]; [|discriminate]. apply in_snoc in Q2 as [Q2|Q2]; [|discriminate]. eauto.
      + intros Hp. apply in_snoc in Hp as [Hp|Hp]; [auto|discriminate].
    - pose proof (Ip i) as P. rewrite H0 in P. destruct P as [P1 P2].
      apply inv_pc; auto; try congruence; destruct H1 as [-> | ->]; cbn; auto; congruence.
    - pose proof (Ip i) as P. rewrite H0 in P. destruct P as [P1 P2].
      apply inv_pc; auto; try congruence; destruct o; cbn; auto; congruence.
    - pose proof (Ip i) as P. rewrite H0 in P. destruct P as (P1 & P2 & P3 & P4).
      apply inv_pc; auto; try congruence. cbn. repeat split; auto. subst v.
      unfold task_ok in It. rewrite (Id P3) in It. exact It.
    - (* Cancel closes *)
      pose proof (Ip i) as P. rewrite H0 in P. destruct P as [P1 P2]. specialize (Iu H1).
      constructor; cbn [f_task f_result f_err f_done f_cancel f_pc f_crash]; auto; try congruence.
      + intros _. exists i. rewrite upd_eq. repeat split; auto.
        intros j. specialize (Iu j). dpc i j; [auto|]. intros [?|?]; tauto.
      + intros j. dpc i j; [cbn; auto|]. apply pc_frame with (s := s); auto.
      + intros j k Hb. dpc i j; [discriminate|eauto].
      + intros Hp. apply Icr in Hp. congruence.
    - (* Cancel panics *)
      constructor; cbn [crashed f_task f_result f_err f_done f_cancel f_pc f_crash]; auto.
      + unfold task_ok in *; cbn. destruct (f_task s); try (apply in_snoc; auto). intros v e Hi. apply in_snoc in Hi as [Hi|Hi]; [now apply It in Hi|discriminate].
      + intros C. destruct (Ic C) as (w & A & B & D). exists w. split; [apply in_snoc; auto|]. split; [exact B|].
        intros j [?|Hj]; [auto|]. apply in_snoc in Hj as [Hj|Hj]; [auto|discriminate].
      + intros C. congruence.
      + intros j. apply pc_frame with (s := s); auto. apply pc_mono; [apply Ip| |]; discriminate.
      + intros j k Hb. apply before_snoc in Hb as [Hb|[_ Hb]]; [eauto|discriminate].
      + intros v1 e1 v2 e2 Hb. apply before_snoc in Hb as [Hb|[_ Hb]]; [eapply Io; eauto|discriminate].
      + intros v1 e1 v2 e2 Q1 Q2. apply in_snoc in Q1 as [Q1|Q1]; [|discriminate]. apply in_snoc in Q2 as [Q2|Q2]; [|discriminate]. eauto.
  Qed.

  Lemma runs_inv tr s : runs tr s -> inv tr s.
  Proof.
    intros H. eapply (exec_inv step); [apply inv_init| | |exact H].
    - intros ? ? ? I St. exact (step_inv _ _ _ _ I St).
    - intros ? ? ? ? I St. exact (step_inv _ _ _ _ I St).
  Qed.
  Lemma runs_prefix pre a post s : runs (pre ++ a :: post) s -> exists s1 s2, runs pre s1 /\ inv pre s1 /\ step s1 (Some a) s2 /\ exec step s2 post s.
  Proof. intros H. apply exec_split in H as (s1 & s2 & A & B & C). exists s1, s2. split; [exact A|]. split; [exact (runs_inv _ _ A)|auto]. Qed.

  (* ---- what a call returns ---- *)
  Theorem returns tr s i o r : runs tr s -> In (ERet i o r) tr ->
    match o, r with
    | OGet, RGot v e => before tr (EFinish v e) (ERet i o r)
    | OWait, RNil | OWaitFor, RNil | OCancel, RFulfilled => exists v e, before tr (EFinish v e) (ERet i o r)
    | OWaitFor, RTimeout | OCancel, RNil => True
    | _, RCancelled => exists j, before tr (ECall j OCancel) (ERet i o r)
    | _, _ => False
    end.
  Proof.
    intros H Hin. apply in_split in Hin as (pre & post & ->). destruct (runs_prefix _ _ _ _ H) as (s1 & s2 & R1 & [It Id Ic Iu Ip Il Io Is Icr] & St & _).
    inversion St; subst. pose proof (Ip i) as P. rewrite H6 in P. destruct P as (P1 & P2 & P3).
    assert (B : forall x, In x pre -> before (pre ++ ERet i o r :: post) x (ERet i o r)).
    { intros x Hx. apply in_split in Hx as (u & w & ->). exists u, w, post. now rewrite <- app_assoc. }
    assert (C : f_cancel s1 = true -> exists j, before (pre ++ ERet i o r :: post) (ECall j OCancel) (ERet i o r)).
    { intros C. destruct (Ic C) as (w & A & _). exists w. auto. }
    assert (D : f_done s1 = true -> exists v e, before (pre ++ ERet i o r :: post) (EFinish v e) (ERet i o r)).
    { intros D. unfold task_ok in It. rewrite (Id D) in It. eauto. }
    destruct o, r; cbn in P3; try tauto; auto. destruct P3; auto.
  Qed.
  Theorem one_finish tr s v1 e1 v2 e2 : runs tr s -> ~ before tr (EFinish v1 e1) (EFinish v2 e2).
  Proof. intros H. exact (i_once _ _ (runs_inv _ _ H) _ _ _ _). Qed.

  (* ---- progress: once the task has returned, or a Cancel has, every call can return ---- *)
  Lemma done_returns s i o : f_crash s = false -> f_pc s i = PAt o -> f_done s = true -> exists r s', exec step s [ERet i o r] s'.
  Proof.
    intros Hc Hp Hd. destruct o.
    - exists (RGot (f_result s) (f_err s)). eexists. eapply exec_cons_tau; [apply g_done; eauto|]. eapply exec_cons_tau; [apply g_read1; [exact Hc|apply upd_eq]|].
      eapply exec_cons_tau; [apply g_read2; [exact Hc|apply upd_eq]|]. apply exec_one. apply c_ret; [exact Hc|apply upd_eq].
    - exists RNil. eexists. eapply exec_cons_tau; [apply c_done; eauto|]. apply exec_one, c_ret; [exact Hc|apply upd_eq].
    - exists RNil. eexists. eapply exec_cons_tau; [apply c_done; eauto|]. apply exec_one, c_ret; [exact Hc|apply upd_eq].
    - exists RFulfilled. eexists. eapply exec_cons_tau; [apply x_fulfilled; eauto|]. apply exec_one, c_ret; [exact Hc|apply upd_eq].
  Qed.
  Lemma pending_returns s i o : f_crash s = false -> f_pc s i = PAt o -> f_done s = true \/ f_cancel s = true -> exists r s', exec step s [ERet i o r] s'.
  Proof.
    intros Hc Hp [Hd|Hd]; [now apply done_returns|]. exists RCancelled. eexists. destruct o;
    (eapply exec_cons_tau; [first [apply x_cancelled; now eauto | apply c_cancelled; [exact Hc|exact Hp|discriminate|exact Hd]]|]; apply exec_one, c_ret; [exact Hc|apply upd_eq]).
  Qed.
  (* the task goroutine, left alone, gets to its end *)
  Lemma task_ends tr s : inv tr s -> f_crash s = false -> f_task s <> TRunning -> f_cancel s = false -> (f_task s = TOver -> f_done s = true) ->
    exists s', exec step s [] s' /\ f_crash s' = false /\ f_done s' = true /\ f_pc s' = f_pc s.
  Proof.
    intros I Hc Ht Hx Ho.
    assert (K3 : forall u, f_task u = TClosing -> f_crash u = false -> f_done u = false -> exists u', exec step u [] u' /\ f_crash u' = false /\ f_done u' = true /\ f_pc u' = f_pc u).
    { intros u A B C. eexists. split; [apply exec_one_tau, t_close; auto|]. auto. }
    assert (K2 : forall u, f_task u = TSelect -> f_crash u = false -> f_done u = false -> f_cancel u = false -> exists u', exec step u [] u' /\ f_crash u' = false /\ f_done u' = true /\ f_pc u' = f_pc u).
    { intros u A B C D. destruct (K3 (set_task u TClosing)) as (u' & P & Q); auto. exists u'. split; [|exact Q]. eapply exec_cons_tau; [apply t_default; auto|exact P]. }
    assert (K1 : forall u e, f_task u = TStore2 e -> f_crash u = false -> f_done u = false -> f_cancel u = false -> exists u', exec step u [] u' /\ f_crash u' = false /\ f_done u' = true /\ f_pc u' = f_pc u).
    { intros u e A B C D. destruct (K2 (mkF TSelect (f_result u) e (f_done u) (f_cancel u) (f_pc u) false)) as (u' & P & Q); auto.
      exists u'. split; [|exact Q]. eapply exec_cons_tau; [apply (t_store2 _ e); auto|exact P]. }
    destruct (f_done s) eqn:Hd.
    { exists s. split; [apply exec_start|]. auto. }
    destruct (f_task s) eqn:T; [contradiction| | | | |].
    - destruct (K1 (mkF (TStore2 e) v (f_err s) (f_done s) (f_cancel s) (f_pc s) false) e) as (u' & P & Q1 & Q2 & Q3); auto.
      exists u'. split; [eapply exec_cons_tau; [apply (t_store1 _ v e); auto|exact P]|]. auto.
    - apply (K1 s e); auto.
    - apply (K2 s); auto.
    - apply (K3 s); auto.
    - specialize (Ho eq_refl). discriminate.
  Qed.
  Lemma over_why tr s : runs tr s -> f_task s = TOver -> f_done s = true \/ f_cancel s = true.
  Proof.
    revert tr s. apply (exec_inv step (fun _ s => f_task s = TOver -> f_done s = true \/ f_cancel s = true) (init vnil enil)); [discriminate| |];
      intros tr s; intros; inversion H0; subst; cbn in *; auto; try discriminate; try tauto.
  Qed.
  Lemma crash_panic tr s : runs tr s -> f_crash s = true -> In EPanic tr.
  Proof.
    revert tr s. apply (exec_inv step (fun tr s => f_crash s = true -> In EPanic tr) (init vnil enil)); [discriminate| |];
      intros tr s; intros; inversion H0; subst; cbn in *; try congruence; try (apply in_snoc; auto); try discriminate.
  Qed.
  Lemma called_pending tr s i o : runs tr s -> In (ECall i o) tr -> (forall r, ~ In (ERet i o r) tr) ->
    f_pc s i <> PIdle /\ f_pc s i <> PDone.
  Proof.
    intros H Hin Hno. split.
    - intros P. pose proof (i_pc _ _ (runs_inv _ _ H) i) as Q. rewrite P in Q. destruct Q as [Q _]. now apply (Q o).
    - assert (Q : f_pc s i = PDone -> forall o, In (ECall i o) tr -> exists r, In (ERet i o r) tr).
      { clear Hin Hno o. revert tr s H. unfold runs. intros tr s H. 
        assert (G : inv tr s /\ (f_pc s i = PDone -> forall o, In (ECall i o) tr -> exists r, In (ERet i o r) tr) /\
                    (forall o o', In (ECall i o) tr -> In (ECall i o') tr -> o = o')).
        { clear -H. induction H as [|tr s1 s2 H IH St|tr s1 a s2 H IH St].
          - split; [apply inv_init|]. cbn. split; [discriminate|tauto].
          - destruct IH as (I & IH & U). split; [exact (step_inv _ _ _ _ I St)|]. split; [|exact U]. inversion St; subst; cbn in *; auto;
            revert IH; match goal with |- context[upd _ ?k _] => destruct (Nat.eq_dec i k) as [->|?]; [rewrite upd_eq; try discriminate|rewrite upd_ne by assumption; auto] end.
          - destruct IH as (I & IH & U). pose proof (i_pc _ _ I i) as Q. split; [exact (step_inv _ _ _ _ I St)|]. split.
            + assert (Z : (forall o, a <> ECall i o) -> f_pc s1 i = PDone -> forall o, In (ECall i o) (tr ++ [a]) -> exists r, In (ERet i o r) (tr ++ [a])).
              { intros Na P o Ho. apply in_snoc in Ho as [Ho|Ho]; [|exfalso; now apply (Na o)]. destruct (IH P o Ho) as [r Hr]. exists r. apply in_snoc. auto. }
              inversion St; subst; cbn in *; try (apply Z; discriminate).
              * destruct (Nat.eq_dec i i0) as [->|?]; [rewrite upd_eq; discriminate|rewrite upd_ne by assumption; apply Z; congruence].
              * destruct (Nat.eq_dec i i0) as [->|?]; [|rewrite upd_ne by assumption; apply Z; congruence].
                pcq Q. destruct Q as [Q _]. intros _ o' Ho. apply in_snoc in Ho as [Ho|Ho]; [|discriminate]. rewrite (U _ _ Ho Q). exists r. apply in_snoc. auto.
            + intros o o' Ho Ho'. apply in_snoc in Ho, Ho'. destruct Ho as [Ho|Ho], Ho' as [Ho'|Ho']; auto; subst; try congruence;
              inversion St; subst; pcq Q; destruct Q as [Q _]; exfalso; eapply Q; eassumption. }
        tauto. }
      intros P. destruct (Q P o Hin) as [r Hr]. now apply (Hno r).
  Qed.
  (* If the task has returned, nobody cancelled, and the process is alive, then every call made can return. *)
  Theorem get_returns tr s i o v e : runs tr s -> In (EFinish v e) tr -> (forall j, ~ In (ECall j OCancel) tr) -> ~ In EPanic tr ->
    In (ECall i o) tr -> (forall r, ~ In (ERet i o r) tr) -> exists tr' s', runs (tr ++ tr') s' /\ exists r, In (ERet i o r) tr'.
  Proof.
    intros H Hf Hx Hp Hc Hr. pose proof (runs_inv _ _ H) as I. destruct (called_pending _ _ _ _ H Hc Hr) as [P1 P2].
    assert (X : f_cancel s = false). { destruct (f_cancel s) eqn:X; [|reflexivity]. destruct (i_cancel _ _ I X) as (w & A & _). now apply Hx in A. }
    assert (A : f_crash s = false). { destruct (f_crash s) eqn:X'; [|reflexivity]. now apply (crash_panic _ _ H) in X'. }
    destruct (task_ends tr s I A) as (s1 & E1 & A1 & D1 & Q1).
    { intros T. pose proof (i_task _ _ I) as T'. unfold task_ok in T'. rewrite T in T'. now apply T' in Hf. }
    { exact X. }
    { intros T. destruct (over_why _ _ H T); [auto|congruence]. }
    assert (R1 : runs tr s1) by (rewrite <- (app_nil_r tr); eapply exec_app; [exact H|exact E1]).
    assert (K : forall u o' r', f_crash u = false -> f_pc u i = PRet o' r' -> exists u', exec step u [ERet i o' r'] u')
      by (intros u o' r' U1 U2; eexists; apply exec_one, c_ret; [exact U1|exact U2]).
    assert (G : exists o' r s', exec step s1 [ERet i o' r] s').
    { rewrite <- Q1 in P1, P2. destruct (f_pc s1 i) as [|o'| |w| |o' r'|] eqn:P; try congruence.
      - exists o'. now apply done_returns.
      - exists OGet, (RGot (f_result s1) (f_err s1)). eexists. eapply exec_cons_tau; [apply g_read1; [exact A1|exact P]|].
        eapply exec_cons_tau; [apply g_read2; [exact A1|apply upd_eq]|]. apply exec_one, c_ret; [exact A1|apply upd_eq].
      - exists OGet, (RGot w (f_err s1)). eexists. eapply exec_cons_tau; [apply g_read2; [exact A1|exact P]|]. apply exec_one, c_ret; [exact A1|apply upd_eq].
      - pose proof (i_pc _ _ I i) as Q. rewrite <- Q1, P in Q. destruct Q as [Q _]. now apply Hx in Q.
      - exists o', r'. now apply K. }
    destruct G as (o' & r & s' & G). exists [ERet i o' r], s'. assert (R2 : runs (tr ++ [ERet i o' r]) s') by (eapply exec_app; [exact R1|exact G]).
    split; [exact R2|]. exists r. left. f_equal.
    (* the call returned is the call made *)
    destruct (runs_prefix _ _ _ _ R2) as (u & u' & _ & I' & St & _). inversion St; subst. pose proof (i_pc _ _ I' i) as Q. pcq Q. destruct Q as [Q _].
    revert Q Hc. clear -H vnil enil. revert o o'. intros o o' H1 H2.
    assert (U : inv tr s /\ forall o o', In (ECall i o) tr -> In (ECall i o') tr -> o = o').
    { clear H1 H2. induction H as [|tr s1 s2 H IH St|tr s1 a s2 H IH St].
      - split; [apply inv_init|cbn; tauto].
      - destruct IH as [I U]. split; [exact (step_inv _ _ _ _ I St)|exact U].
      - destruct IH as [I U]. split; [exact (step_inv _ _ _ _ I St)|]. pose proof (i_pc _ _ I i) as Q.
        intros p p' Ho Ho'. apply in_snoc in Ho, Ho'. destruct Ho as [Ho|Ho], Ho' as [Ho'|Ho']; auto; subst; try congruence;
        inversion St; subst; pcq Q; destruct Q as [Q _]; exfalso; eapply Q; eassumption. }
    now apply U.
  Qed.

  (* ---- cancelling ---- *)
  Theorem cancel_once tr s i j : runs tr s -> ~ before tr (ERet i OCancel RNil) (ERet j OCancel RNil).
  Proof.
    intros H B. apply before_cut in B as (pre & post & -> & Hi). destruct (runs_prefix _ _ _ _ H) as (s1 & s2 & R & I & St & _).
    inversion St; subst. pose proof (i_pc _ _ I j) as Q. pcq Q. destruct Q as (_ & Q & C). cbn in C.
    destruct (i_cancel _ _ I C) as (w & _ & _ & D). rewrite (D i) in Hi by auto. rewrite (D j) in Q by auto. now apply Q in Hi.
  Qed.
  Definition early (s : state) : Prop :=
    f_cancel s = true /\ f_done s = false /\ f_task s <> TClosing /\ forall i, match f_pc s i with PRead1 | PRead2 _ | PRet OGet (RGot _ _) | PRet OWait RNil | PRet OWaitFor RNil => False | _ => True end.
  Lemma early_step s l s' : early s -> step s l s' -> early s' /\ match l with Some (ERet _ OGet (RGot _ _)) | Some (ERet _ OWait RNil) | Some (ERet _ OWaitFor RNil) => False | _ => True end.
  Proof.
    intros (A & B & C & D) St.
    assert (U : forall i p, match p with PRead1 | PRead2 _ | PRet OGet (RGot _ _) | PRet OWait RNil | PRet OWaitFor RNil => False | _ => True end ->
      forall j, match upd (f_pc s) i p j with PRead1 | PRead2 _ | PRet OGet (RGot _ _) | PRet OWait RNil | PRet OWaitFor RNil => False | _ => True end).
    { intros i p Hp j. destruct (Nat.eq_dec j i) as [->|?]; [now rewrite upd_eq|rewrite upd_ne by assumption; apply D]. }
    inversion St; subst; unfold early; cbn; try congruence;
      try (split; [repeat split; auto; try congruence; apply U; auto|try exact I]; fail).
    - split; [|pose proof (D i) as D'; rewrite H0 in D'; destruct o, r; auto]. repeat split; auto. apply U. exact I.
    - split; [|exact I]. repeat split; auto. apply U. destruct o; auto.
    - pose proof (D i) as D'. rewrite H0 in D'. contradiction.
    - pose proof (D i) as D'. rewrite H0 in D'. contradiction.
  Qed.
  Theorem early_cancel tr s i v e j w d : runs tr s -> before tr (ERet i OCancel RNil) (EFinish v e) -> ~ In (ERet j OGet (RGot w d)) tr /\ ~ In (ERet j OWait RNil) tr /\ ~ In (ERet j OWaitFor RNil) tr.
  Proof.
    intros H B. apply before_cut in B as (pre & post & -> & Hi). destruct (runs_prefix _ _ _ _ H) as (s1 & s2 & R & I & St & X).
    pose proof (exec_act step _ _ _ _ _ R St) as R'.
    inversion St; subst. 
    assert (T : forall v e, ~ In (EFinish v e) pre) by (pose proof (i_task _ _ I) as T; unfold task_ok in T; now rewrite H5 in T).
    assert (C : f_cancel s1 = true). { destruct (f_cancel s1) eqn:C; [reflexivity|]. destruct (i_uncancel _ _ I C i). contradiction. }
    assert (Dn : f_done s1 = false). { destruct (f_done s1) eqn:Dn; [|reflexivity]. rewrite (i_done _ _ I Dn) in H5. discriminate. }
    assert (Ea : early (set_task s1 (TStore1 v e))).
    { unfold early; cbn. repeat split; auto; [discriminate|]. intros k. pose proof (i_pc _ _ I k) as P. destruct (f_pc s1 k) as [|o| |x| |o r|]; auto; cbn in P.
      - destruct P as (_ & _ & P). congruence.
      - destruct P as (_ & _ & P & _). congruence.
      - destruct P as (_ & _ & P). destruct o, r; auto; cbn in P; try congruence. destruct P; congruence. }
    assert (K : early s /\ ~ In (ERet j OGet (RGot w d)) post /\ ~ In (ERet j OWait RNil) post /\ ~ In (ERet j OWaitFor RNil) post).
    { revert X Ea. generalize (set_task s1 (TStore1 v e)). clear. intros s0 X Ea. induction X as [|tr s1 s2 X IH St|tr s1 a s2 X IH St]; [cbn; tauto| |].
      - destruct IH as [Es N]. destruct (early_step _ _ _ Es St). auto.
      - destruct IH as [Es N]. destruct (early_step _ _ _ Es St) as [Es' L]. split; [exact Es'|]. rewrite !in_snoc.
        repeat split; (intros [Q|Q]; [tauto|subst a; exact L]). }
    assert (N : forall o r, In (ERet j o r) pre -> match o, r with OGet, RGot _ _ | OWait, RNil | OWaitFor, RNil => False | _, _ => True end).
    { intros o r Hr. pose proof (returns _ _ _ _ _ R Hr) as Q. destruct o, r; auto.
      - apply before_in in Q as [Q _]. now apply T in Q.
      - destruct Q as (? & ? & Q). apply before_in in Q as [Q _]. now apply T in Q.
      - destruct Q as (? & ? & Q). apply before_in in Q as [Q _]. now apply T in Q. }
    rewrite !in_app_iff. cbn [In]. repeat split; (intros [Q|[Q|Q]]; [exact (N _ _ Q)|discriminate|tauto]).
  Qed.
  (* a crash needs two overlapping Cancel calls *)
  Theorem crash_overlap tr s : runs tr s -> In EPanic tr -> exists i j, i <> j /\ In (ECall i OCancel) tr /\ In (ECall j OCancel) tr /\
    (forall r, ~ In (ERet i OCancel r) tr) /\ ~ before tr (ERet j OCancel RNil) (ECall i OCancel).
  Proof.
    intros H Hp. apply in_split in Hp as (pre & post & ->). destruct (runs_prefix _ _ _ _ H) as (s1 & s2 & R & I & St & X).
    assert (post = []) as ->.
    { assert (Cr : f_crash s2 = true) by (inversion St; reflexivity). clear -X Cr.
      assert (G : f_crash s = true /\ post = []); [|tauto]. revert X Cr. induction 1 as [|tr s1 s3 X IH St|tr s1 a s3 X IH St]; intros Cr; auto; destruct (IH Cr) as [C1 _]; inversion St; congruence. }
    inversion St as [| | | | | |? ? Ht Hd| | | | | | | | | | | | |? i ? Hi Hx]; subst; [rewrite (i_done _ _ I Hd) in Ht; discriminate|].
    destruct (i_cancel _ _ I Hx) as (w & A & B & C). pose proof (i_pc _ _ I i) as P. rewrite Hi in P. destruct P as [P1 P2].
    exists i, w. repeat split.
    - intros ->. rewrite Hi in B. destruct B; discriminate.
    - apply in_snoc. auto.
    - apply in_snoc. auto.
    - intros r Hr. apply in_snoc in Hr as [Hr|Hr]; [now apply P2 in Hr|discriminate].
    - intros Hb. apply before_snoc in Hb as [Hb|[_ Hb]]; [|discriminate]. now apply (i_late _ _ I) in Hb.
  Qed.
End Proofs.
