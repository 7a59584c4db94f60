From Coq Require Import List Arith Bool Lia.
From Verif Require Import Lts Broadcast.
Import ListNotations.
Section Proofs.
  Context {V : Type} (vnil : V).
  Notation state := (state V). Notation event := (event V). Notation runs := (runs vnil). Notation step := (@Broadcast.step V).

  Definition pc_ok (tr : list event) (s : state) (i : nat) : Prop :=
    match b_pc s i with
    | PIdle => (forall v, ~ In (ECallSet i v) tr) /\ (forall v, ~ In (ERetSet i v) tr)
    | PSet v | PSetClose v => In (ECallSet i v) tr /\ (forall v, ~ In (ERetSet i v) tr)
    | PSetRet v => In (ECallSet i v) tr /\ b_ready s = true /\ (forall v, ~ In (ERetSet i v) tr)
    | PGet => True
    | PRead => b_ready s = true
    | PGetRet v => exists j, In (ECallSet j v) tr
    | PDone => True
    end.
  Record inv (tr : list event) (s : state) : Prop := mkInv {
    i_pc : forall i, pc_ok tr s i;
    i_ready : b_ready s = true -> (exists j, In (ECallSet j (b_message s)) tr) /\
      exists w u, In (ECallSet w u) tr /\ (b_pc s w = PSetRet u \/ b_pc s w = PDone) /\
        forall i, (exists v, b_pc s i = PSetRet v) \/ (exists v, In (ERetSet i v) tr) -> i = w;
    i_unready : b_ready s = false -> forall i v, b_pc s i <> PSetRet v /\ ~ In (ERetSet i v) tr;
    i_message : forall i v, b_pc s i = PSetClose v -> exists j, In (ECallSet j (b_message s)) tr;
    i_crash : In EPanic tr -> b_crash s = true /\ exists i j v w, i <> j /\ In (ECallSet i v) tr /\ In (ECallSet j w) tr }.

  Lemma inv_init : inv [] (init vnil).
  Proof. constructor; cbn; try discriminate; try tauto; intros; cbn; auto; try discriminate. split; [discriminate|auto]. Qed.

  Ltac pcq Q := match goal with P : b_pc _ _ = _ |- _ => rewrite P in Q end.
  Ltac dpc i j := destruct (Nat.eq_dec j i) as [->|?]; [rewrite ?upd_eq in *|rewrite ?upd_ne in * by assumption].

  (* internal step of call i that keeps the shared fields *)
  Lemma inv_pc tr s i p : inv tr s -> b_crash s = false -> pc_ok tr (set_pc s i p) i -> (forall v, b_pc s i <> PSetRet v) -> b_pc s i <> PDone ->
    (forall v, p <> PSetRet v) -> (forall v, p <> PSetClose v) -> inv tr (set_pc s i p).
  Proof.
    intros [Ip Ir Iu Im Ic] Hc Hp N1 N2 N3 N4. constructor; cbn [set_pc b_message b_ready b_pc b_crash]; auto.
    - intros j. destruct (Nat.eq_dec j i) as [->|Hj]; [exact Hp|]. specialize (Ip j). unfold pc_ok in *. cbn [set_pc b_pc b_ready]. now rewrite upd_ne.
    - intros R. destruct (Ir R) as (M & w & u & A & B & C). split; [exact M|]. exists w, u. split; [exact A|]. split.
      + dpc i w; [|exact B]. destruct B as [B|B]; [now apply N1 in B|contradiction].
      + intros j [[v Hj]|Hj]; [|auto]. revert Hj. dpc i j; [intros Hj; now apply N3 in Hj|eauto].
    - intros R j v. destruct (Iu R j v) as [A B]. split; [|exact B]. dpc i j; auto.
    - intros j v. dpc i j; [intros Hj; now apply N4 in Hj|eauto].
  Qed.
  Lemma pc_mono tr s a i : pc_ok tr s i -> (forall v, a <> ECallSet i v) -> (forall v, a <> ERetSet i v) -> pc_ok (tr ++ [a]) s i.
  Proof.
    intros H N1 N2. assert (M : forall x, In x tr -> In x (tr ++ [a])) by (intros; apply in_snoc; auto).
    assert (Z1 : (forall v, ~ In (ECallSet i v) tr) -> forall v, ~ In (ECallSet i v) (tr ++ [a]))
      by (intros Q v Hv; apply in_snoc in Hv as [Hv|Hv]; [now apply Q in Hv|symmetry in Hv; now apply N1 in Hv]).
    assert (Z2 : (forall v, ~ In (ERetSet i v) tr) -> forall v, ~ In (ERetSet i v) (tr ++ [a]))
      by (intros Q v Hv; apply in_snoc in Hv as [Hv|Hv]; [now apply Q in Hv|symmetry in Hv; now apply N2 in Hv]).
    unfold pc_ok in *. destruct (b_pc s i); auto; try (destruct H as [H1 H2]; split; auto; fail).
    - destruct H as (A & B & C). auto.
    - destruct H as [j H]. eauto.
  Qed.

  Lemma step_inv tr s l s' : inv tr s -> step s l s' -> inv (match l with None => tr | Some a => tr ++ [a] end) s'.
  Proof.
    intros I St. pose proof I as [Ip Ir Iu Im Ic].
    assert (NC : b_crash s = false -> ~ In EPanic tr) by (intros C P; destruct (Ic P); congruence).
    destruct St; pose proof (Ip i) as P; unfold pc_ok in P; rewrite ?H0 in P.
    - (* call Set *)
      destruct P as [P1 P2]. constructor; cbn [set_pc b_message b_ready b_pc b_crash].
      + intros j. destruct (Nat.eq_dec j i) as [->|Hj].
        * unfold pc_ok. cbn. rewrite upd_eq. split; [apply in_snoc; auto|]. intros w Hw. apply in_snoc in Hw as [Hw|Hw]; [now apply P2 in Hw|discriminate].
        * assert (Q : pc_ok (tr ++ [ECallSet i v]) s j) by (apply pc_mono; [apply Ip|congruence|discriminate]).
          unfold pc_ok in *. cbn. now rewrite upd_ne.
      + intros R. destruct (Ir R) as ((m & M) & w & u & A & B & C). split; [exists m; apply in_snoc; auto|]. exists w, u. split; [apply in_snoc; auto|]. split.
        * dpc i w; [destruct B; congruence|exact B].
        * intros j [[x Hj]|[x Hj]].
          -- revert Hj. dpc i j; [discriminate|eauto].
          -- apply in_snoc in Hj as [Hj|Hj]; [eauto|discriminate].
      + intros R j x. destruct (Iu R j x) as [A B]. split; [dpc i j; [discriminate|auto]|]. intros Hj. apply in_snoc in Hj as [Hj|Hj]; [auto|discriminate].
      + intros j x. dpc i j; [discriminate|]. intros Hj. destruct (Im j x Hj) as [m M]. exists m. apply in_snoc. auto.
      + intros Hp. apply in_snoc in Hp as [Hp|Hp]; [now apply NC in Hp|discriminate].
    - (* call Get *)
      destruct P as [P1 P2]. constructor; cbn [set_pc b_message b_ready b_pc b_crash].
      + intros j. destruct (Nat.eq_dec j i) as [->|Hj].
        * unfold pc_ok. cbn. now rewrite upd_eq.
        * assert (Q : pc_ok (tr ++ [ECallGet i]) s j) by (apply pc_mono; [apply Ip|discriminate|discriminate]).
          unfold pc_ok in *. cbn. now rewrite upd_ne.
      + intros R. destruct (Ir R) as ((m & M) & w & u & A & B & C). split; [exists m; apply in_snoc; auto|]. exists w, u. split; [apply in_snoc; auto|]. split.
        * dpc i w; [destruct B; congruence|exact B].
        * intros j [[x Hj]|[x Hj]].
          -- revert Hj. dpc i j; [discriminate|eauto].
          -- apply in_snoc in Hj as [Hj|Hj]; [eauto|discriminate].
      + intros R j x. destruct (Iu R j x) as [A B]. split; [dpc i j; [discriminate|auto]|]. intros Hj. apply in_snoc in Hj as [Hj|Hj]; [auto|discriminate].
      + intros j x. dpc i j; [discriminate|]. intros Hj. destruct (Im j x Hj) as [m M]. exists m. apply in_snoc. auto.
      + intros Hp. apply in_snoc in Hp as [Hp|Hp]; [now apply NC in Hp|discriminate].
    - (* the assignment *)
      destruct P as [P1 P2]. constructor; cbn [b_message b_ready b_pc b_crash].
      + intros j. specialize (Ip j). unfold pc_ok in *. cbn. dpc i j; auto.
      + intros R. destruct (Ir R) as ((m & M) & w & u & A & B & C). split; [eauto|]. exists w, u. split; [exact A|]. split.
        * dpc i w; [destruct B; congruence|exact B].
        * intros j [[x Hj]|Hj]; [|eauto]. revert Hj. dpc i j; [discriminate|eauto].
      + intros R j x. destruct (Iu R j x) as [A B]. split; [dpc i j; [discriminate|auto]|auto].
      + intros j x _. eauto.
      + intros Hp. now apply NC in Hp.
    - (* the close *)
      destruct P as [P1 P2]. specialize (Iu H1). constructor; cbn [b_message b_ready b_pc b_crash]; try discriminate.
      + intros j. specialize (Ip j). unfold pc_ok in *. cbn. dpc i j; auto. destruct (b_pc s j); auto. tauto.
      + intros _. split; [eapply Im; eauto|]. exists i, v. rewrite upd_eq. repeat split; auto.
        intros j [[x Hj]|[x Hj]]; [|now apply (proj2 (Iu j x)) in Hj]. revert Hj. dpc i j; [auto|]. intros Hj. now apply (proj1 (Iu j x)) in Hj.
      + intros j x. dpc i j; [discriminate|eauto].
      + intros Hp. now apply NC in Hp.
    - (* the second close *)
      destruct P as [P1 P2]. destruct (Ir H1) as (M & w & u & A & B & C). constructor; cbn [b_message b_ready b_pc b_crash]; auto; try congruence.
      + intros j. apply (pc_mono tr s EPanic j); [apply Ip|discriminate|discriminate].
      + intros _. destruct M as [m M]. split; [exists m; apply in_snoc; auto|]. exists w, u. split; [apply in_snoc; auto|]. split; [exact B|].
        intros j [Hj|[x Hj]]; [auto|]. apply in_snoc in Hj as [Hj|Hj]; [eauto|discriminate].
      + intros j x Hj. destruct (Im j x Hj) as [m Hm]. exists m. apply in_snoc. auto.
      + intros _. split; [reflexivity|]. exists i, w, v, u. split; [intros ->; destruct B; congruence|]. split; apply in_snoc; auto.
    - (* Set returns *)
      destruct P as (P1 & R & P2). destruct (Ir R) as ((m & M) & w & u & A & B & C). constructor; cbn [set_pc b_message b_ready b_pc b_crash]; try congruence.
      + intros j. destruct (Nat.eq_dec j i) as [->|Hj].
        * unfold pc_ok. cbn. now rewrite upd_eq.
        * assert (Q : pc_ok (tr ++ [ERetSet i v]) s j) by (apply pc_mono; [apply Ip|discriminate|congruence]).
          unfold pc_ok in *. cbn. now rewrite upd_ne.
      + intros _. split; [exists m; apply in_snoc; auto|]. exists w, u. split; [apply in_snoc; auto|]. split.
        * dpc i w; auto.
        * intros j [[x Hj]|[x Hj]].
          -- revert Hj. dpc i j; [discriminate|eauto].
          -- apply in_snoc in Hj as [Hj|Hj]; [eauto|]. inversion Hj; subst. eauto.
      + intros j x. dpc i j; [discriminate|]. intros Hj. destruct (Im j x Hj) as [k Hk]. exists k. apply in_snoc. auto.
      + intros Hp. apply in_snoc in Hp as [Hp|Hp]; [now apply NC in Hp|discriminate].
    - apply inv_pc; auto; try congruence. unfold pc_ok. cbn. now rewrite upd_eq.
    - apply inv_pc; auto; try congruence. unfold pc_ok. cbn. rewrite upd_eq. apply Ir. exact P.
    - (* Get returns *)
      constructor; cbn [set_pc b_message b_ready b_pc b_crash].
      + intros j. destruct (Nat.eq_dec j i) as [->|Hj].
        * unfold pc_ok. cbn. now rewrite upd_eq.
        * assert (Q : pc_ok (tr ++ [ERetGet i v]) s j) by (apply pc_mono; [apply Ip|discriminate|discriminate]).
          unfold pc_ok in *. cbn. now rewrite upd_ne.
      + intros R. destruct (Ir R) as ((m & M) & w & u & A & B & C). split; [exists m; apply in_snoc; auto|]. exists w, u. split; [apply in_snoc; auto|]. split.
        * dpc i w; [auto|exact B].
        * intros j [[x Hj]|[x Hj]].
          -- revert Hj. dpc i j; [discriminate|eauto].
          -- apply in_snoc in Hj as [Hj|Hj]; [eauto|discriminate].
      + intros R j x. destruct (Iu R j x) as [A B]. split; [dpc i j; [discriminate|auto]|]. intros Hj. apply in_snoc in Hj as [Hj|Hj]; [auto|discriminate].
      + intros j x. dpc i j; [discriminate|]. intros Hj. destruct (Im j x Hj) as [k Hk]. exists k. apply in_snoc. auto.
      + intros Hp. apply in_snoc in Hp as [Hp|Hp]; [now apply NC in Hp|discriminate].
  Qed.
  Lemma runs_inv tr s : runs tr s -> inv tr s.
  Proof.
    intros H. eapply (exec_inv step); [apply inv_init| | |exact H].
    - intros ? ? ? I St. exact (step_inv _ _ _ _ I St).
    - intros ? ? ? ? I St. exact (step_inv _ _ _ _ I St).
  Qed.

  (* A Get returns only a value that some Set was called with before. *)
  Theorem get_value tr s i v : runs tr s -> In (ERetGet i v) tr -> exists j, before tr (ECallSet j v) (ERetGet i v).
  Proof.
    intros H Hin. apply in_split in Hin as (pre & post & ->). apply exec_split in H as (s1 & s2 & R & St & _). pose proof (runs_inv _ _ R) as I.
    inversion St; subst. pose proof (i_pc _ _ I i) as P. unfold pc_ok in P. pcq P. destruct P as [j P]. exists j.
    apply in_split in P as (x & y & ->). exists x, y, post. now rewrite <- app_assoc.
  Qed.
  (* Each call is Set with one value. *)
  Lemma set_one_value tr s i v w : runs tr s -> In (ECallSet i v) tr -> In (ECallSet i w) tr -> v = w.
  Proof.
    intros H. assert (G : inv tr s /\ forall v w, In (ECallSet i v) tr -> In (ECallSet i w) tr -> v = w); [|now apply G].
    clear v w. induction H as [|tr s1 s2 H IH St|tr s1 a s2 H IH St].
    - split; [apply inv_init|cbn; tauto].
    - destruct IH as [I U]. split; [exact (step_inv _ _ _ _ I St)|exact U].
    - destruct IH as [I U]. split; [exact (step_inv _ _ _ _ I St)|]. pose proof (i_pc _ _ I i) as Q. unfold pc_ok in Q.
      intros v w Hv Hw. apply in_snoc in Hv, Hw. destruct Hv as [Hv|Hv], Hw as [Hw|Hw]; auto; subst; try congruence;
        inversion St; subst; pcq Q; destruct Q as [Q _]; exfalso; eapply Q; eassumption.
  Qed.
  Theorem one_set tr s j v i w : runs tr s -> (forall k u, In (ECallSet k u) tr -> k = j) -> In (ECallSet j v) tr -> In (ERetGet i w) tr -> w = v.
  Proof.
    intros H U Hj Hi. destruct (get_value _ _ _ _ H Hi) as [k B]. apply before_in in B as [B _]. pose proof (U _ _ B) as ->. exact (set_one_value _ _ _ _ _ H B Hj).
  Qed.
  Theorem one_set_returns tr s i j v w : runs tr s -> ~ before tr (ERetSet i v) (ERetSet j w).
  Proof.
    intros H B. apply before_cut in B as (pre & post & -> & Hi). apply exec_split in H as (s1 & s2 & R & St & _). pose proof (runs_inv _ _ R) as I.
    inversion St; subst. pose proof (i_pc _ _ I j) as P. unfold pc_ok in P. pcq P. destruct P as (_ & Rd & N).
    destruct (i_ready _ _ I Rd) as (_ & x & u & _ & _ & C). assert (i = x) by (apply C; eauto). assert (j = x) by (apply C; eauto). subst i j. now apply N in Hi.
  Qed.
  Theorem panic_two_sets tr s : runs tr s -> In EPanic tr -> exists i j v w, i <> j /\ In (ECallSet i v) tr /\ In (ECallSet j w) tr.
  Proof. intros H Hp. exact (proj2 (i_crash _ _ (runs_inv _ _ H) Hp)). Qed.
  Lemma alive tr s : runs tr s -> ~ In EPanic tr -> b_crash s = false.
  Proof.
    revert tr s. apply (exec_inv step (fun tr s => ~ In EPanic tr -> b_crash s = false) (init vnil)); [reflexivity| |];
      intros tr s; intros; inversion H0; subst; cbn; auto. exfalso. apply H1, in_snoc. auto.
  Qed.
  (* Once a Set has returned, another Set can only crash. *)
  Theorem second_set_crashes tr s i v j w : runs tr s -> ~ In EPanic tr -> In (ERetSet i v) tr -> In (ECallSet j w) tr -> j <> i ->
    (forall u, ~ In (ERetSet j u) tr) /\ exists s', runs (tr ++ [EPanic]) s'.
  Proof.
    intros H Hp Hi Hj Hne. pose proof (runs_inv _ _ H) as I. pose proof (alive _ _ H Hp) as Al.
    assert (Rd : b_ready s = true). { destruct (b_ready s) eqn:R; [reflexivity|]. now apply (proj2 (i_unready _ _ I R i v)) in Hi. }
    destruct (i_ready _ _ I Rd) as (_ & x & u & _ & B & C). assert (i = x) by (apply C; eauto). subst x.
    assert (N : forall u, ~ In (ERetSet j u) tr) by (intros u' Hu; apply Hne; apply C; eauto). split; [exact N|].
    assert (P : exists w', b_pc s j = PSet w' \/ b_pc s j = PSetClose w').
    { assert (G : inv tr s /\ ((exists u, In (ECallSet j u) tr) -> (exists u, In (ERetSet j u) tr) \/ exists w', b_pc s j = PSet w' \/ b_pc s j = PSetClose w' \/ b_pc s j = PSetRet w')).
      { clear -H. induction H as [|tr s1 s2 H IH St|tr s1 a s2 H IH St].
        - split; [apply inv_init|]. cbn. intros [u []].
        - destruct IH as [I U]. split; [exact (step_inv _ _ _ _ I St)|]. intros G. specialize (U G). inversion St; subst; cbn; auto; (destruct U as [U|[w' U]]; [now left|right]);
          (destruct (Nat.eq_dec j i) as [->|?]; [rewrite upd_eq|rewrite upd_ne by assumption; eauto]); try (exists v; now auto); destruct U as [U|[U|U]]; congruence.
        - destruct IH as [I U]. split; [exact (step_inv _ _ _ _ I St)|]. intros [u G]. apply in_snoc in G as [G|G].
          + destruct (U (ex_intro (fun u => In (ECallSet j u) tr) u G)) as [[u' K]|[w' K]]; [left; exists u'; apply in_snoc; auto|].
            inversion St; subst; cbn; try (right; exists w'; exact K);
              (destruct (Nat.eq_dec j i) as [->|?]; [|right; exists w'; rewrite upd_ne by assumption; exact K]);
              try (destruct K as [K|[K|K]]; congruence). left. exists v. apply in_snoc. auto.
          + subst a. right. inversion St; subst. cbn. rewrite upd_eq. eauto. }
      destruct G as [_ G]. destruct (G (ex_intro (fun u => In (ECallSet j u) tr) w Hj)) as [[u' K]|[w' K]]; [now apply N in K|]. exists w'. destruct K as [K|[K|K]]; auto.
      exfalso. apply Hne, C. eauto. }
    destruct P as [w' [P|P]].
    - eexists. apply (exec_act step _ _ (mkB w' (b_ready s) (upd (b_pc s) j (PSetClose w')) false)).
      + eapply exec_tau; [exact H|]. now apply set_message.
      + apply (set_panic _ j w'); [reflexivity|apply upd_eq|exact Rd].
    - eexists. apply (exec_act step _ _ s); [exact H|]. now apply (set_panic _ j w').
  Qed.
  (* A Get that was called can return once the message is there. *)
  Theorem get_can_return tr s i j v : runs tr s -> ~ In EPanic tr -> In (ERetSet j v) tr -> In (ECallGet i) tr ->
    (exists w, In (ERetGet i w) tr) \/ exists w s', runs (tr ++ [ERetGet i w]) s'.
  Proof.
    intros H Hp Hj Hi. pose proof (runs_inv _ _ H) as I. pose proof (alive _ _ H Hp) as Al.
    assert (Rd : b_ready s = true). { destruct (b_ready s) eqn:R; [reflexivity|]. now apply (proj2 (i_unready _ _ I R j v)) in Hj. }
    assert (G : In (ECallGet i) tr -> (exists u, In (ERetGet i u) tr) \/ b_pc s i = PGet \/ b_pc s i = PRead \/ exists w, b_pc s i = PGetRet w).
    { clear -H. induction H as [|tr s1 s2 H IH St|tr s1 a s2 H IH St].
      - cbn. tauto.
      - intros G. specialize (IH G). inversion St; subst; cbn; auto; (destruct IH as [IH|IH]; [now left|right]);
        (destruct (Nat.eq_dec i i0) as [->|?]; [rewrite upd_eq|rewrite upd_ne by assumption; exact IH]); eauto; destruct IH as [U|[U|[? U]]]; congruence.
      - intros G. apply in_snoc in G as [G|G].
        + destruct (IH G) as [[u' K]|K]; [left; exists u'; apply in_snoc; auto|].
          inversion St; subst; cbn; try (right; exact K);
            (destruct (Nat.eq_dec i i0) as [->|?]; [|right; rewrite upd_ne by assumption; exact K]);
            try (destruct K as [K|[K|[? K]]]; congruence). left. exists v. apply in_snoc. auto.
        + subst a. right. inversion St; subst. cbn. rewrite upd_eq. auto. }
    destruct (G Hi) as [R|[P|[P|[w P]]]]; [now left| | |].
    - right. exists (b_message s). eexists. eapply exec_app; [exact H|].
      eapply exec_cons_tau; [apply get_ready; eauto|]. eapply exec_cons_tau; [apply get_read; [exact Al|apply upd_eq]|]. apply exec_one, get_ret; [exact Al|apply upd_eq].
    - right. exists (b_message s). eexists. eapply exec_app; [exact H|].
      eapply exec_cons_tau; [apply get_read; [exact Al|exact P]|]. apply exec_one, get_ret; [exact Al|apply upd_eq].
    - right. exists w. eexists. eapply exec_app; [exact H|]. apply exec_one, get_ret; [exact Al|exact P].
  Qed.
End Proofs.
