(* Every call under the lock ends: nothing is left to do only when all calls have returned, and
   each call takes at most seven steps. *)
From Coq Require Import List Arith Bool Lia.
From Verif Require Import Lts Counted CountedFacts RWLock RWLockProofs.
Import ListNotations.

Lemma called_snoc {O R : Type} (tr : list (event O R)) a : called (tr ++ [a]) = called tr ++ match a with ECall i _ => [i] | _ => [] end.
Proof. unfold called. rewrite flat_map_app. cbn. now rewrite app_nil_r. Qed.
Lemma in_called {O R : Type} (tr : list (event O R)) i : In i (called tr) <-> exists o, In (ECall i o) tr.
Proof.
  unfold called. rewrite in_flat_map. split.
  - intros ([j o| | |] & H & Hi); cbn in Hi; try contradiction. destruct Hi as [->|[]]. eauto.
  - intros [o H]. exists (ECall i o). cbn. auto.
Qed.

Section Rest.
  Context {S O R : Type} (writes mutates : O -> bool) (apply : O -> S -> S * R).
  Context (modifiers_lock : forall o, mutates o = true -> writes o = true).
  Notation state := (state S O R). Notation event := (event O R). Notation pc := (pc O R).
  Notation step := (RWLock.step writes mutates apply). Notation runs := (RWLock.runs writes mutates apply).
  Implicit Types (tr : list event) (s : state).
  Ltac dpc i j := destruct (Nat.eq_dec j i) as [->|?]; [rewrite ?(upd_eq _ i)|rewrite ?(upd_ne _ i j) by assumption].

  (* Who is on record as holding the lock holds it. *)
  Record held s : Prop := mkHeld {
    h_reader : forall i, In i (w_readers s) -> exists o, holds (w_pc s i) = Some o /\ writes o = false;
    h_writer : forall i, w_writer s = Some i -> exists o, (holds (w_pc s i) = Some o \/ w_pc s i = PPend o) /\ writes o = true }.
  Lemma held_runs d tr s : runs d tr s -> held s.
  Proof.
    intros H. assert (ST : forall s l s', held s -> step s l s' -> held s').
    { clear. intros s l s' [Hr Hw] St. destruct St; constructor; cbn [set_pc w_data w_readers w_writer w_pc]; try discriminate; auto.
      - intros j Hj. dpc i j; [apply Hr in Hj as (p & E & _); rewrite H0 in E; discriminate|auto].
      - intros j Hj. dpc i j; [apply Hw in Hj as (p & [E|E] & _); rewrite H0 in E; discriminate|auto].
      - intros j [<-|Hj]; [rewrite upd_eq; cbn; eauto|]. dpc i j; [cbn; eauto|auto].
      - intros j Hj. dpc i j; [apply Hr in Hj as (p & E & _); rewrite H0 in E; discriminate|auto].
      - intros j Hj. inversion Hj; subst. rewrite upd_eq. eauto.
      - intros j Hj. contradiction.
      - intros j Hj. dpc i j; [|auto]. apply Hw in Hj as (p & [E|E] & W); rewrite H0 in E; try discriminate; inversion E; subst; cbn; eauto.
      - intros j Hj. dpc i j; [apply Hr in Hj as (p & E & W); rewrite H0 in E; eauto|auto].
      - intros j Hj. dpc i j; [|auto]. apply Hw in Hj as (p & [E|E] & W); rewrite H0 in E; try discriminate; inversion E; subst; cbn; eauto.
      - intros j Hj. dpc i j; [apply Hr in Hj as (p & E & W); rewrite H0 in E; eauto|auto].
      - intros j Hj. dpc i j; [|auto]. apply Hw in Hj as (p & [E|E] & W); rewrite H0 in E; try discriminate; inversion E; subst; cbn; eauto.
      - intros j Hj. apply in_drop in Hj as [Hj Hn]. rewrite upd_ne by exact Hn. auto.
      - intros j Hj. dpc i j; [|auto]. apply Hw in Hj as (p & [E|E] & W); rewrite H0 in E; [|discriminate]. cbn in E. congruence.
      - intros j Hj. dpc i j; [|auto]. apply Hr in Hj as (p & E & W). rewrite H0 in E. cbn in E. congruence.
      - intros j Hj. dpc i j; [apply Hr in Hj as (p & E & W); rewrite H0 in E; discriminate|auto].
      - intros j Hj. dpc i j; [apply Hw in Hj as (p & [E|E] & _); rewrite H0 in E; discriminate|auto]. }
    eapply (exec_inv step (fun _ s => held s)); [| | |exact H]; [|intros; eapply ST; eassumption|intros; eapply ST; eassumption].
    constructor; cbn; [contradiction|discriminate].
  Qed.
  Lemma holder_moves s i o : w_crash s = false -> holds (w_pc s i) = Some o -> ~ at_rest step is_call s.
  Proof.
    intros C E A. destruct (w_pc s i) as [| | |o1|o1|o1 r| |] eqn:P; cbn in E; try discriminate.
    - destruct (A _ _ (begin _ _ _ s i o1 C P)) as (a & X & _). discriminate.
    - destruct (A _ _ (end_ _ _ _ s i o1 C P)) as (a & X & Y). inversion X; subst. exact Y.
    - destruct (writes o1) eqn:W; [destruct (A _ _ (unlock _ _ _ s i o1 r C P W)) as (a & X & _)|destruct (A _ _ (runlock _ _ _ s i o1 r C P W)) as (a & X & _)]; discriminate.
  Qed.
  Theorem rest d tr s i o : runs d tr s -> at_rest step is_call s -> In (ECall i o) tr -> exists r, In (ERet i o r) tr.
  Proof.
    intros H A Hin. pose proof (runs_inv _ _ _ modifiers_lock _ _ _ H) as I. pose proof (held_runs _ _ _ H) as [Hr Hw].
    pose proof (proj1 (i_alive _ _ _ _ _ I)) as C. pose proof (stage_inv _ _ _ (i_stage _ _ _ _ _ I i)) as S1.
    assert (Z : In (ECall i o) (proj i tr)) by (unfold proj; apply filter_In; cbn; now rewrite Nat.eqb_refl).
    assert (Rd : w_readers s = []) by (destruct (w_readers s) as [|j l] eqn:Rd; [reflexivity|destruct (Hr j (or_introl eq_refl)) as (p & E & _); exfalso; exact (holder_moves _ _ _ C E A)]).
    assert (NP : forall j p, w_pc s j <> PPend p) by (intros j p Pj; destruct (A _ _ (lock _ _ _ s j p C Pj Rd)) as (a & X & _); discriminate).
    destruct (w_pc s i) as [|o1|o1|o1|o1|o1 r|o1 r|] eqn:P.
    - rewrite S1 in Z. contradiction.
    - exfalso. destruct (w_writer s) as [j|] eqn:W; [destruct (Hw j eq_refl) as (p & [E|E] & _); [exact (holder_moves _ _ _ C E A)|exact (NP _ _ E)]|].
      destruct (writes o1) eqn:Wo.
      + destruct (A _ _ (pend _ _ _ s i o1 C P Wo W)) as (a & X & _). discriminate.
      + destruct (A _ _ (rlock _ _ _ s i o1 C P Wo W)) as (a & X & _). discriminate.
    - exfalso. exact (NP _ _ P).
    - exfalso. eapply (holder_moves s i o1 C); [rewrite P; reflexivity|exact A].
    - exfalso. eapply (holder_moves s i o1 C); [rewrite P; reflexivity|exact A].
    - exfalso. eapply (holder_moves s i o1 C); [rewrite P; reflexivity|exact A].
    - exfalso. destruct (A _ _ (ret _ _ _ s i o1 r C P)) as (a & X & Y). inversion X; subst. exact Y.
    - destruct S1 as (o1 & r & S1). rewrite S1 in Z. cbn in Z. destruct Z as [Z|[Z|[Z|[]]]]; try discriminate. inversion Z; subst.
      exists r. assert (Y : In (ERet i o r) (proj i tr)) by (rewrite S1; cbn; auto). now apply filter_In in Y.
  Qed.

  Definition weight (p : pc) : nat := match p with PIdle => 0 | PWant _ => 1 | PPend _ => 2 | PHold _ => 3 | PBusy _ => 4 | PAfter _ _ => 5 | PRet _ _ => 6 | PDone => 7 end.
  Lemma idle_called d tr s i : runs d tr s -> (w_pc s i = PIdle <-> ~ In i (called tr)).
  Proof.
    intros H. pose proof (stage_inv _ _ _ (i_stage _ _ _ _ _ (runs_inv _ _ _ modifiers_lock _ _ _ H) i)) as S1. rewrite in_called.
    assert (F : forall o, In (ECall i o) (proj i tr) -> In (ECall i o) tr) by (intros o Hin; now apply filter_In in Hin).
    assert (F' : forall o, In (ECall i o) tr -> In (ECall i o) (proj i tr)) by (intros o Hin; unfold proj; apply filter_In; cbn; now rewrite Nat.eqb_refl).
    destruct (w_pc s i) as [|o1|o1|o1|o1|o1 r|o1 r|]; split; try discriminate; intros X; try reflexivity.
    - intros [o Hin]. apply F' in Hin. rewrite S1 in Hin. contradiction.
    - exfalso. apply X. exists o1. apply F. rewrite S1. now left.
    - exfalso. apply X. exists o1. apply F. rewrite S1. now left.
    - exfalso. apply X. exists o1. apply F. rewrite S1. now left.
    - exfalso. apply X. exists o1. apply F. rewrite S1. now left.
    - exfalso. apply X. exists o1. apply F. rewrite S1. now left.
    - exfalso. apply X. exists o1. apply F. rewrite S1. now left.
    - exfalso. destruct S1 as (o1 & r & S1). apply X. exists o1. apply F. rewrite S1. now left.
  Qed.
  Definition total tr s : nat := list_sum (map (fun i => weight (w_pc s i)) (called tr)).
  Lemma heavier d tr s l s' : runs d tr s -> NoDup (called tr) -> step s l s' -> (forall a, l = Some a -> ~ is_call a) ->
    total tr s < total tr s'.
  Proof.
    intros Rn ND St Nc. unfold total. inversion St; subst; cbn [set_pc w_pc].
    all: try (exfalso; eapply Nc; [reflexivity|exact I]).
    all: try (exfalso; pose proof (runs_inv _ _ _ modifiers_lock _ _ _ (exec_act _ _ _ _ _ _ Rn St)) as I; apply (proj2 (i_alive _ _ _ _ _ I)); apply in_or_app; right; now left).
    all: match goal with P : w_pc ?st ?i = _ |- context [upd (w_pc ?st) ?i ?x] =>
        assert (In i (called tr)) by (destruct (in_dec Nat.eq_dec i (called tr)) as [X|X]; [exact X|apply (idle_called _ _ _ _ Rn) in X; rewrite X in P; discriminate]);
        pose proof (sum_upd weight (w_pc st) i x (called tr) ND ltac:(assumption)) as E; rewrite P in E; cbn [weight] in E; lia end.
  Qed.
  Lemma counted d n tr s : steps step (init d) n tr s -> NoDup (called tr) /\ n <= total tr s.
  Proof.
    intros H. induction H as [|n tr s1 s2 H [ND IH] St|n tr s1 a s2 H [ND IH] St]; [split; [constructor|cbn; lia]| |].
    - split; [exact ND|]. pose proof (steps_exec _ _ _ _ _ H) as Rn. pose proof (heavier _ _ _ _ _ Rn ND St ltac:(discriminate)). lia.
    - pose proof (steps_exec _ _ _ _ _ H) as Rn. assert (D : is_call a \/ ~ is_call a) by (destruct a; cbn; tauto). destruct D as [D|D].
      + destruct a as [i o| | |]; try contradiction. unfold total in *. rewrite called_snoc. inversion St; subst; cbn [set_pc w_pc].
        match goal with P : w_pc _ i = _ |- _ => pose proof (proj1 (idle_called _ _ _ _ Rn) P) as Ni end. split.
        * apply nodup_snoc; assumption.
        * rewrite map_app, list_sum_app. cbn [map]. rewrite sum_cons, upd_eq. change (list_sum []) with 0. cbn [weight].
          match goal with |- context [upd (w_pc ?st) i (PWant o)] => rewrite (sum_same (fun j => weight (upd (w_pc st) i (PWant o) j)) (fun j => weight (w_pc st j))) end; [lia|]. intros j Hj. rewrite upd_ne; [reflexivity|]. intros ->. contradiction.
      + pose proof (heavier _ _ _ _ _ Rn ND St ltac:(intros b Eb; inversion Eb; subst; exact D)) as G.
        assert (C : called (tr ++ [a]) = called tr) by (rewrite called_snoc; destruct a; cbn in D; try tauto; now rewrite app_nil_r).
        unfold total in *. rewrite C. split; [exact ND|lia].
  Qed.
  Lemma total_le tr s : total tr s <= 7 * length (called tr).
  Proof. apply sum_le. intros i. destruct (w_pc s i); cbn; lia. Qed.
  Theorem bound d n tr s : steps step (init d) n tr s -> n <= 7 * length (called tr).
  Proof. intros H. destruct (counted _ _ _ _ H) as [_ L]. pose proof (total_le tr s). lia. Qed.
  Lemma nodup_called d tr s : runs d tr s -> NoDup (called tr).
  Proof. intros H. destruct (exec_steps _ _ _ _ H) as [n Hn]. exact (proj1 (counted _ _ _ _ Hn)). Qed.

  (* Whoever has not called yet can. *)
  Theorem accepts d tr s i o : runs d tr s -> ~ In i (called tr) -> exists s', step s (Some (ECall i o)) s'.
  Proof.
    intros H N. pose proof (proj2 (idle_called _ _ _ _ H) N) as P. pose proof (proj1 (i_alive _ _ _ _ _ (runs_inv _ _ _ modifiers_lock _ _ _ H))) as C.
    eexists. now constructor.
  Qed.
  (* A holder of the lock, or who waits for it when nobody holds it, can go on. *)
  Lemma holder_step s i o : w_crash s = false -> holds (w_pc s i) = Some o -> exists l s', step s l s' /\ forall a, l = Some a -> ~ is_call a.
  Proof.
    intros C E. destruct (w_pc s i) as [| | |o1|o1|o1 r| |] eqn:P; cbn in E; try discriminate.
    - exists None. eexists. split; [exact (begin _ _ _ s i o1 C P)|discriminate].
    - eexists. eexists. split; [exact (end_ _ _ _ s i o1 C P)|]. intros a X. inversion X; subst. auto.
    - exists None. destruct (writes o1) eqn:W; [exists (mkRW (w_data s) (w_readers s) None (upd (w_pc s) i (PRet o1 r)) false)|exists (mkRW (w_data s) (drop i (w_readers s)) (w_writer s) (upd (w_pc s) i (PRet o1 r)) false)]; (split; [now constructor|discriminate]).
  Qed.
  Lemma progress d tr s i : runs d tr s -> In i (called tr) -> w_pc s i <> PDone -> exists l s', step s l s' /\ forall a, l = Some a -> ~ is_call a.
  Proof.
    intros H Hi ND. pose proof (runs_inv _ _ _ modifiers_lock _ _ _ H) as I. pose proof (held_runs _ _ _ H) as [Hr Hw].
    pose proof (proj1 (i_alive _ _ _ _ _ I)) as C.
    destruct (w_readers s) as [|j l] eqn:Rd; [|destruct (Hr j (or_introl eq_refl)) as (p & E & _); exact (holder_step _ _ _ C E)].
    assert (PP : forall j p, w_pc s j = PPend p -> exists l s', step s l s' /\ forall a, l = Some a -> ~ is_call a).
    { intros j p Pj. exists None. eexists. split; [exact (lock _ _ _ s j p C Pj Rd)|discriminate]. }
    destruct (w_writer s) as [j|] eqn:W; [destruct (Hw j eq_refl) as (p & [E|E] & _); [exact (holder_step _ _ _ C E)|exact (PP _ _ E)]|].
    destruct (w_pc s i) as [|o1|o1|o1|o1|o1 r|o1 r|] eqn:P.
    - exfalso. apply (idle_called _ _ _ _ H) in P. contradiction.
    - exists None. destruct (writes o1) eqn:Wo; eexists; (split; [|discriminate]); [exact (pend _ _ _ s i o1 C P Wo W)|exact (rlock _ _ _ s i o1 C P Wo W)].
    - eauto.
    - eapply (holder_step s i o1 C). now rewrite P.
    - eapply (holder_step s i o1 C). now rewrite P.
    - eapply (holder_step s i o1 C). now rewrite P.
    - eexists. eexists. split; [exact (ret _ _ _ s i o1 r C P)|]. intros a X. inversion X; subst. auto.
    - contradiction.
  Qed.
  Definition done_b (p : pc) : bool := match p with PDone => true | _ => false end.
  (* From every state, the calls made so far can all return. *)
  Theorem finish d tr s : runs d tr s -> exists tr' s', exec step s tr' s' /\ Forall (fun a => ~ is_call a) tr' /\
    forall i o, In (ECall i o) tr -> exists r, In (ERet i o r) (tr ++ tr').
  Proof.
    remember (7 * length (called tr) - total tr s) as k eqn:K. revert tr s K. induction k as [k IH] using lt_wf_ind. intros tr s -> H.
    destruct (forallb (fun i => done_b (w_pc s i)) (called tr)) eqn:F.
    - exists [], s. split; [constructor|]. split; [constructor|]. intros i o Hi. rewrite app_nil_r.
      rewrite forallb_forall in F. pose proof (F i (proj2 (in_called tr i) (ex_intro _ o Hi))) as Fi.
      pose proof (stage_inv _ _ _ (i_stage _ _ _ _ _ (runs_inv _ _ _ modifiers_lock _ _ _ H) i)) as S1. destruct (w_pc s i); try discriminate.
      destruct S1 as (o1 & r & S1). assert (Z : In (ECall i o) (proj i tr)) by (unfold proj; apply filter_In; cbn; now rewrite Nat.eqb_refl).
      rewrite S1 in Z. cbn in Z. destruct Z as [Z|[Z|[Z|[]]]]; try discriminate. inversion Z; subst.
      exists r. assert (Y : In (ERet i o r) (proj i tr)) by (rewrite S1; cbn; auto). now apply filter_In in Y.
    - assert (E : exists i, In i (called tr) /\ w_pc s i <> PDone).
      { clear - F. induction (called tr) as [|i l IHl]; cbn in F; [discriminate|]. apply andb_false_iff in F as [F|F].
        - exists i. split; [now left|]. intros E. rewrite E in F. discriminate.
        - destruct (IHl F) as (j & Hj & N). exists j. split; [now right|exact N]. }
      destruct E as (i & Hi & N). destruct (progress _ _ _ _ H Hi N) as (l & s' & St & Nc).
      pose proof (heavier _ _ _ _ _ H (nodup_called _ _ _ H) St Nc) as G. pose proof (total_le tr s') as L.
      destruct l as [a|].
      + assert (C : called (tr ++ [a]) = called tr) by (rewrite called_snoc; pose proof (Nc a eq_refl) as D; destruct a; cbn in D; try tauto; now rewrite app_nil_r).
        destruct (IH (7 * length (called (tr ++ [a])) - total (tr ++ [a]) s')) with (tr := tr ++ [a]) (s := s') as (tr' & s2 & X & Q & A); [unfold total in *; rewrite C; lia|reflexivity|eapply exec_act; eassumption|].
        exists (a :: tr'), s2. split; [eapply exec_cons; eassumption|]. split; [constructor; auto|].
        intros j o Hj. destruct (A j o (in_or_app _ _ _ (or_introl Hj))) as [r Hr]. exists r. rewrite <- app_assoc in Hr. exact Hr.
      + destruct (IH (7 * length (called tr) - total tr s')) with (tr := tr) (s := s') as (tr' & s2 & X & Q & A); [lia|reflexivity|eapply exec_tau; eassumption|].
        exists tr', s2. split; [eapply exec_cons_tau; eassumption|]. split; [exact Q|exact A].
  Qed.

  (* Calls that only read do not wait for each other: any number can be at their access at once. *)
  Theorem overlap d l : NoDup (map fst l) -> (forall i o, In (i, o) l -> writes o = false) ->
    exists tr s, runs d tr s /\ forall i o, In (i, o) l -> w_pc s i = PBusy o.
  Proof.
    intros ND W. assert (X : exists tr s, runs d tr s /\ (forall i o, In (i, o) l -> w_pc s i = PBusy o) /\ (forall i, ~ In i (map fst l) -> w_pc s i = PIdle) /\ w_writer s = None /\ w_crash s = false).
    { induction l as [|[i o] l IH]; [exists [], (init d); repeat split; try constructor; intros; contradiction|].
      cbn in ND. inversion ND; subst. destruct IH as (tr & s & Rn & B & Id & Nw & C); [assumption|intros; apply (W i0); now right|].
      exists (tr ++ [ECall i o]). eexists. split; [eapply exec_tau; [eapply exec_tau; [eapply exec_act; [exact Rn|apply (call _ _ _ s i o C); now apply Id]|
        apply (rlock _ _ _ _ i o); cbn; [exact C|apply upd_eq|apply (W i); now left|exact Nw]]|apply (begin _ _ _ _ i o); cbn; [reflexivity|apply upd_eq]]|].
      cbn [w_pc w_writer w_crash set_pc]. split; [|split; [|now split]].
      - intros j p [E|Hj]; [inversion E; subst; apply upd_eq|]. assert (j <> i) by (intros ->; apply H1; apply in_map_iff; exists (i, p); auto). rewrite !upd_ne by assumption. auto.
      - intros j Hj. cbn in Hj. assert (j <> i) by (intros ->; tauto). rewrite !upd_ne by assumption. apply Id. tauto. }
    destruct X as (tr & s & Rn & B & _). eauto.
  Qed.
End Rest.
