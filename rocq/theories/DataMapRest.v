(* Calls of the sync map end too: it has no lock. *)
From Coq Require Import List Arith Bool ZArith String Lia.
From Verif Require Import Lts Counted CountedFacts RWLock RWLockProofs RWLockRest DataMap DataMapSpec DataMapProofs.
From stdpp Require Import gmap strings.
Import ListNotations.
Local Open Scope nat_scope.

Section Rest.
  Context {V : Type}.
  Notation step := (@DataMap.step V).
  Notation proj := (@RWLockProofs.proj (op V) (res V)).
  Implicit Types (tr : list (RWLock.event (op V) (res V))) (s : DataMap.state V).

  Lemma one_moves s i : m_pc s i <> PIdle -> m_pc s i <> PDone -> ~ at_rest step is_call s.
  Proof.
    intros N1 N2 A.
    assert (X : exists l s', step s l s' /\ match l with Some a => ~ is_call a | None => True end).
    { destruct (m_pc s i) as [|k v|k v|k v|k|k|k|k|k| |o r|] eqn:P; try contradiction.
      - do 2 eexists. split; [exact (set_has s i k v P)|exact I].
      - do 2 eexists. split; [exact (set_add s i k v P)|exact I].
      - do 2 eexists. split; [exact (set_store s i k v P)|cbn; auto].
      - do 2 eexists. split; [exact (get_load s i k P)|cbn; auto].
      - do 2 eexists. split; [exact (has_load s i k P)|cbn; auto].
      - destruct (has s k) eqn:Hk; do 2 eexists; (split; [first [exact (rm_has s i k P Hk)|exact (rm_none s i k P Hk)]|cbn; auto]).
      - do 2 eexists. split; [exact (rm_del s i k P)|cbn; auto].
      - do 2 eexists. split; [exact (rm_add s i k P)|exact I].
      - do 2 eexists. split; [exact (len_load s i P)|cbn; auto].
      - do 2 eexists. split; [exact (DataMap.ret s i o r P)|cbn; auto]. }
    destruct X as (l & s' & St & C). destruct (A _ _ St) as (a & -> & Y). contradiction.
  Qed.
  Theorem sync_rest tr s i o : sync_runs tr s -> at_rest step is_call s -> In (ECall i o) tr -> exists r, In (ERet i o r) tr.
  Proof.
    intros H A Hin. pose proof (stage_inv _ _ _ (i_stage _ _ (sync_inv _ _ H) i)) as S1.
    assert (Z : In (ECall i o) (proj i tr)) by (unfold RWLockProofs.proj; apply filter_In; cbn; now rewrite Nat.eqb_refl).
    assert (M : m_pc s i = PDone \/ m_pc s i = PIdle).
    { destruct (m_pc s i) eqn:P; auto; exfalso; apply (one_moves s i); auto; rewrite P; discriminate. }
    destruct M as [M|M]; rewrite M in S1; [|rewrite S1 in Z; contradiction].
    destruct S1 as (o1 & r & S1). rewrite S1 in Z. cbn in Z. destruct Z as [Z|[Z|[Z|[]]]]; try discriminate. inversion Z; subst.
    exists r. assert (Y : In (ERet i o r) (proj i tr)) by (rewrite S1; cbn; auto). now apply filter_In in Y.
  Qed.

  Definition weight (p : DataMap.pc V) : nat := match p with
    | PIdle => 0 | PSetHas _ _ | PGet _ | PHas _ | PRmHas _ | PLen => 1 | PSetAdd _ _ | PRmDel _ => 2 | PSetStore _ _ | PRmAdd _ => 3
    | PRet _ _ => 4 | PDone => 5 end.
  Lemma idle_called tr s i : sync_runs tr s -> (m_pc s i = PIdle <-> ~ In i (called tr)).
  Proof.
    intros H. pose proof (stage_inv _ _ _ (i_stage _ _ (sync_inv _ _ H) i)) as S1. rewrite in_called.
    assert (F : forall o, In (ECall i o) (proj i tr) -> In (ECall i o) tr) by (intros o Hin; now apply filter_In in Hin).
    assert (F' : forall o, In (ECall i o) tr -> In (ECall i o) (proj i tr)) by (intros o Hin; unfold RWLockProofs.proj; apply filter_In; cbn; now rewrite Nat.eqb_refl).
    destruct (m_pc s i) as [|k v|k v|k v|k|k|k|k|k| |o1 r|]; split; try discriminate; intros X; try reflexivity.
    1: { intros [o Hin]. apply F' in Hin. rewrite S1 in Hin. contradiction. }
    all: exfalso; apply X; try (destruct S1 as (o1 & r & S1)); eexists; apply F; rewrite S1; left; reflexivity.
  Qed.
  Lemma counted n tr s : steps step DataMap.init n tr s -> List.NoDup (called tr) /\ n <= list_sum (map (fun i => weight (m_pc s i)) (called tr)).
  Proof.
    intros H. assert (M : forall tr s i x, sync_runs tr s -> List.NoDup (called tr) -> m_pc s i <> PIdle ->
      list_sum (map (fun j => weight (upd (m_pc s) i x j)) (called tr)) + weight (m_pc s i) = list_sum (map (fun j => weight (m_pc s j)) (called tr)) + weight x).
    { intros tr1 s1 i x Rn ND P. apply sum_upd; [exact ND|]. destruct (List.in_dec Nat.eq_dec i (called tr1)) as [X|X]; [exact X|]. apply (idle_called _ _ _ Rn) in X. contradiction. }
    induction H as [|n tr s1 s2 H [ND IH] St|n tr s1 a s2 H [ND IH] St]; [split; [constructor|apply Nat.le_refl]| |].
    - split; [exact ND|]. pose proof (steps_exec _ _ _ _ _ H) as Rn. inversion St; subst; cbn [DataMap.set_pc m_pc].
      all: match goal with P : m_pc ?st ?i = _ |- context [upd (m_pc ?st) ?i ?x] =>
        pose proof (M tr st i x Rn ND ltac:(rewrite P; discriminate)) as E; rewrite P in E; cbn [weight] in E; try (destruct (has st k); cbn [weight] in E); lia end.
    - pose proof (steps_exec _ _ _ _ _ H) as Rn. rewrite called_snoc. inversion St; subst; cbn [DataMap.set_pc m_pc]; rewrite ?app_nil_r.
      1: { match goal with P : m_pc _ i = _ |- _ => pose proof (proj1 (idle_called _ _ _ Rn) P) as Ni end. split; [apply nodup_snoc; assumption|].
        rewrite map_app, list_sum_app. cbn [map]. rewrite sum_cons, upd_eq. change (list_sum []) with 0.
        match goal with |- context [upd (m_pc ?st) i ?x] => rewrite (sum_same (fun j => weight (upd (m_pc st) i x j)) (fun j => weight (m_pc st j))) end;
          [destruct o; cbn [start weight]; lia|]. intros j Hj. rewrite upd_ne; [reflexivity|]. intros ->. contradiction. }
      all: split; [exact ND|]; match goal with P : m_pc ?st ?i = _ |- context [upd (m_pc ?st) ?i ?x] =>
        pose proof (M tr st i x Rn ND ltac:(rewrite P; discriminate)) as E; rewrite P in E; cbn [weight] in E; lia end.
  Qed.
  Theorem sync_bound n tr s : steps step DataMap.init n tr s -> n <= 5 * List.length (called tr).
  Proof. intros H. destruct (counted _ _ _ H) as [_ B]. etransitivity; [exact B|]. apply sum_le. intros i. destruct (m_pc s i); cbn; lia. Qed.
End Rest.
