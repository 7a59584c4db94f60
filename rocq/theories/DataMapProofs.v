(* The data maps answer as their history says. *)
From Coq Require Import List Arith Bool ZArith String Lia.
From Verif Require Import Lts RWLock RWLockProofs DataMap DataMapSpec.
From stdpp Require Import gmap strings.
Import ListNotations.

Lemma wrap32_add a b : wrap32 (wrap32 a + b) = wrap32 (a + b).
Proof.
  unfold wrap32. f_equal. replace ((a + 2 ^ 31) mod 2 ^ 32 - 2 ^ 31 + b + 2 ^ 31)%Z with ((a + 2 ^ 31) mod 2 ^ 32 + b)%Z by lia.
  rewrite Zplus_mod_idemp_l. f_equal. lia.
Qed.
Lemma wrap32_id n : (0 <= n < 2 ^ 31)%Z -> wrap32 n = n.
Proof. intros H. unfold wrap32. rewrite Z.mod_small; lia. Qed.

Section Proofs.
  Context {V : Type}.
  Notation entry := (nat * op V * res V)%type.
  Notation event := (RWLock.event (op V) (res V)).
  Notation history := (RWLock.history (@perform V)).
  Implicit Types (m : gmap string V) (h : list entry) (tr : list event).

  Lemma value_app k c h1 h2 : value_from k c (h1 ++ h2) = value_from k (value_from k c h1) h2.
  Proof. revert c. induction h1 as [|[[i o] r] h1 IH]; intros c; [reflexivity|]. destruct o; cbn; apply IH. Qed.
  Lemma lookup_set (k k' : string) v m : <[k' := v]> m !! k = if String.eqb k k' then Some v else m !! k.
  Proof. destruct (String.eqb_spec k k') as [->|H]; [apply lookup_insert|apply lookup_insert_ne; congruence]. Qed.
  Lemma lookup_del (k k' : string) m : delete k' m !! k = if String.eqb k k' then None else m !! k.
  Proof. destruct (String.eqb_spec k k') as [->|H]; [apply lookup_delete|apply lookup_delete_ne; congruence]. Qed.
  Lemma history_value m h m' k : history m h m' -> m' !! k = value_from k (m !! k) h.
  Proof.
    induction 1 as [|m i o r m1 h m2 E H IH]; [reflexivity|]. rewrite IH.
    destruct o; cbn in E |- *; inversion E; subst; rewrite ?lookup_set, ?lookup_del; reflexivity.
  Qed.
  Lemma history_split m p i o r q m' : history m (p ++ (i, o, r) :: q) m' -> exists m1, history m p m1 /\ r = snd (perform o m1).
  Proof.
    revert m. induction p as [|[[j o'] r'] p IH]; intros m H; inversion H; subst.
    - exists m. split; [constructor|]. match goal with E : perform o m = _ |- _ => now rewrite E end.
    - match goal with E : history _ (p ++ _) _ |- _ => destruct (IH _ E) as (m1 & A & B) end. exists m1. split; [|exact B]. econstructor; eauto.
  Qed.
  Definition agrees m h := forall k, m !! k = value_of k h.
  Lemma agrees_count m h : agrees m h -> key_count h (Z.of_nat (size m)).
  Proof.
    intros A. exists (map fst (map_to_list m)). split; [|split].
    - apply NoDup_ListNoDup. apply NoDup_fst_map_to_list.
    - intros k. rewrite <- A. rewrite <- elem_of_list_In, elem_of_list_fmap. split.
      + intros ([k' v] & -> & Hk). apply elem_of_map_to_list in Hk. cbn. rewrite Hk. discriminate.
      + intros Hk. destruct (m !! k) as [v|] eqn:E; [|contradiction]. exists (k, v). split; [reflexivity|]. now apply elem_of_map_to_list.
    - rewrite map_length. reflexivity.
  Qed.
  Lemma agrees_right m h o : agrees m h -> right h o (snd (perform o m)).
  Proof.
    intros A. destruct o as [k v|k|k|k|]; cbn.
    - reflexivity.
    - now rewrite A.
    - eexists. split; [reflexivity|]. rewrite A. destruct (value_of k h); split; try congruence; discriminate.
    - reflexivity.
    - eexists. split; [reflexivity|]. now apply agrees_count.
  Qed.
  Theorem history_right h m : history ∅ h m -> all_right h.
  Proof.
    intros H p i o r q ->. apply history_split in H as (m1 & H & ->). apply agrees_right.
    intros k. rewrite (history_value _ _ _ k H). now rewrite lookup_empty.
  Qed.

  (* simpleDataMap: calls one after another *)
  Fixpoint run (m : gmap string V) (os : list (op V)) : list entry :=
    match os with [] => [] | o :: os' => (0, o, snd (perform o m)) :: run (fst (perform o m)) os' end.
  Theorem simple_right os : all_right (run ∅ os).
  Proof.
    assert (G : forall m, exists m', history m (run m os) m').
    { induction os as [|o os IH]; intros m; [exists m; constructor|]. destruct (IH (fst (perform o m))) as (m' & H).
      exists m'. cbn. econstructor; [|exact H]. now destruct (perform o m). }
    destruct (G ∅) as (m' & H). exact (history_right _ _ H).
  Qed.

  Lemma modifiers_lock (o : op V) : DataMap.mutates o = true -> writes o = true.
  Proof. destruct o; cbn; intros H; solve [reflexivity | discriminate H]. Qed.
  Theorem locked_right tr s : locked_runs ∅ tr s -> all_right (accesses tr).
  Proof. intros H. eapply history_right. exact (sequential _ _ _ modifiers_lock _ _ _ H). Qed.

  (* ---- syncDataMap ---- *)
  Notation step := (@DataMap.step V). Notation sync_runs := (@sync_runs V).
  Implicit Types (s : state V).
  Inductive stage (i : nat) : list event -> pc V -> Prop :=
  | t_idle : stage i [] PIdle
  | t_sh k v : stage i [ECall i (OSet k v)] (PSetHas k v)
  | t_sa k v : stage i [ECall i (OSet k v)] (PSetAdd k v)
  | t_ss k v : stage i [ECall i (OSet k v)] (PSetStore k v)
  | t_g k : stage i [ECall i (OGet k)] (PGet k)
  | t_h k : stage i [ECall i (OHas k)] (PHas k)
  | t_rh k : stage i [ECall i (ORemove k)] (PRmHas k)
  | t_rd k : stage i [ECall i (ORemove k)] (PRmDel k)
  | t_ra k : stage i [ECall i (ORemove k); EDo i (ORemove k) RUnit] (PRmAdd k)
  | t_l : stage i [ECall i OLen] PLen
  | t_ret o r : stage i [ECall i o; EDo i o r] (PRet o r)
  | t_done o r : stage i [ECall i o; EDo i o r; ERet i o r] PDone.
  Lemma stage_inv i l p : stage i l p -> match p with
    | PIdle => l = [] | PSetHas k v | PSetAdd k v | PSetStore k v => l = [ECall i (OSet k v)]
    | PGet k => l = [ECall i (OGet k)] | PHas k => l = [ECall i (OHas k)] | PRmHas k | PRmDel k => l = [ECall i (ORemove k)]
    | PRmAdd k => l = [ECall i (ORemove k); EDo i (ORemove k) RUnit] | PLen => l = [ECall i OLen]
    | PRet o r => l = [ECall i o; EDo i o r] | PDone => exists o r, l = [ECall i o; EDo i o r; ERet i o r] end.
  Proof. destruct 1; eauto. Qed.
  Notation proj := (@RWLockProofs.proj (op V) (res V)).

  Record inv tr s : Prop := mkInv {
    i_stage : forall i, stage i (proj i tr) (m_pc s i);
    i_agree : agrees (m_map s) (accesses tr);
    i_right : all_right_but_len (accesses tr) }.
  Ltac dpc i j := destruct (Nat.eq_dec j i) as [->|?]; [rewrite ?(upd_eq _ i)|rewrite ?(upd_ne _ i j) by assumption].
  Lemma right_snoc h i o r : all_right_but_len h -> (o <> OLen -> right h o r) -> all_right_but_len (h ++ [(i, o, r)]).
  Proof.
    intros A R p j o' r' q E N. destruct (rev q) as [|z q'] eqn:Q.
    - assert (q = []) as -> by (rewrite <- (rev_involutive q), Q; reflexivity). apply app_inj_tail in E as [-> E]. inversion E; subst. auto.
    - assert (q = rev q' ++ [z]) as -> by (rewrite <- (rev_involutive q), Q; reflexivity).
      rewrite app_comm_cons, app_assoc in E. apply app_inj_tail in E as [-> _]. eapply A; eauto.
  Qed.
  Lemma agrees_app m h x : (forall k, value_from k (m !! k) x = m !! k) -> agrees m h -> agrees m (h ++ x).
  Proof. intros E A k. unfold value_of. rewrite value_app. fold (value_of k h). rewrite <- A. symmetry. apply E. Qed.
  Lemma agrees_silent m h a : (match a with EDo _ (OSet _ _) _ | EDo _ (ORemove _) _ => False | _ => True end) -> agrees m h -> agrees m (h ++ did a).
  Proof. intros Ha. apply agrees_app. intros k. destruct a as [| ? o r| |]; try reflexivity. destruct o; try contradiction; reflexivity. Qed.
  Ltac stg i j Is S1 P := rewrite ?proj_snoc; cbn [about]; dpc i j;
    [rewrite ?Nat.eqb_refl, S1; try constructor|rewrite ?eqb_ne, ?app_nil_r by assumption; apply Is].
  Lemma step_inv tr s l s' : inv tr s -> step s l s' -> inv (match l with None => tr | Some a => tr ++ [a] end) s'.
  Proof.
    intros [Is Ia Ir] St. destruct St; pose proof (stage_inv _ _ _ (Is i)) as S1;
      match goal with P : m_pc _ _ = _ |- _ => rewrite P in S1 end;
      (constructor; cbn [set_pc m_map m_size m_pc]; [intros j| |]).
    1: { stg i j Is S1 H. destruct o; constructor. }
    1: { rewrite acc_snoc. apply agrees_silent; [exact I|assumption]. }
    1: { rewrite acc_snoc. cbn. now rewrite app_nil_r. }
    1: { stg i j Is S1 H. }
    1: { rewrite acc_snoc. apply agrees_silent; [exact I|assumption]. }
    1: { rewrite acc_snoc. cbn. now rewrite app_nil_r. }
    1: { dpc i j; [rewrite S1; destruct (has s k); constructor|apply Is]. }
    1,2: assumption.
    1: { stg i j Is S1 H. }
    1,2: assumption.
    1: { stg i j Is S1 H. }
    1: { rewrite acc_snoc. intros k'. cbn [did]. unfold value_of. rewrite value_app. fold (value_of k' (accesses tr)). cbn. rewrite lookup_set, Ia. reflexivity. }
    1: { rewrite acc_snoc. apply right_snoc; [assumption|]. reflexivity. }
    1: { stg i j Is S1 H. }
    1: { rewrite acc_snoc. apply agrees_silent; [exact I|assumption]. }
    1: { rewrite acc_snoc. apply right_snoc; [assumption|]. intros _. exact (agrees_right _ _ (OGet k) Ia). }
    1: { stg i j Is S1 H. }
    1: { rewrite acc_snoc. apply agrees_silent; [exact I|assumption]. }
    1: { rewrite acc_snoc. apply right_snoc; [assumption|]. intros _. exact (agrees_right _ _ (OHas k) Ia). }
    1: { stg i j Is S1 H. }
    1,2: assumption.
    1: { stg i j Is S1 H. }
    1: { rewrite acc_snoc. apply agrees_app; [|assumption]. intros k'. cbn. destruct (String.eqb_spec k' k) as [->|N]; [|reflexivity].
         unfold has in *. destruct (m_map s !! k); [discriminate|reflexivity]. }
    1: { rewrite acc_snoc. apply right_snoc; [assumption|]. reflexivity. }
    1: { stg i j Is S1 H. }
    1: { rewrite acc_snoc. intros k'. cbn [did]. unfold value_of. rewrite value_app. fold (value_of k' (accesses tr)). cbn. rewrite lookup_del, Ia. reflexivity. }
    1: { rewrite acc_snoc. apply right_snoc; [assumption|]. reflexivity. }
    1: { stg i j Is S1 H. }
    1,2: assumption.
    1: { stg i j Is S1 H. }
    1: { rewrite acc_snoc. apply agrees_silent; [exact I|assumption]. }
    1: { rewrite acc_snoc. apply right_snoc; [assumption|]. intros N. contradiction. }
  Qed.
  Lemma inv_init : inv [] init.
  Proof. constructor; [intros; constructor|intros k; apply lookup_empty|]. intros p i o r q E. now destruct p. Qed.
  Lemma sync_inv tr s : sync_runs tr s -> inv tr s.
  Proof.
    intros H. eapply (exec_inv step); [apply inv_init| | |exact H].
    - intros ? ? ? I St. exact (step_inv _ _ _ _ I St).
    - intros ? ? ? ? I St. exact (step_inv _ _ _ _ I St).
  Qed.
  Lemma get_eq s i k r : m_pc s i = PGet k -> RGet (m_map s !! k) = r -> step s (Some (EDo i (OGet k) r)) (set_pc s i (PRet (OGet k) r)).
  Proof. intros A <-. now constructor. Qed.
  Lemma len_eq s i r : m_pc s i = PLen -> RLen (m_size s) = r -> step s (Some (EDo i OLen r)) (set_pc s i (PRet OLen r)).
  Proof. intros A <-. now constructor. Qed.
  Theorem sync_right tr s : sync_runs tr s -> all_right_but_len (accesses tr).
  Proof. intros H. exact (i_right _ _ (sync_inv _ _ H)). Qed.
  Theorem sync_returned tr s i o r : sync_runs tr s -> In (ERet i o r) tr -> proj i tr = [ECall i o; EDo i o r; ERet i o r].
  Proof.
    intros H Hin. pose proof (stage_inv _ _ _ (i_stage _ _ (sync_inv _ _ H) i)) as S1.
    assert (Z : In (ERet i o r) (proj i tr)) by (unfold RWLockProofs.proj; apply filter_In; cbn; now rewrite Nat.eqb_refl).
    destruct (m_pc s i); rewrite ?S1 in Z; cbn in Z; try (decompose [or] Z; try discriminate; contradiction).
    destruct S1 as (o' & r' & S1). rewrite S1 in Z |- *. cbn in Z. decompose [or] Z; try discriminate; [|contradiction]. congruence.
  Qed.

  (* Len with one writer at a time *)
  Definition busy (p : pc V) : bool := match p with
    | PSetHas _ _ | PSetAdd _ _ | PSetStore _ _ | PRmHas _ | PRmDel _ | PRmAdd _ | PRet (OSet _ _) _ | PRet (ORemove _) _ => true | _ => false end.
  Definition count m : Z := Z.of_nat (size m).
  Definition sized (p : pc V) m (n : Z) : Prop := match p with
    | PSetAdd k v => n = wrap32 (count m) /\ m !! k = None
    | PSetStore k v => n = wrap32 (count (<[k := v]> m))
    | PRmDel k => n = wrap32 (count m) /\ m !! k <> None
    | PRmAdd _ => n = wrap32 (count m + 1)
    | _ => n = wrap32 (count m) end.
  Definition owned (w : option nat) s : Prop :=
    (forall i, busy (m_pc s i) = true -> w = Some i) /\ match w with Some i => sized (m_pc s i) (m_map s) (m_size s) | None => m_size s = wrap32 (count (m_map s)) end.
  Lemma count_insert m k v : count (<[k := v]> m) = (match m !! k with Some _ => count m | None => count m + 1 end)%Z.
  Proof. unfold count. destruct (m !! k) eqn:E; [rewrite map_size_insert_Some by eauto; reflexivity|rewrite map_size_insert_None by assumption; lia]. Qed.
  Lemma count_delete m k : m !! k <> None -> (count (delete k m) + 1 = count m)%Z.
  Proof. intros E. destruct (m !! k) as [v|] eqn:F; [|contradiction]. rewrite <- (insert_delete m k v F) at 2. rewrite count_insert, lookup_delete. reflexivity. Qed.
  Lemma sized_rest p m n : busy p = false -> sized p m n -> n = wrap32 (count m).
  Proof. destruct p; cbn; auto; discriminate. Qed.
  Lemma one_writer_pre tr a : one_writer (tr ++ [a]) -> one_writer tr.
  Proof. intros O pre i o post -> . apply (O pre i o (post ++ [a])). rewrite <- app_assoc. reflexivity. Qed.
  Lemma busy_called tr s i : inv tr s -> busy (m_pc s i) = true -> exists o, mutates o /\ In (ECall i o) tr /\ forall r, ~ In (ERet i o r) tr.
  Proof.
    intros [Is _ _] B. pose proof (stage_inv _ _ _ (Is i)) as S1.
    assert (G : forall o l, proj i tr = ECall i o :: l -> (l = [] \/ exists r, l = [EDo i o r]) -> mutates o -> exists o, mutates o /\ In (ECall i o) tr /\ forall r, ~ In (ERet i o r) tr).
    { intros o l E L M. exists o. split; [exact M|]. assert (Z : In (ECall i o) (proj i tr)) by (rewrite E; now left).
      apply filter_In in Z as [Z _]. split; [exact Z|]. intros r R.
      assert (Y : In (ERet i o r) (proj i tr)) by (apply filter_In; cbn; now rewrite Nat.eqb_refl). rewrite E in Y.
      destruct L as [->|[r' ->]]; cbn in Y; intuition discriminate. }
    destruct (m_pc s i); try discriminate; try (eapply G; [exact S1|eauto|exact I]).
    destruct o; try discriminate; (eapply G; [exact S1|eauto|exact I]).
  Qed.
  Definition sinv tr s := inv tr s /\ (one_writer tr -> exists w, owned w s).
  Lemma owned_other w s i p : owned w s -> busy (m_pc s i) = false -> busy p = false -> owned w (set_pc s i p).
  Proof.
    intros [B Z] Bi Bp. split; cbn.
    - intros j. dpc i j; [congruence|]. apply B.
    - destruct w as [j|]; [|exact Z]. dpc i j; [|exact Z]. pose proof (sized_rest _ _ _ Bi Z) as E. destruct p; cbn; auto; discriminate.
  Qed.
  Lemma owned_own w s i m' n' p : owned w s -> busy (m_pc s i) = true -> (sized (m_pc s i) (m_map s) (m_size s) -> sized p m' n') -> owned (Some i) (mkM m' n' (upd (m_pc s) i p)).
  Proof.
    intros [B Z] Bi Hs. pose proof (B _ Bi) as ->. split; cbn.
    - intros j. dpc i j; [reflexivity|]. apply B.
    - rewrite upd_eq. auto.
  Qed.
  Lemma sstep tr s l s' : sinv tr s -> step s l s' -> sinv (match l with None => tr | Some a => tr ++ [a] end) s'.
  Proof.
    intros [I W] St. split; [exact (step_inv _ _ _ _ I St)|]. intros O.
    assert (O' : one_writer tr) by (destruct l; [exact (one_writer_pre _ _ O)|exact O]).
    destruct (W O') as [w Ow]. destruct St.
    - (* call *) destruct (busy (start o)) eqn:Bs.
      + assert (M : mutates o) by (destruct o; try discriminate; exact Logic.I).
        assert (F : forall j, busy (m_pc s j) = false).
        { intros j. destruct (busy (m_pc s j)) eqn:Bj; [|reflexivity]. exfalso. destruct (busy_called _ _ _ I Bj) as (o' & M' & C & N).
          destruct (O tr i o [] eq_refl M j o' C M') as [r R]. exact (N r R). }
        exists (Some i). split; cbn.
        * intros j. dpc i j; [reflexivity|]. rewrite F. discriminate.
        * rewrite upd_eq. destruct Ow as [_ Z]. assert (E : m_size s = wrap32 (count (m_map s))).
          { destruct w as [j|]; [exact (sized_rest _ _ _ (F j) Z)|exact Z]. }
          destruct o; cbn in *; auto; discriminate.
      + exists w. apply owned_other; auto. rewrite H. reflexivity.
    - (* ret *) destruct (busy (m_pc s i)) eqn:B.
      + exists (Some i). eapply owned_own; [exact Ow|exact B|]. rewrite H. cbn. auto.
      + exists w. apply owned_other; auto.
    - exists (Some i). eapply owned_own; [exact Ow|now rewrite H|]. rewrite H. cbn. unfold has. intros E.
      destruct (m_map s !! k) eqn:F; cbn; [now rewrite count_insert, F|auto].
    - exists (Some i). eapply owned_own; [exact Ow|now rewrite H|]. rewrite H. cbn. intros [-> E]. rewrite wrap32_add, count_insert, E. reflexivity.
    - exists (Some i). eapply owned_own; [exact Ow|now rewrite H|]. rewrite H. cbn. auto.
    - exists w. apply owned_other; auto. now rewrite H.
    - exists w. apply owned_other; auto. now rewrite H.
    - exists (Some i). eapply owned_own; [exact Ow|now rewrite H|]. rewrite H. cbn. intros E. split; [exact E|]. unfold has in *. destruct (m_map s !! k); discriminate.
    - exists (Some i). eapply owned_own; [exact Ow|now rewrite H|]. rewrite H. cbn. auto.
    - exists (Some i). eapply owned_own; [exact Ow|now rewrite H|]. rewrite H. cbn. intros [-> E]. now rewrite count_delete.
    - exists (Some i). eapply owned_own; [exact Ow|now rewrite H|]. rewrite H. cbn. intros ->.
      unfold Z.sub. rewrite wrap32_add. f_equal. lia.
    - exists w. apply owned_other; auto. now rewrite H.
  Qed.
  Lemma sync_sinv tr s : sync_runs tr s -> sinv tr s.
  Proof.
    intros H. eapply (exec_inv step); [| | |exact H].
    - split; [apply inv_init|]. intros _. exists None. split; [discriminate|]. reflexivity.
    - intros ? ? ? I St. exact (sstep _ _ _ _ I St).
    - intros ? ? ? ? I St. exact (sstep _ _ _ _ I St).
  Qed.
  (* a Len that reads while no writer is at work reports the number of keys *)
  Theorem sync_len pre i n post s : sync_runs (pre ++ EDo i OLen (RLen n) :: post) s -> one_writer pre -> quiet pre ->
    exists k, key_count (accesses pre) k /\ n = wrap32 k.
  Proof.
    intros H O Q. apply exec_split in H as (s1 & s2 & Rn & St & _). destruct (sync_sinv _ _ Rn) as [I W]. destruct (W O) as [w [B Z]].
    assert (F : forall j, busy (m_pc s1 j) = false).
    { intros j. destruct (busy (m_pc s1 j)) eqn:Bj; [|reflexivity]. exfalso. destruct (busy_called _ _ _ I Bj) as (o' & M' & C & N).
      destruct (Q _ _ C M') as [r R]. exact (N r R). }
    exists (count (m_map s1)). split; [exact (agrees_count _ _ (i_agree _ _ I))|].
    inversion St; subst. destruct w as [j|]; [exact (sized_rest _ _ _ (F j) Z)|exact Z].
  Qed.
End Proofs.
