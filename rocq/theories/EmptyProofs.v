(* C103: emptied values and absent ones. *)
From Verif Require Import Base BaseFacts IntSpec IndexSpec ListSpec Resp Command SpecDb RequestSpec CommandProofs Db DbProofs Engine EngineProofs IdealSpec SpecFacts EngineFacts SizeProofs Recovery RecoverySpec RecoveryProofs OrderProofs DetSpec DetProofs EmptySpec.
From Coq Require Import ZArith List Lia.
From stdpp Require Import gmap.
Open Scope Z_scope.

Lemma sbe_refl s : same_but_empty s s. Proof. repeat split. Qed.
Lemma sbe_sym s s' : same_but_empty s s' -> same_but_empty s' s.
Proof. intros (A & B & C & D). repeat split; intros; symmetry; auto. Qed.
Lemma sbe_ss s s' x : same_but_empty s s' -> same_but_empty (with_ss s x) (with_ss s' x).
Proof. intros (A & B & C & D). repeat split; cbn; auto. Qed.
Lemma sbe_sl s s' k l : same_but_empty s s' -> same_but_empty (with_sl s (<[k := l]> (sl s))) (with_sl s' (<[k := l]> (sl s'))).
Proof. intros (A & B & C & D). repeat split; cbn; auto. intros j. destruct (decide (k = j)) as [->|N]; [now rewrite !lookup_insert|rewrite !lookup_insert_ne by exact N; auto]. Qed.
Lemma sbe_sh s s' k l : same_but_empty s s' -> same_but_empty (with_sh s (<[k := l]> (sh s))) (with_sh s' (<[k := l]> (sh s'))).
Proof. intros (A & B & C & D). repeat split; cbn; auto. intros j. destruct (decide (k = j)) as [->|N]; [now rewrite !lookup_insert|rewrite !lookup_insert_ne by exact N; auto]. Qed.
Lemma sbe_st s s' k l : same_but_empty s s' -> same_but_empty (with_st s (<[k := l]> (st s))) (with_st s' (<[k := l]> (st s'))).
Proof. intros (A & B & C & D). repeat split; cbn; auto. intros j. destruct (decide (k = j)) as [->|N]; [now rewrite !lookup_insert|rewrite !lookup_insert_ne by exact N; auto]. Qed.
Lemma sbe_sl1 s s' k : same_but_empty s s' -> default [] (sl s' !! k) = [] -> same_but_empty (with_sl s (<[k := []]> (sl s))) s'.
Proof. intros (A & B & C & D) E. repeat split; cbn; auto. intros j. destruct (decide (k = j)) as [->|N]; [now rewrite lookup_insert, E|rewrite lookup_insert_ne by exact N; auto]. Qed.
Lemma sbe_sh1 s s' k : same_but_empty s s' -> default ∅ (sh s' !! k) = ∅ -> same_but_empty (with_sh s (<[k := ∅]> (sh s))) s'.
Proof. intros (A & B & C & D) E. repeat split; cbn; auto. intros j. destruct (decide (k = j)) as [->|N]; [now rewrite lookup_insert, E|rewrite lookup_insert_ne by exact N; auto]. Qed.
Lemma sbe_st1 s s' k : same_but_empty s s' -> default ∅ (st s' !! k) = ∅ -> same_but_empty (with_st s (<[k := ∅]> (st s))) s'.
Proof. intros (A & B & C & D) E. repeat split; cbn; auto. intros j. destruct (decide (k = j)) as [->|N]; [now rewrite lookup_insert, E|rewrite lookup_insert_ne by exact N; auto]. Qed.
Definition outs (o o' : outcome) : Prop :=
  match o, o' with Some (s, r), Some (s', r') => same_but_empty s s' /\ r = r' | None, None => True | _, _ => False end.
Lemma outs_says s s' r : same_but_empty s s' -> outs (says s r) (says s' r). Proof. intros H. now split. Qed.
Lemma outs_errs s s' r : same_but_empty s s' -> outs (errs s r) (errs s' r). Proof. intros H. now split. Qed.
Ltac fin := first [apply outs_says | apply outs_errs]; first [assumption | apply sbe_ss; assumption | apply sbe_sl; assumption | apply sbe_sh; assumption | apply sbe_st; assumption].
Lemma map_sets s s' ks : (forall k, set_or_empty s k = set_or_empty s' k) -> map (set_or_empty s) ks = map (set_or_empty s') ks.
Proof. intros H. induction ks as [|k ks IH]; [reflexivity|]. cbn. now rewrite H, IH. Qed.
Lemma sets_eqv op s s' ks o : same_but_empty s s' -> spec_sets op s ks o -> exists o', spec_sets op s' ks o' /\ outs o o'.
Proof.
  intros E H. assert (M : map (set_or_empty s) ks = map (set_or_empty s') ks) by (apply map_sets; apply E). unfold spec_sets in *. rewrite M in H. destruct (map (set_or_empty s') ks) as [|X Xs].
  - subst. eexists. split; [reflexivity|]. fin.
  - cbv zeta in *. destruct H as [[R ->]|[R (l & L & ->)]]; eexists; (split; [|apply outs_says; exact E]); [left|right]; eauto.
Qed.
Lemma arith_eqv f s s' k a o : same_but_empty s s' -> spec_arith f s k a o -> exists o', spec_arith f s' k a o' /\ outs o o'.
Proof.
  intros E H. pose proof E as (S & _). unfold spec_arith in *. rewrite S in H. destruct H as [(n & N & H)|[N H]].
  - destruct (ss s' !! k) as [t|] eqn:K.
    + destruct H as [(v & t' & V & T & ->)|[V ->]].
      * exists (says (with_ss s' (<[k := t']> (ss s'))) (RInt (wrap64 (f v n)))). split; [left; exists n; split; [exact N|]; left; exists v, t'; auto|]. fin.
      * exists (errs s' ENotInt). split; [left; exists n; split; [exact N|]; right; auto|]. fin.
    + subst. exists (errs s' ENoKey). split; [left; exists n; auto|]. fin.
  - subst. exists (errs s' EInternal). split; [right; auto|]. fin.
Qed.
Lemma seg_nil a b : seg_sel a b [] = None.
Proof. unfold seg_sel. cbn [length]. cbv zeta. destruct (0 <=? _) eqn:A; [|reflexivity]. apply Z.leb_le in A. rewrite (proj2 (Z.ltb_ge _ _)) by exact A. reflexivity. Qed.
Lemma lrem_nil n v : lrem_spec n v [] = [].
Proof. unfold lrem_spec, remove_last. cbn [length rev]. destruct (n =? 0); [reflexivity|]. destruct (0 <? n); destruct (Z.to_nat _); reflexivity. Qed.
Lemma none_left : (∅ : gset bytes) ∖ list_to_set [] = ∅.
Proof. set_solver. Qed.
Lemma spec_eqv s s' c o : same_but_empty s s' -> ~ tells c -> spec s c o -> exists o', spec s' c o' /\ outs o o'.
Proof.
  intros E T H. pose proof E as (ES & EL & EH & ET). assert (EL' : forall k, list_or_nil s k = list_or_nil s' k) by exact EL. assert (ET' : forall k, set_or_empty s k = set_or_empty s' k) by exact ET.
  destruct c; cbn [tells] in T; try (destruct (T I)); cbn [spec] in *; try (eapply sets_eqv; eassumption); try (eapply arith_eqv; eassumption);
    rewrite ?ES, ?EL', ?EH, ?ET' in H; try (subst; eexists; split; [reflexivity|fin]); cbv zeta in *;
    try (case_bool_decide; subst; eexists; (split; [reflexivity|fin]); fail).
  - specialize (EL k). destruct (sl s !! k) as [[|x l]|], (sl s' !! k) as [[|x' l']|]; cbn in EL; try discriminate EL; try injection EL as <- <-; subst; eexists; (split; [reflexivity|fin]).
  - destruct (list_or_nil s' k) as [|x l] eqn:K; [subst; eexists; split; [reflexivity|fin]|]. destruct H as (vs & v & A & ->).
    assert (A' : sl s' !! k = Some (vs ++ [v])).
    { unfold list_or_nil in K. specialize (EL k). rewrite A in EL. destruct (sl s' !! k) as [l'|]; cbn in EL; [now rewrite EL|]. destruct vs; discriminate EL. }
    eexists. split; [exists vs, v; split; [exact A'|reflexivity]|fin].
  - destruct (seg_sel a b (list_or_nil s' k)); subst; eexists; (split; [reflexivity|fin]).
  - rewrite bool_decide_false by exact T. assert (F : forall l, (if count =? - 2 ^ 63 then o = says s (RInt 0) else if bool_decide (v = reserved) then (if (count =? 0) && bool_decide (l = []) then o = says s (RInt 0) else o = None) else o = says (with_sl s (<[k := lrem_spec count v l]> (sl s))) (RInt (Z.of_nat (length l) - Z.of_nat (length (lrem_spec count v l))))) -> (if count =? - 2 ^ 63 then o = says s (RInt 0) else o = says (with_sl s (<[k := lrem_spec count v l]> (sl s))) (RInt (Z.of_nat (length l) - Z.of_nat (length (lrem_spec count v l)))))) by (intros l; rewrite bool_decide_false by exact T; auto).
    pose proof (EL k) as K. destruct (sl s !! k) as [l|] eqn:A; [apply F in H|]; destruct (sl s' !! k) as [l'|] eqn:A'; cbn in K; subst; try destruct (count =? - 2 ^ 63); subst; rewrite ?lrem_nil; try (eexists; split; [reflexivity|fin]).
    + eexists. split; [reflexivity|]. apply outs_says, sbe_sl1; [exact E|now rewrite A'].
    + eexists. split; [reflexivity|]. apply outs_says, sbe_sym, sbe_sl1; [now apply sbe_sym|now rewrite A].
  - pose proof (EL k) as K. destruct (sl s !! k) as [l|] eqn:A, (sl s' !! k) as [l'|] eqn:A'; cbn in K; subst; rewrite ?seg_nil in *; try destruct (seg_sel a b _); subst; eexists; (split; [reflexivity|fin]).
  - case_bool_decide; [subst; exists None; split; [reflexivity|exact I]|]. case_bool_decide; subst; eexists; (split; [reflexivity|fin]).
  - rewrite bool_decide_false by exact T. specialize (EH k). destruct (sh s !! k) as [h|], (sh s' !! k) as [h'|]; cbn in EH; try rewrite bool_decide_false in H by exact T; subst; rewrite ?lookup_empty; eexists; (split; [reflexivity|fin]).
  - rewrite bool_decide_false by exact T. specialize (EH k). destruct (sh s !! k) as [h|], (sh s' !! k) as [h'|]; cbn in EH; try rewrite bool_decide_false in H by exact T; subst; rewrite ?lookup_empty; eexists; (split; [reflexivity|fin]).
  - rewrite bool_decide_false by exact T. specialize (EH k). destruct (sh s !! k) as [h|], (sh s' !! k) as [h'|]; cbn in EH; try rewrite bool_decide_false in H by exact T; subst; rewrite ?lookup_empty; eexists; (split; [reflexivity|fin]).
  - pose proof (EH k) as K. destruct (sh s !! k) as [h|] eqn:A, (sh s' !! k) as [h'|] eqn:A'; cbn in K; subst.
    + destruct H as (h1 & H1 & ->). eexists. split; [exists h1; split; [exact H1|reflexivity]|fin].
    + destruct H as (h1 & H1 & ->). assert (h1 = ∅) as -> by (apply map_eq; intros f; rewrite H1, !lookup_empty; now case_bool_decide). eexists. split; [reflexivity|]. rewrite dom_empty_L, intersection_empty_r_L, size_empty. apply outs_says, sbe_sh1; [exact E|now rewrite A'].
    + exists (says (with_sh s' (<[k := ∅]> (sh s'))) (RInt 0)). split; [exists ∅; split; [intros f; rewrite !lookup_empty; now case_bool_decide|now rewrite dom_empty_L, intersection_empty_r_L, size_empty]|]. apply outs_says, sbe_sym, sbe_sh1; [now apply sbe_sym|now rewrite A].
    + eexists. split; [reflexivity|fin].
  - case_bool_decide; subst; [exists None; split; [reflexivity|exact I]|]. eexists; (split; [reflexivity|fin]).
  - rewrite bool_decide_false by exact T. specialize (ET k). destruct (st s !! k) as [h|], (st s' !! k) as [h'|]; cbn in ET; try rewrite bool_decide_false in H by exact T; subst; rewrite ?(bool_decide_false (v ∈ ∅)) by apply not_elem_of_empty; eexists; (split; [reflexivity|fin]).
  - case_bool_decide; subst; [exists None; split; [reflexivity|exact I]|]. eexists; (split; [reflexivity|fin]).
  - destruct count_set; [|now destruct T]. pose proof (ET k) as K. destruct (st s !! k) as [X|] eqn:A, (st s' !! k) as [X'|] eqn:A'; cbn in K; subst.
    + destruct H as (l & L & H). assert (P : exists r, pick_reply l true = Some r) by (destruct l; eexists; reflexivity). destruct P as [r P]. rewrite P in H. subst. eexists. split; [exists l; split; [exact L|]; rewrite P; reflexivity|fin].
    + destruct H as (l & L & H). apply picks_empty in L as ->. cbn [pick_reply] in H. subst. eexists. split; [reflexivity|]. rewrite none_left. apply outs_says, sbe_st1; [exact E|now rewrite A'].
    + exists (says (with_st s' (<[k := ∅]> (st s'))) RNullArr). split; [exists []; split; [|cbn [pick_reply]; now rewrite none_left]|].
      * split; [apply NoDup_nil_2|]. split; [intros x Hx; inversion Hx|]. rewrite size_empty. cbn [length]. lia.
      * apply outs_says, sbe_sym, sbe_st1; [now apply sbe_sym|now rewrite A].
    + eexists. split; [reflexivity|fin].
  - destruct count_set; [|now destruct T]. pose proof (ET k) as K. destruct (st s !! k) as [X|] eqn:A, (st s' !! k) as [X'|] eqn:A'; cbn in K; subst.
    + destruct H as (l & L & H). assert (P : exists r, pick_reply l true = Some r) by (destruct l; eexists; reflexivity). destruct P as [r P]. rewrite P in H. subst. eexists. split; [exists l; split; [exact L|]; rewrite P; reflexivity|fin].
    + destruct H as (l & L & H). apply picks_empty in L as ->. cbn [pick_reply] in H. subst. eexists. split; [reflexivity|fin].
    + exists (says s' RNullArr). split; [exists []; split; [|reflexivity]|fin].
      split; [apply NoDup_nil_2|]. split; [intros x Hx; inversion Hx|]. rewrite size_empty. cbn [length]. lia.
    + eexists. split; [reflexivity|fin].
Qed.
(* Requests and sequences of them. *)
Lemma answer_eqv s s' q o : same_but_empty s s' -> ~ told q -> answer s q o ->
  exists o', answer s' q o' /\ match o, o' with Some (s1, r), Some (s1', r') => same_but_empty s1 s1' /\ r = r' | None, None => True | _, _ => False end.
Proof.
  intros E T A. assert (N : forall c, asks q c -> ~ tells c) by (intros c H K; apply T; exists c; auto).
  inversion A; subst; try (eexists (Some (s', _)); split; [|split; [exact E|reflexivity]]; first [now apply a_ignored|eapply a_empty; eassumption|eapply a_nameless; eassumption|eapply a_unknown; eassumption|eapply a_invalid; eassumption]).
  - match goal with H : asks q ?c, K : spec s ?c _ |- _ => destruct (spec_eqv _ _ _ _ E (N _ H) K) as (o' & S & O) end. destruct o' as [[? ?]|]; [destruct O|]. exists None. split; [eapply a_crash; eassumption|exact I].
  - match goal with H : asks q ?c, K : spec s ?c _ |- _ => destruct (spec_eqv _ _ _ _ E (N _ H) K) as (o' & S & O) end. destruct o' as [[s1' r']|]; [|destruct O]. destruct O as [O <-]. eexists (Some (s1', _)). split; [eapply a_reply; eassumption|auto].
  - match goal with H : asks q ?c, K : spec s ?c _ |- _ => destruct (spec_eqv _ _ _ _ E (N _ H) K) as (o' & S & O) end. destruct o' as [[s1' r']|]; [|destruct O]. destruct O as [O <-]. eexists (Some (s1', _)). split; [eapply a_error; eassumption|auto].
Qed.
Lemma answers_eqv l : Forall (fun q => ~ told q) l -> forall s s' o, same_but_empty s s' -> answers s l o ->
  exists o', answers s' l o' /\ match o, o' with Some (s1, r), Some (s1', r') => same_but_empty s1 s1' /\ r = r' | None, None => True | _, _ => False end.
Proof.
  induction 1 as [|q l Hq _ IH]; intros s s' o E A; inversion A; subst.
  - eexists (Some (s', [])). split; [constructor|auto].
  - match goal with H : answer s q None |- _ => destruct (answer_eqv _ _ _ _ E Hq H) as ([[? ?]|] & S & O) end; [destruct O|]. exists None. split; [now apply as_crash|exact I].
  - match goal with H : answer s q (Some _) |- _ => destruct (answer_eqv _ _ _ _ E Hq H) as ([[s3 r3]|] & S & O) end; [|destruct O]. destruct O as [O <-].
    match goal with H : answers _ l _ |- _ => destruct (IH _ _ _ O H) as ([[s4 r4]|] & S4 & O4) end; [|destruct O4]. destruct O4 as [O4 <-]. eexists (Some (s4, _)). split; [eapply as_cons; eassumption|auto].
  - match goal with H : answer s q (Some _) |- _ => destruct (answer_eqv _ _ _ _ E Hq H) as ([[s3 r3]|] & S & O) end; [|destruct O]. destruct O as [O <-].
    match goal with H : answers _ l _ |- _ => destruct (IH _ _ _ O H) as ([[s4 r4]|] & S4 & O4) end; [destruct O4|]. exists None. split; [eapply as_later; eassumption|exact I].
Qed.
(* A run that goes on. *)
Lemma reached_bounded h d rs s : Forall (fun x => env_ok (fst x)) h -> requests_size (map snd h) < 2 ^ 62 -> run new_db h = Ret (d, rs) -> db_rel d s -> bounded (requests_size (map snd h)) s.
Proof.
  intros E S H D. pose proof (run_refines h E S) as R. rewrite H in R. destruct R as (s1 & D1 & A). rewrite (contents_unique _ _ _ D D1).
  assert (HB : forall l n s0 s1 rs1, bounded n s0 -> 0 <= n -> answers s0 l (Some (s1, rs1)) -> bounded (n + requests_size l) s1).
  { induction l as [|q l IH]; intros n s0 s2 rs1 Hb Hn Q; inversion Q; subst; cbn [requests_size].
    - now rewrite Z.add_0_r.
    - rewrite Z.add_assoc. eapply IH; eauto; [eapply answer_bounded; eauto|]. pose proof (request_size_nonneg q). lia. }
  apply (HB _ 0 _ _ _ bounded_empty ltac:(lia) A).
Qed.
Lemma goes_on h m d rs s : Forall (fun x => env_ok (fst x)) h -> Forall (fun x => env_ok (fst x)) m -> requests_size (map snd h) + requests_size (map snd m) < 2 ^ 62 ->
  run new_db h = Ret (d, rs) -> db_rel d s -> run_ok s m (run d m).
Proof.
  intros E E' S H D. pose proof (requests_size_nonneg (map snd h)). pose proof (requests_size_nonneg (map snd m)). apply (run_refines_n m (requests_size (map snd h))); [exact E'|exact D| |lia|exact S]. apply (reached_bounded h d rs); auto. lia.
Qed.
Theorem empty_alike h h' m m' d rs d' rs' s s' : Forall (fun x => env_ok (fst x)) (h ++ m) -> Forall (fun x => env_ok (fst x)) (h' ++ m') ->
  requests_size (map snd h) + requests_size (map snd m) < 2 ^ 62 -> requests_size (map snd h') + requests_size (map snd m) < 2 ^ 62 ->
  run new_db h = Ret (d, rs) -> run new_db h' = Ret (d', rs') -> db_rel d s -> db_rel d' s' -> same_but_empty s s' ->
  map snd m = map snd m' -> Forall (fun q => ~ told q) (map snd m) -> Forall (fun q => ~ pops q) (map snd m) ->
  match run d m, run d' m' with
  | Ret (d1, rs1), Ret (d1', rs1') => (exists s1 s1', db_rel d1 s1 /\ db_rel d1' s1' /\ same_but_empty s1 s1') /\ match_replies (map snd m) rs1 rs1'
  | Panic, Panic => True
  | _, _ => False
  end.
Proof.
  intros E E' S S' H H' D D' Q M T P. apply Forall_app in E as [E1 E2], E' as [E1' E2']. rewrite M in S'. pose proof (goes_on _ _ _ _ _ E1 E2 S H D) as R. pose proof (goes_on _ _ _ _ _ E1' E2' S' H' D') as R'. unfold run_ok in R, R'. rewrite <- M in R'.
  destruct (run d m) as [[d1 rs1]| |]; try contradiction.
  - destruct R as (s1 & D1 & A1). destruct (answers_eqv _ T _ _ _ Q A1) as ([[s2 rs2]|] & A2 & O); [|destruct O]. destruct O as [O <-].
    destruct (run d' m') as [[d1' rs1']| |]; try contradiction.
    + destruct R' as (s1' & D1' & A1'). destruct (answers_alike _ P _ _ _ A2 A1') as [<- K]. split; [eauto|exact K].
    + exact (answers_alike _ P _ _ _ A2 R').
  - destruct (answers_eqv _ T _ _ _ Q R) as ([[s2 rs2]|] & A2 & O); [destruct O|]. destruct (run d' m') as [[d1' rs1']| |]; try contradiction; [|exact I].
    destruct R' as (s1' & D1' & A1'). exact (answers_alike _ P _ _ _ A2 A1').
Qed.
