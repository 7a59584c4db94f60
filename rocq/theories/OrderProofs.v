From Verif Require Import Base BaseFacts IntSpec IndexSpec ListSpec IntParse IntParseProofs Resp RespSpec RespProofs StringC HashC HashProofs Command SpecDb RequestSpec CommandProofs
  IdealSpec Db DbProofs Engine EngineProofs SpecFacts EngineFacts Utf8 Utf8Spec Utf8Proofs Log LogSpec LogProofs Persist PersistSpec PersistProofs
  Replication ReplicationProofs Recovery RecoverySpec RecoveryProofs Node NodeSpec NodeProofs OrderSpec.
From Coq Require Import ZArith List Permutation Ascii String Bool Lia.
From stdpp Require Import gmap.
Open Scope Z_scope.

(* ---- a command depends only on the values it names ---- *)
Definition like (t : kind) (ks : list bytes) (s s' : sdb) (o o' : outcome) : Prop :=
  match o, o' with
  | None, None => True
  | Some (s1, r), Some (s1', r') => r = r' /\ forall k, k ∈ ks -> same_at t k s1 s1'
  | _, _ => False
  end.
Lemma put_pairs_same l : forall m m' (k : bytes), m !! k = m' !! k -> put_pairs m l !! k = put_pairs m' l !! k.
Proof.
  induction l as [|[a b] l IH]; intros m m' k H; auto. cbn [put_pairs]. apply IH. destruct (decide (a = k)) as [->|N].
  - now rewrite !lookup_insert.
  - now rewrite !lookup_insert_ne.
Qed.
Ltac give s' H :=
  match type of H with
  | _ = Some (with_ss _ (<[?k := ?v]> _), ?r) => exists (Some (with_ss s' (<[k := v]> (ss s')), r))
  | _ = Some (with_sl _ (<[?k := ?v]> _), ?r) => exists (Some (with_sl s' (<[k := v]> (sl s')), r))
  | _ = Some (with_sh _ (<[?k := ?v]> _), ?r) => exists (Some (with_sh s' (<[k := v]> (sh s')), r))
  | _ = Some (with_st _ (<[?k := ?v]> _), ?r) => exists (Some (with_st s' (<[k := v]> (st s')), r))
  | _ = Some (with_ss _ (put_pairs _ ?l), ?r) => exists (Some (with_ss s' (put_pairs (ss s') l), r))
  | _ = Some (_, ?r) => exists (Some (s', r))
  | _ = None => exists (@None (sdb * (robj + cerr)))
  end.
Lemma sets_local op (s s' : sdb) (ks : list bytes) (out : outcome) : (forall k, k ∈ ks -> st s !! k = st s' !! k) -> spec_sets op s ks out ->
  exists out', spec_sets op s' ks out' /\ like KSet ks s s' out out'.
Proof.
  intros HE H. assert (EM : map (set_or_empty s) ks = map (set_or_empty s') ks).
  { clear H. induction ks as [|k ks IH]; [reflexivity|]. cbn [map]. f_equal; [unfold set_or_empty; f_equal; apply HE; left|apply IH; intros j Hj; apply HE; now right]. }
  unfold spec_sets in *. rewrite EM in H. destruct (map (set_or_empty s') ks) as [|X Xs].
  - exists (says s' RNullArr). split; [reflexivity|]. rewrite H. cbn. auto.
  - cbv zeta in *. destruct H as [[E H]|[E (l & Hl & H)]].
    + exists (says s' RNullArr). split; [left; auto|]. rewrite H. cbn. auto.
    + exists (says s' (RArr (map RBulk l))). split; [right; split; [exact E|exists l; auto]|]. rewrite H. cbn. auto.
Qed.
Lemma spec_local (s s' : sdb) (c : cmd) (out : outcome) : (forall k, k ∈ names c -> same_at (kind_of c) k s s') -> spec s c out ->
  exists out', spec s' c out' /\ like (kind_of c) (names c) s s' out out'.
Proof.
  intros HE H.
  assert (K1 : forall k, names c = [k] -> same_at (kind_of c) k s s') by (intros k E; apply HE; rewrite E; left).
  unfold like.
  destruct c; cbn [spec kind_of names same_at] in *; try (specialize (K1 _ eq_refl); rename K1 into E);
    unfold list_or_nil, set_or_empty, spec_arith, errs, says in *; try rewrite E in H; cbv zeta in *.
  all: try (crunch H; give s' H; (split; [repeat match goal with H : ?x = _ |- context [?x] => rewrite H end; first [reflexivity|eauto 10]|]); rewrite H; clear H;
     try exact I; (split; [reflexivity|]);
      intros j Hj; apply elem_of_list_singleton in Hj as ->; cbn [with_ss with_sl with_sh with_st ss sl sh st]; rewrite ?lookup_insert; first [reflexivity|exact E|rewrite E; first [reflexivity|symmetry; assumption]]).
  - (* MSET *) crunch H; give s' H; (split; [reflexivity|]); rewrite H; clear H; (split; [reflexivity|]); intros j Hj; cbn [with_ss ss]; auto using put_pairs_same.
  - exists (Some (s', inl (RArr (map (fun k => r_opt (ss s' !! k)) ks)))). split; [reflexivity|]. rewrite H. split; [|exact HE]. do 2 f_equal.
    clear -HE. induction ks as [|k ks IH]; [reflexivity|]. cbn [map]. f_equal; [f_equal; apply HE; left|apply IH; intros j Hj; apply HE; now right].
  - exists (Some (s', inl (r_nat (length (filter (fun k => is_Some (ss s' !! k)) ks))))). split; [reflexivity|]. rewrite H. split; [|exact HE]. do 2 f_equal.
    clear -HE. induction ks as [|k ks IH]; [reflexivity|]. assert (IH' : length (filter (fun k => is_Some (ss s !! k)) ks) = length (filter (fun k => is_Some (ss s' !! k)) ks))
      by (apply IH; intros j Hj; apply HE; now right).
    rewrite !filter_cons, (HE k) by left. case_decide; cbn [length]; congruence.
  - (* SPOP *) destruct (st s' !! k) as [X|] eqn:EX.
    + destruct H as (l & Hp & H). destruct (pick_reply l count_set) as [r|] eqn:EP.
      * exists (Some (with_st s' (<[k := X ∖ list_to_set l]> (st s')), inl r)). split; [exists l; split; [exact Hp|]; now rewrite EP|]. rewrite H. split; [reflexivity|].
        intros j Hj. apply elem_of_list_singleton in Hj as ->. cbn [with_st st]. now rewrite !lookup_insert.
      * exists None. split; [exists l; split; [exact Hp|]; now rewrite EP|]. now rewrite H.
    + eexists. split; [reflexivity|]. rewrite H. split; [reflexivity|]. intros j Hj. apply elem_of_list_singleton in Hj as ->. now rewrite E, EX.
  - destruct (st s' !! k) as [X|] eqn:EX.
    + destruct H as (l & Hp & H). destruct (pick_reply l count_set) as [r|] eqn:EP.
      * exists (Some (s', inl r)). split; [exists l; split; [exact Hp|]; now rewrite EP|]. rewrite H. split; [reflexivity|].
        intros j Hj. apply elem_of_list_singleton in Hj as ->. now rewrite E, EX.
      * exists None. split; [exists l; split; [exact Hp|]; now rewrite EP|]. now rewrite H.
    + eexists. split; [reflexivity|]. rewrite H. split; [reflexivity|]. intros j Hj. apply elem_of_list_singleton in Hj as ->. now rewrite E, EX.
  - exact (sets_local _ s s' ks out HE H).
  - exact (sets_local _ s s' ks out HE H).
  - exact (sets_local _ s s' ks out HE H).
Qed.

Lemma sdb_ext (s s' : sdb) : (forall t k, same_at t k s s') -> s = s'.
Proof.
  intros H. destruct s, s'. f_equal; apply map_eq; intros k; [exact (H KStr k)|exact (H KList k)|exact (H KHash k)|exact (H KSet k)].
Qed.
Lemma same_sym t k s s' : same_at t k s s' -> same_at t k s' s.
Proof. destruct t; cbn; congruence. Qed.

(* ---- commands that do not clash commute ---- *)
Lemma spec_commute (s s1 s2 : sdb) (c1 c2 : cmd) o1 o2 :
  (kind_of c1 = kind_of c2 -> forall k, ~ ((k ∈ written c1 /\ k ∈ names c2) \/ (k ∈ names c1 /\ k ∈ written c2))) ->
  spec s c1 (Some (s1, o1)) -> spec s1 c2 (Some (s2, o2)) -> exists s1', spec s c2 (Some (s1', o2)) /\ spec s1' c1 (Some (s2, o1)).
Proof.
  intros HC H1 H2.
  assert (F1 : forall t k, kind_of c1 <> t \/ k ∉ written c1 -> same_at t k s s1) by (intros; eapply spec_frame; eauto).
  assert (F2 : forall t k, kind_of c2 <> t \/ k ∉ written c2 -> same_at t k s1 s2) by (intros; eapply spec_frame; eauto).
  assert (kd : forall a b : kind, a = b \/ a <> b) by (intros [] []; auto; right; discriminate).
  destruct (spec_local s1 s c2 _ (fun k Hk => same_sym _ _ _ _ (F1 (kind_of c2) k ltac:(destruct (kd (kind_of c1) (kind_of c2)) as [E|E]; [right; intros W; apply (HC E k); auto|left; exact E]))) H2)
    as ([[s1' o2']|] & H2' & L2); [|contradiction]. destruct L2 as [<- L2].
  assert (F2' : forall t k, kind_of c2 <> t \/ k ∉ written c2 -> same_at t k s s1') by (intros; eapply spec_frame; eauto).
  destruct (spec_local s s1' c1 _ (fun k Hk => F2' (kind_of c1) k ltac:(destruct (kd (kind_of c1) (kind_of c2)) as [E|E]; [right; intros W; apply (HC E k); auto|left; congruence])) H1)
    as ([[s2' o1']|] & H1' & L1); [|contradiction]. destruct L1 as [<- L1].
  assert (F1' : forall t k, kind_of c1 <> t \/ k ∉ written c1 -> same_at t k s1' s2') by (intros; eapply spec_frame; eauto).
  exists s1'. split; [exact H2'|]. assert (s2 = s2') as ->; [|exact H1'].
  apply sdb_ext. intros t k.
  assert (R : kind_of c1 <> t \/ k ∉ written c1 -> same_at t k s2 s2').
  { intros N. eapply same_at_trans; [|exact (F1' t k N)]. assert (D : (kind_of c2 = t /\ k ∈ written c2) \/ (kind_of c2 <> t \/ k ∉ written c2)).
    { destruct (kd (kind_of c2) t); [|auto]. destruct (decide (k ∈ written c2)); auto. }
    destruct D as [[<- W]|D]; [exact (L2 k (written_named _ _ W))|].
    eapply same_at_trans; [apply same_sym, F2, D|]. eapply same_at_trans; [apply same_sym, F1, N|]. now apply F2'. }
  destruct (kd (kind_of c1) t) as [E1|E1]; [|auto]. destruct (decide (k ∈ written c1)) as [W1|W1]; [|auto].
  subst t. eapply same_at_trans; [apply same_sym, F2|exact (L1 k (written_named _ _ W1))].
  destruct (kd (kind_of c2) (kind_of c1)) as [E|E]; [right; intros W; apply (HC (eq_sym E) k); right; split; [now apply written_named|exact W]|left; exact E].
Qed.

Lemma answer_elsewhere (s s' : sdb) (q : robj) r s1 : (forall c, ~ asks q c) -> answer s q (Some (s1, r)) -> s1 = s /\ answer s' q (Some (s', r)).
Proof.
  intros N H. inversion H; subst; try (match goal with H : asks _ _ |- _ => destruct (N _ H) end); (split; [reflexivity|]).
  - now apply a_ignored.
  - now apply a_empty.
  - eapply a_nameless; eauto.
  - eapply a_unknown; eauto.
  - eapply a_invalid; eauto.
Qed.
Lemma answer_asked (s : sdb) (q : robj) r s1 : answer s q (Some (s1, r)) -> (forall c, ~ asks q c) \/
  exists c o, asks q c /\ spec s c (Some (s1, o)) /\ forall s' s1', spec s' c (Some (s1', o)) -> answer s' q (Some (s1', r)).
Proof.
  intros H. inversion H as [H0|r0 H0|o0 args r0 H0 H1|o0 args name H0 H1 H2|o0 args name w0 H0 H1 H2 H3 H4|?|c s' r' H0 H1|c s' er r' H0 H1 H2]; subst.
  - left. intros c (o & n & w & a & P & _). exact (H0 _ P).
  - left. intros c (o & n & w & a & P & _). inversion H0; inversion P; congruence.
  - left. intros c (o & n & w & a & P & S & _). assert (E : o :: a = o0 :: args) by (inversion H0; inversion P; congruence). injection E as -> ->. exact (H1 _ S).
  - left. intros c (o & n & w & a & P & S & L & C). assert (E : o :: a = o0 :: args) by (inversion H0; inversion P; congruence). injection E as -> ->.
    assert (n = name) as -> by (inversion S; subst; inversion H1; congruence). eapply H2; [|exact L]. eapply call_word; eauto.
  - left. intros c (o & n & w & a & P & S & L & C). assert (E : o :: a = o0 :: args) by (inversion H0; inversion P; congruence). injection E as -> ->.
    assert (n = name) as -> by (inversion S; subst; inversion H1; congruence). apply spells_lower in L, H3. subst w. rewrite H3 in C. exact (H4 _ C).
  - right. exists c, (inl r'). repeat split; auto. intros. eapply a_reply; eauto.
  - right. exists c, (inr er). repeat split; auto. intros. eapply a_error; eauto.
Qed.
Lemma answer_commute (s s1 s2 : sdb) (q1 q2 : robj) r1 r2 : ~ clash q1 q2 ->
  answer s q1 (Some (s1, r1)) -> answer s1 q2 (Some (s2, r2)) -> exists s1', answer s q2 (Some (s1', r2)) /\ answer s1' q1 (Some (s2, r1)).
Proof.
  intros N H1 H2. destruct (answer_asked _ _ _ _ H1) as [N1|(c1 & o1 & A1 & S1 & B1)].
  - destruct (answer_elsewhere s s2 _ _ _ N1 H1) as [-> H1']. eauto.
  - destruct (answer_asked _ _ _ _ H2) as [N2|(c2 & o2 & A2 & S2 & B2)].
    + destruct (answer_elsewhere s1 s _ _ _ N2 H2) as [-> H2']. eauto.
    + destruct (spec_commute s s1 s2 c1 c2 o1 o2) as (s1' & K1 & K2); auto.
      { intros E k K. apply N. exists c1, c2, k. auto. }
      exists s1'. auto.
Qed.

(* ---- reordered histories ---- *)
Definition free_pairs (x y : robj * option robj) : Prop := ~ clash (fst x) (fst y).
Lemma answers_cons s q l s2 rs : answers s (q :: l) (Some (s2, rs)) <-> exists s1 r rs', rs = r :: rs' /\ answer s q (Some (s1, r)) /\ answers s1 l (Some (s2, rs')).
Proof.
  split.
  - intros H. inversion H; subst. eauto 10.
  - intros (s1 & r & rs' & -> & H1 & H2). econstructor; eauto.
Qed.
Lemma answers_join l1 : forall l2 s s1 s2 rs1 rs2, answers s l1 (Some (s1, rs1)) -> answers s1 l2 (Some (s2, rs2)) -> answers s (l1 ++ l2) (Some (s2, rs1 ++ rs2)).
Proof.
  induction l1 as [|q l1 IH]; intros l2 s s1 s2 rs1 rs2 H1 H2; cbn [app]; [inversion H1; subst; exact H2|].
  apply answers_cons in H1 as (s3 & r & rs3 & -> & A & H1). apply answers_cons. exists s3, r, (rs3 ++ rs2). eauto.
Qed.
Lemma answers_reordered (p p' : list (robj * option robj)) : reordered free_pairs p p' -> forall s s2,
  answers s (map fst p) (Some (s2, map snd p)) -> answers s (map fst p') (Some (s2, map snd p')).
Proof.
  induction 1 as [l|l1 x y l2 N|l1 l2 l3 _ IH1 _ IH2]; intros s s2 H; auto.
  revert s H. induction l1 as [|z l1 IH]; intros s H; cbn [app map] in *.
  - apply answers_cons in H as (s3 & r & rs & E & A1 & H). injection E as <- <-. apply answers_cons in H as (s4 & r & rs & E & A2 & H). injection E as <- <-.
    destruct (answer_commute _ _ _ _ _ _ _ N A1 A2) as (s5 & B1 & B2). apply answers_cons. exists s5. do 2 eexists. split; [reflexivity|]. split; [exact B1|].
    apply answers_cons. exists s4. do 2 eexists. split; [reflexivity|]. auto.
  - apply answers_cons in H as (s3 & r & rs & E & A1 & H). injection E as <- <-. apply answers_cons. exists s3. do 2 eexists. split; [reflexivity|]. auto.
Qed.

(* without SPOP the contents after each request are determined *)
Lemma answer_det (s : sdb) (q : robj) s1 r o : ~ pops q -> answer s q (Some (s1, r)) -> answer s q o -> exists r', o = Some (s1, r').
Proof.
  intros Np H1 H2. destruct (answer_asked _ _ _ _ H1) as [N1|(c & o1 & A1 & S1 & _)].
  - destruct (answer_elsewhere s s _ _ _ N1 H1) as [-> _]. destruct o as [[s2 r2]|].
    + destruct (answer_elsewhere s s _ _ _ N1 H2) as [-> _]. eauto.
    + inversion H2; subst. destruct (N1 _ H).
  - pose proof (asks_answer _ _ _ _ A1 H2) as HA. destruct (asks_wf _ _ A1) as [W _]. destruct o as [[s2 [r2|]]|]; [|contradiction|].
    + assert (exists o2, spec s c (Some (s2, o2))) as [o2 S2] by (destruct HA as [HA|(er & HA & _)]; eauto). assert (s1 = s2) as ->; [|eauto].
      destruct (is_modify c) eqn:M.
      * assert (HP : forall k n cs, c <> CSpop k n cs) by (intros k n cs ->; apply Np; exists k, n, cs; exact A1).
        pose proof (spec_det _ _ _ _ M HP S1 S2) as EQ. injection EQ as -> _. reflexivity.
      * destruct c; try discriminate M.
        all: try (apply sdb_ext; intros t k'; eapply same_at_trans; [apply same_sym; eapply spec_frame; [exact S1|right; apply not_elem_of_nil]|eapply spec_frame; [exact S2|right; apply not_elem_of_nil]]).
        (* LTRIM *) cbn [spec] in S1, S2. destruct (sl s !! k); [destruct (seg_sel _ _ _)|]; congruence.
    + exfalso. pose proof (crashes_spec _ _ _ (spec_crashes _ _ W HA) S1). discriminate.
Qed.
Lemma answers_det (l : list robj) : Forall (fun q => ~ pops q) l -> forall s s1 rs o, answers s l (Some (s1, rs)) -> answers s l o -> exists rs', o = Some (s1, rs').
Proof.
  induction 1 as [|q l Hq _ IH]; intros s s1 rs o H1 H2.
  - inversion H1; inversion H2; subst. eauto.
  - apply answers_cons in H1 as (s3 & r & rs3 & -> & A & H1). inversion H2 as [|? ? ? A2|? ? ? s4 r4 s5 rs5 A2 H2'|? ? ? s4 r4 A2 H2']; subst.
    + destruct (answer_det _ _ _ _ _ Hq A A2) as (r' & E). discriminate.
    + destruct (answer_det _ _ _ _ _ Hq A A2) as (r' & E). injection E as -> _. destruct (IH _ _ _ _ H1 H2') as (rs' & E). injection E as -> _. eauto.
    + destruct (answer_det _ _ _ _ _ Hq A A2) as (r' & E). injection E as -> _. destruct (IH _ _ _ _ H1 H2') as (rs' & E). discriminate.
Qed.

Lemma reordered_perm {A} (free : A -> A -> Prop) l l' : reordered free l l' -> Permutation l l'.
Proof. induction 1; [reflexivity|apply Permutation_app_head; constructor|etransitivity; eauto]. Qed.
Lemma reordered_map {A B} (f : A -> B) (R : A -> A -> Prop) (S : B -> B -> Prop) : (forall x y, R x y -> S (f x) (f y)) ->
  forall l l', reordered R l l' -> reordered S (map f l) (map f l').
Proof. intros H l l'. induction 1; [constructor| |econstructor 3; eauto]. rewrite !map_app. cbn [map]. constructor. auto. Qed.
Lemma reordered_app {A} (R : A -> A -> Prop) (a b l l' : list A) : reordered R l l' -> reordered R (a ++ l ++ b) (a ++ l' ++ b).
Proof.
  induction 1 as [|l1 x y l2 H|]; [constructor| |econstructor 3; eauto].
  rewrite <- !app_assoc. cbn [app]. rewrite !(app_assoc a l1). constructor. exact H.
Qed.
Lemma reordered_front {A} (R : A -> A -> Prop) (l1 : list A) x l2 : Forall (fun y => R y x) l1 -> reordered R (l1 ++ x :: l2) (x :: l1 ++ l2).
Proof.
  induction 1 as [|y l1 H _ IH]; [constructor|]. cbn [app]. eapply ro_trans; [|exact (ro_swap R [] y x (l1 ++ l2) H)].
  pose proof (reordered_app R [y] [] _ _ IH) as K. rewrite !app_nil_r in K. exact K.
Qed.
Lemma picked_reordered {A} (R : A -> A -> Prop) (l l' : list A) : picked R l l' -> reordered R l l'.
Proof.
  induction 1 as [|l1 x l2 l H _ IH]; [constructor|]. eapply ro_trans; [exact (reordered_front R l1 x l2 H)|].
  pose proof (reordered_app R [x] [] _ _ IH) as K. rewrite !app_nil_r in K. exact K.
Qed.
Lemma size_perm (l l' : list robj) : Permutation l l' -> requests_size l = requests_size l'.
Proof. induction 1; cbn [requests_size]; lia. Qed.

Lemma map_fst_zip {A B} (l : list A) : forall l' : list B, length l = length l' -> map fst (zip l l') = l /\ map snd (zip l l') = l'.
Proof. induction l as [|x l IH]; intros [|y l'] H; try discriminate; [auto|]. injection H as H. destruct (IH l' H) as [E1 E2]. cbn [zip zip_with map]. split; f_equal; auto. Qed.
Lemma answers_length (l : list robj) : forall s s' rs, answers s l (Some (s', rs)) -> length rs = length l.
Proof. induction l as [|q l IH]; intros s s' rs H; [now inversion H|]. apply answers_cons in H as (s1 & r & rs' & -> & _ & H). cbn [length]. f_equal. eauto. Qed.

(* The replies given are also right for the other order, and the contents the same. *)
Theorem explained (h : list entry) (d : db) rs (p : list (entry * option robj)) :
  Forall (fun x => env_ok (h_env x)) h -> requests_size (map h_req h) < 2 ^ 62 -> run new_db (requests h) = Ret (d, rs) ->
  reordered (fun x y => free_entries (fst x) (fst y)) (zip h rs) p ->
  exists s, db_rel d s /\ answers empty_sdb (map (fun x => h_req (fst x)) p) (Some (s, map snd p)).
Proof.
  intros He Hs E HR. assert (ER : map snd (requests h) = map h_req h) by (unfold requests; now rewrite map_map).
  destruct (run_answers (requests h) d rs) as (s & Hr & HA); auto.
  { unfold requests. now apply List.Forall_map. } { now rewrite ER. }
  rewrite ER in HA. exists s. split; [exact Hr|]. pose proof (answers_length _ _ _ _ HA) as L. rewrite map_length in L.
  destruct (map_fst_zip h rs (eq_sym L)) as [E1 E2].
  pose proof (answers_reordered _ _ (reordered_map (fun x : entry * option robj => (h_req (fst x), snd x)) _ free_pairs (fun x y K => K) _ _ HR) empty_sdb s) as K.
  rewrite !map_map in K. cbn [fst snd] in K. apply K.
  change (map (fun x : entry * option robj => snd x) (zip h rs)) with (map snd (zip h rs)). rewrite E2. rewrite <- E1 in HA at 1. rewrite map_map in HA. exact HA.
Qed.

Theorem reordered_run (h h' : list entry) (d : db) rs :
  Forall (fun x => env_ok (h_env x)) h -> Forall (fun x => ~ pops (h_req x)) h -> requests_size (map h_req h) < 2 ^ 62 -> run new_db (requests h) = Ret (d, rs) ->
  reordered free_entries h h' ->
  exists d' rs' s, run new_db (requests h') = Ret (d', rs') /\ db_rel d s /\ db_rel d' s.
Proof.
  intros He Hp Hs E HR. assert (ER : forall h, map snd (requests h) = map h_req h) by (intros; unfold requests; now rewrite map_map).
  destruct (run_answers (requests h) d rs) as (s & Hr & HA); auto.
  { unfold requests. now apply List.Forall_map. } { now rewrite ER. }
  rewrite ER in HA. pose proof (reordered_perm _ _ _ HR) as P.
  assert (exists rs', answers empty_sdb (map h_req h') (Some (s, rs'))) as [rs1 HA'].
  { clear -HR HA. revert rs HA. induction HR as [l|l1 x y l2 N|l1 l2 l3 _ IH1 _ IH2]; intros rs HA; [eauto| |destruct (IH1 _ HA); eauto].
    pose proof (answers_length _ _ _ _ HA) as L. rewrite map_app in HA. cbn [map] in HA. apply answers_app in HA as (s1 & rs1 & rs2 & -> & H1 & H2).
    apply answers_cons in H2 as (s2 & r2 & rs3 & -> & A1 & H2). apply answers_cons in H2 as (s3 & r3 & rs4 & -> & A2 & H2).
    destruct (answer_commute _ _ _ _ _ _ _ N A1 A2) as (s4 & B1 & B2). exists (rs1 ++ r3 :: r2 :: rs4). rewrite map_app. cbn [map]. apply (answers_join _ _ _ s1); [exact H1|].
    apply answers_cons. exists s4, r3, (r2 :: rs4). split; [reflexivity|]. split; [exact B1|]. apply answers_cons. exists s3, r2, rs4. auto. }
  pose proof (run_refines_n (requests h') 0 new_db empty_sdb) as R.
  assert (He' : Forall (fun x => env_ok (fst x)) (requests h')).
  { unfold requests. apply List.Forall_map. cbn [fst]. apply (Permutation.Permutation_Forall P); assumption. }
  specialize (R He' new_db_rel bounded_empty (Z.le_refl 0)). rewrite ER in R.
  rewrite (size_perm _ _ (Permutation_map h_req P)) in Hs. specialize (R Hs).
  assert (Hp' : Forall (fun q => ~ pops q) (map h_req h')). { apply List.Forall_map. apply (Permutation.Permutation_Forall P); assumption. }
  unfold run_ok in R. rewrite ER in R. destruct (run new_db (requests h')) as [[d' rs']| |]; [| |contradiction].
  - destruct R as (s' & Hr' & R). destruct (answers_det _ Hp' _ _ _ _ HA' R) as (? & Q). injection Q as -> _. eauto 10.
  - destruct (answers_det _ Hp' _ _ _ _ HA' R) as (? & Q). discriminate.
Qed.

(* ... so a log in that order rebuilds the contents *)
Theorem reordered_rebuilt (ords : nat -> orders) (h h' : list entry) (bss : list bytes) (d : db) rs :
  (forall i, orders_ok (ords i)) -> Forall loggable h -> Forall (fun x => ~ trims (h_req x) /\ ~ pops (h_req x)) h ->
  requests_size (map h_req h) < 2 ^ 62 -> run new_db (requests h) = Ret (d, rs) ->
  reordered free_entries h h' -> Forall2 packed (records h') bss ->
  exists ds s, recover ords (List.concat bss) = Ret ds /\ db_rel d s /\ db_rel (ds 1) s.
Proof.
  intros HO Hl Hk Hs E HR Hp. pose proof (reordered_perm _ _ _ HR) as P.
  destruct (reordered_run h h' d rs) as (d' & rs' & s & E' & Hd & Hd'); auto.
  { eapply List.Forall_impl; [|exact Hl]. intros x (Hx & _). exact Hx. } { eapply List.Forall_impl; [|exact Hk]. intros x [_ Hx]. exact Hx. }
  destruct (rebuilt ords h' bss d' rs') as (ds & s' & R & Hr & Hr'); auto.
  - apply (Permutation.Permutation_Forall P); assumption.
  - apply (Permutation.Permutation_Forall P); assumption.
  - now rewrite <- (size_perm _ _ (Permutation_map h_req P)).
  - exists ds, s. rewrite (db_rel_fun _ _ _ Hr Hd') in Hr'. auto.
Qed.

(* ---- patient executions ---- *)
Lemma records_nil_or (x : entry) : records [x] = [] \/ exists v, records [x] = [v] /\ log_of (h_stamp x) (h_req x) = Some v.
Proof. cbn [records]. destruct (log_of _ _); eauto. Qed.
Lemma records_split (h : list entry) : forall p1 v p2, records h = p1 ++ v :: p2 -> exists h1 x h2, h = h1 ++ x :: h2 /\ records h1 = p1 /\
  log_of (h_stamp x) (h_req x) = Some v /\ records h2 = p2.
Proof.
  induction h as [|x h IH]; intros p1 v p2 E; cbn [records] in E; [destruct p1; discriminate|].
  destruct (log_of (h_stamp x) (h_req x)) as [w|] eqn:EL.
  - destruct p1 as [|w' p1]; cbn [app] in E; injection E as -> E.
    + exists [], x, h. auto.
    + destruct (IH _ _ _ E) as (h1 & y & h2 & -> & <- & A & B). exists (x :: h1), y, h2. cbn [records app]. rewrite EL. auto.
  - destruct (IH _ _ _ E) as (h1 & y & h2 & -> & <- & A & B). exists (x :: h1), y, h2. cbn [records app]. rewrite EL. auto.
Qed.
Lemma records_in (h : list entry) x v : x ∈ h -> log_of (h_stamp x) (h_req x) = Some v -> v ∈ records h.
Proof.
  induction 1 as [x l|x y l _ IH]; intros E; cbn [records].
  - rewrite E. left.
  - specialize (IH E). destruct (log_of (h_stamp y) (h_req y)); [now right|exact IH].
Qed.
Lemma clash_sym q1 q2 : clash q1 q2 -> clash q2 q1.
Proof. intros (c1 & c2 & k & A & B & E & K). exists c2, c1, k. repeat split; auto. tauto. Qed.
Definition pair_free (l : list entry) : Prop := ForallOrdPairs free_entries l.
Lemma pair_snoc l x : pair_free l -> Forall (fun y => free_entries y x) l -> pair_free (l ++ [x]).
Proof.
  induction 1 as [|a l Ha Hl IH]; intros F; cbn [app]; [repeat constructor|]. apply Forall_cons in F as [Fa F].
  constructor; [apply List.Forall_app; split; [exact Ha|repeat constructor; exact Fa]|exact (IH F)].
Qed.
Lemma pair_split l1 x l2 : pair_free (l1 ++ x :: l2) -> Forall (fun y => free_entries y x) l1 /\ pair_free (l1 ++ l2).
Proof.
  induction l1 as [|a l1 IH]; cbn [app]; intros H; inversion H as [|? ? Ha Hl]; subst; [split; [constructor|exact Hl]|].
  destruct (IH Hl) as [I1 I2]. apply List.Forall_app in Ha as [Ha1 Ha2]. inversion Ha2; subst. split; [constructor; auto|].
  constructor; [apply List.Forall_app; auto|exact I2].
Qed.

(* Requests that are not logged change nothing. *)
Lemma writes_app h1 h2 : writes (h1 ++ h2) = writes h1 ++ writes h2.
Proof. apply List.filter_app. Qed.
Lemma writes_one x : writes [x] = match log_of (h_stamp x) (h_req x) with Some _ => [x] | None => [] end.
Proof. unfold writes, logs. cbn [List.filter]. now destruct (log_of _ _). Qed.
Lemma writes_records h : records (writes h) = records h.
Proof. induction h as [|x h IH]; [reflexivity|]. unfold writes, logs in *. cbn [List.filter records]. destruct (log_of (h_stamp x) (h_req x)) as [v|] eqn:E; [|exact IH]. cbn [records]. now rewrite E, IH. Qed.
Lemma writes_all (P : entry -> Prop) h : Forall P h -> Forall P (writes h).
Proof. unfold writes. rewrite !List.Forall_forall. intros H x Hx. apply List.filter_In in Hx as [Hx _]. auto. Qed.
Lemma writes_size h : requests_size (map h_req (writes h)) <= requests_size (map h_req h).
Proof.
  induction h as [|x h IH]; [cbn; lia|]. unfold writes in *. cbn [List.filter map requests_size]. pose proof (request_size_nonneg (h_req x)). destruct (logs x); cbn [map requests_size]; lia.
Qed.
Lemma writes_run_n h : forall n d1 d2 s d1' rs, Forall (fun x => env_ok (h_env x)) h -> Forall plain h -> db_rel d1 s -> db_rel d2 s -> bounded n s -> 0 <= n ->
  n + requests_size (map h_req h) < 2 ^ 62 -> run d1 (requests h) = Ret (d1', rs) ->
  exists d2' rs2 s', run d2 (requests (writes h)) = Ret (d2', rs2) /\ db_rel d1' s' /\ db_rel d2' s'.
Proof.
  induction h as [|x h IH]; intros n d1 d2 s d1' rs He Hk R1 R2 Hb Hn Hs E.
  { cbn in E. injection E as <- _. exists d2, [], s. auto. }
  apply Forall_cons in He as [He1 He]. apply Forall_cons in Hk as [Hk1 Hk]. cbn [map requests_size] in *.
  pose proof (request_size_nonneg (h_req x)) as Q0. pose proof (requests_size_nonneg (map h_req h)) as Q1.
  pose proof (bounded_fits n s Hb ltac:(lia)) as Hf.
  unfold requests in E. cbn [map run] in E. fold (requests h) in E.
  destruct (handle (h_env x) d1 (h_req x)) as [[d3 r3]| |] eqn:E1; cbn [rbind fst snd] in E; try discriminate.
  destruct (run d3 (requests h)) as [[d4 rs4]| |] eqn:E2; cbn [rbind fst snd] in E; try discriminate. injection E as -> _.
  change (writes (x :: h)) with (writes ([x] ++ h)). rewrite writes_app, writes_one. destruct (log_of (h_stamp x) (h_req x)) as [v|] eqn:EL; cbn [app].
  - destruct (same_step x d1 d2 s d3 r3 He1 Hk1 R1 R2 Hf E1) as (d5 & r5 & s5 & E5 & S3 & S5 & A).
    pose proof (answer_bounded _ _ _ _ _ Hb Hn A) as Hb5.
    destruct (IH (n + request_size (h_req x)) d3 d5 s5 d1' rs4 He Hk S3 S5 Hb5 ltac:(lia) ltac:(lia) E2) as (d6 & rs6 & s6 & E6 & S6 & S7).
    unfold requests. cbn [map run]. fold (requests (writes h)). rewrite E5. cbn [rbind fst snd]. rewrite E6. cbn [rbind fst snd]. eauto 10.
  - destruct Hk1 as [Ht _]. pose proof (skip_step _ _ _ _ _ _ _ (conj He1 (conj R1 Hf)) Ht E1 EL) as B1. apply (IH n d3 d2 s d1' rs4); auto. lia.
Qed.
Theorem writes_run h d rs : Forall (fun x => env_ok (h_env x)) h -> Forall plain h -> requests_size (map h_req h) < 2 ^ 62 -> run new_db (requests h) = Ret (d, rs) ->
  exists d' rs' s, run new_db (requests (writes h)) = Ret (d', rs') /\ db_rel d s /\ db_rel d' s.
Proof. intros He Hk Hs E. refine (writes_run_n h 0 new_db new_db empty_sdb d rs He Hk new_db_rel new_db_rel bounded_empty _ _ E); lia. Qed.

Theorem patient_order (a : lstate) : lpatient a -> Forall loggable (l_executed a) ->
  exists hl hp, reordered free_entries (writes (l_executed a)) (hl ++ hp) /\ records hl = l_log a /\ records hp = l_pending a /\
    pair_free hp /\ Forall (fun x => log_of (h_stamp x) (h_req x) <> None) hp.
Proof.
  induction 1 as [|a b Ha IH S C]; intros Hl.
  { exists [], []. cbn. repeat split; constructor. }
  assert (Hl' : Forall loggable (l_executed a)). { destruct (lstep_executed _ _ S) as [x E]. rewrite E in Hl. now apply Forall_app in Hl as [Hl _]. }
  destruct (IH Hl') as (hl & hp & R & E1 & E2 & PF & LG). destruct S; cbn [l_executed l_pending l_log] in *.
  - specialize (C q eq_refl). rewrite writes_app, writes_one. unfold logs in C.
    destruct (log_of (h_stamp q) (h_req q)) as [v|] eqn:EL.
    + specialize (C eq_refl). assert (FQ : Forall (fun y => free_entries y q) hp).
      { rewrite List.Forall_forall in LG |- *. intros y Hy. destruct (log_of (h_stamp y) (h_req y)) as [w|] eqn:EL'; [|destruct (LG y Hy EL')].
        apply elem_of_list_In in Hy. apply (C y w); auto.
        - assert (In y (writes x)) as K.
          { apply elem_of_list_In. apply (elem_of_Permutation_proper y _ _ (reordered_perm _ _ _ R)). apply elem_of_app. now right. }
          apply List.filter_In in K as [K _]. now apply elem_of_list_In.
        - rewrite <- E2. eapply records_in; eauto. }
      pose proof (reordered_app free_entries [] [q] _ _ R) as R'. cbn [app] in R'. rewrite <- app_assoc in R'.
      exists hl, (hp ++ [q]). split; [exact R'|]. split; [exact E1|]. split; [rewrite records_app, E2, records_one, EL; reflexivity|].
      split; [now apply pair_snoc|]. apply Forall_app. split; [exact LG|]. repeat constructor. congruence.
    + rewrite !app_nil_r. exists hl, hp. auto.
  - destruct (records_split _ _ _ _ E2) as (h1 & y & h2 & -> & F1 & F2 & F3). destruct (pair_split _ _ _ PF) as [P1 P2].
    exists (hl ++ [y]), (h1 ++ h2). split.
    { eapply ro_trans; [exact R|]. pose proof (reordered_app free_entries hl [] _ _ (reordered_front free_entries h1 y h2 P1)) as K.
      rewrite !app_nil_r in K. rewrite <- app_assoc. exact K. }
    split; [rewrite records_app, records_one, F2, E1; reflexivity|]. split; [rewrite records_app, F1, F3; reflexivity|]. split; [exact P2|].
    apply List.Forall_app in LG as [L1 L2]. inversion L2; subst. apply List.Forall_app. auto.
  - exfalso. apply (writes_all loggable) in Hl'. refine (loggable_none _ v Hl' _ H). destruct (records_split _ _ _ _ E2) as (h1 & y & h2 & -> & F1 & F2 & F3).
    eapply records_in; [|exact F2]. apply (elem_of_Permutation_proper y _ _ (reordered_perm _ _ _ R)). apply elem_of_app. right. apply elem_of_app. right. left.
Qed.
Theorem patient_rebuilt (ords : nat -> orders) (a : lstate) (bss : list bytes) (d : db) rs :
  (forall i, orders_ok (ords i)) -> lpatient a -> l_pending a = [] -> Forall loggable (l_executed a) ->
  Forall (fun x => ~ trims (h_req x) /\ ~ pops (h_req x)) (l_executed a) ->
  requests_size (map h_req (l_executed a)) < 2 ^ 62 -> run new_db (requests (l_executed a)) = Ret (d, rs) -> Forall2 packed (l_log a) bss ->
  exists ds s, recover ords (List.concat bss) = Ret ds /\ db_rel d s /\ db_rel (ds 1) s.
Proof.
  intros HO Ha Hp Hl Hk Hs E HB. destruct (patient_order a Ha Hl) as (hl & hp & R & E1 & E2 & _ & LG). rewrite Hp in E2.
  assert (hp = []) as ->. { destruct hp as [|x hp]; [reflexivity|]. inversion LG as [|? ? L _]; subst. cbn [records] in E2. destruct (log_of _ _); congruence. }
  rewrite app_nil_r in R. destruct (writes_run _ d rs (loggable_env _ Hl) Hk Hs E) as (d' & rs' & s & E' & D1 & D2).
  destruct (reordered_rebuilt ords (writes (l_executed a)) hl bss d' rs') as (ds & s' & Y & D3 & D4); auto using writes_all.
  - pose proof (writes_size (l_executed a)). lia.
  - now rewrite E1.
  - exists ds, s. rewrite (db_rel_fun _ _ _ D3 D2) in D4. auto.
Qed.

Lemma reordered_sym {A} (R : A -> A -> Prop) : (forall x y, R x y -> R y x) -> forall l l', reordered R l l' -> reordered R l' l.
Proof. intros H l l'. induction 1; [constructor|constructor; auto|econstructor 3; eauto]. Qed.
(* Crashing does not depend on the order either. *)
Theorem reordered_crash (h h' : list entry) :
  Forall (fun x => env_ok (h_env x)) h -> Forall (fun x => ~ pops (h_req x)) h -> requests_size (map h_req h) < 2 ^ 62 ->
  reordered free_entries h h' -> run new_db (requests h) = Panic -> run new_db (requests h') = Panic.
Proof.
  intros He Hp Hs HR E. pose proof (reordered_perm _ _ _ HR) as P.
  assert (He' : Forall (fun x => env_ok (h_env x)) h') by (apply (Permutation.Permutation_Forall P); assumption).
  assert (Hp' : Forall (fun x => ~ pops (h_req x)) h') by (apply (Permutation.Permutation_Forall P); assumption).
  assert (Hs' : requests_size (map h_req h') < 2 ^ 62) by (now rewrite <- (size_perm _ _ (Permutation_map h_req P))).
  destruct (run new_db (requests h')) as [[d' rs']| |] eqn:E'; [|reflexivity|].
  - destruct (reordered_run h' h d' rs' He' Hp' Hs' E') as (d2 & rs2 & s & E2 & _); [|congruence].
    apply reordered_sym; [|exact HR]. intros x y K C. apply K. now apply clash_sym.
  - exfalso. pose proof (run_refines_n (requests h') 0 new_db empty_sdb) as R.
    assert (ER : map snd (requests h') = map h_req h') by (unfold requests; now rewrite map_map). rewrite ER, E' in R. apply R; auto using new_db_rel, bounded_empty; try lia.
    unfold requests. now apply List.Forall_map.
Qed.

(* Wherever the process ends, the records of a first part of the log are replayed. *)
Theorem reordered_end ords h h' l ws p oks d rs :
  (forall i, orders_ok (ords i)) -> Forall loggable h -> Forall plain h -> requests_size (map h_req h) < 2 ^ 62 -> run new_db (requests h) = Ret (d, rs) ->
  reordered free_entries h h' -> Forall2 packed (records h') (written_by l) -> steps (open_file []) l ws = (p, oks) ->
  exists m d' rs' ds s, run new_db (requests (firstn m h')) = Ret (d', rs') /\ recover ords (p_file p) = Ret ds /\ db_rel d' s /\ db_rel (ds 1) s /\
    (forall l1 l2, l = l1 ++ PFlush :: l2 -> nth (length l1) oks false = true -> (length (written_by l1) <= length (records (firstn m h')))%nat).
Proof.
  intros HO Hl Hk Hs E HR Hp Hst. pose proof (reordered_perm _ _ _ HR) as P.
  destruct (reordered_run h h' d rs) as (d' & rs' & s & E' & _); auto.
  { eapply List.Forall_impl; [|exact Hl]. intros x (Hx & _). exact Hx. } { eapply List.Forall_impl; [|exact Hk]. intros x [_ Hx]. exact Hx. }
  eapply after_any_end; eauto.
  - apply (Permutation.Permutation_Forall P); assumption.
  - apply (Permutation.Permutation_Forall P); assumption.
  - now rewrite <- (size_perm _ _ (Permutation_map h_req P)).
Qed.
