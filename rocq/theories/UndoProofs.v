(* C105: a request that undoes another. *)
From Verif Require Import Base BaseFacts IntSpec IntParseProofs IndexSpec ListSpec Resp Command SpecDb RequestSpec CommandProofs Db DbProofs Engine EngineProofs IdealSpec SpecFacts EngineFacts SizeProofs Recovery RecoverySpec RecoveryProofs OrderProofs DetSpec DetProofs RetryProofs EmptySpec EmptyProofs EachProofs NodeProofs UndoSpec.
From Coq Require Import ZArith List Lia.
From stdpp Require Import gmap.
Open Scope Z_scope.

Lemma wrap_back v n : int64_ok v -> wrap64 (wrap64 (v + n) - n) = v /\ wrap64 (wrap64 (v - n) + n) = v.
Proof.
  unfold int64_ok, wrap64. intros H. split.
  - replace ((v + n + 2 ^ 63) mod 2 ^ 64 - 2 ^ 63 - n + 2 ^ 63) with ((v + n + 2 ^ 63) mod 2 ^ 64 - n) by lia. rewrite Zminus_mod_idemp_l. replace (v + n + 2 ^ 63 - n) with (v + 2 ^ 63) by lia. rewrite Z.mod_small; lia.
  - replace ((v - n + 2 ^ 63) mod 2 ^ 64 - 2 ^ 63 + n + 2 ^ 63) with ((v - n + 2 ^ 63) mod 2 ^ 64 + n) by lia. rewrite Zplus_mod_idemp_l. replace (v - n + 2 ^ 63 + n) with (v + 2 ^ 63) by lia. rewrite Z.mod_small; lia.
Qed.
Lemma canonical_is_int t z : canonical t (wrap64 z) -> is_int t (wrap64 z).
Proof. intros H. split; [now apply canonical_denotes|apply wrap64_ok]. Qed.
Lemma near_text s k t t' n : ss s !! k = Some t -> is_int t n -> canonical t' n -> nearly_same s (with_ss s (<[k := t']> (ss s))).
Proof.
  intros E H C. split; [|repeat split]. intros j. cbn [with_ss ss]. destruct (decide (k = j)) as [<-|N]; [rewrite lookup_insert; right; exists t, t', n; auto|rewrite lookup_insert_ne by exact N; now left].
Qed.
Lemma near_rest s s' : same_but_empty s s' -> nearly_same s s'.
Proof. intros (A & B & C & D). split; [intros k; left; now rewrite A|]. repeat split; assumption. Qed.
Lemma undo_arith (f g : Z -> Z -> Z) s k a t n r s1 o : (forall v n, int64_ok v -> wrap64 (g (wrap64 (f v n)) n) = v) -> ss s !! k = Some t -> is_int t n ->
  spec_arith f s k a (Some (s1, inl (RInt r))) -> spec_arith g s1 k a o -> exists s2, o = says s2 (RInt n) /\ nearly_same s s2.
Proof.
  intros I E H S S1. destruct S as [(m & M & S)|[_ S]]; [|discriminate S]. rewrite E in S. destruct S as [(v & t' & V & C & S)|[_ S]]; [|discriminate S]. injection S as -> ->.
  rewrite <- (is_int_fun _ _ _ H V) in *. clear v V. destruct S1 as [(m' & M' & S1)|[X _]]; [|destruct (X _ M)]. rewrite <- (is_int_fun _ _ _ M M') in *. cbn [with_ss ss] in S1. rewrite lookup_insert in S1.
  destruct S1 as [(v & t2 & V & C2 & ->)|[X _]]; [|destruct (X _ (canonical_is_int _ _ C))]. rewrite <- (is_int_fun _ _ _ (canonical_is_int _ _ C) V) in *. rewrite I in * by apply H.
  eexists. split; [reflexivity|]. replace (with_ss _ _) with (with_ss s (<[k := t2]> (ss s))) by (unfold with_ss; cbn [ss sl sh st]; now rewrite insert_insert). eapply near_text; eauto.
Qed.
Lemma size_full (X : gset bytes) (l : list bytes) : X ⊆ list_to_set l -> size X = length l -> NoDup l /\ X = list_to_set l.
Proof.
  intros S E. assert (L : (size (list_to_set l : gset bytes) <= length l)%nat).
  { pose proof (EngineProofs.size_list l). lia. }
  assert (X = list_to_set l) as ->. { pose proof (size_split (list_to_set l) X) as Z. replace (list_to_set l ∩ X) with X in Z by set_solver. assert (Q : size (list_to_set l ∖ X) = 0%nat) by lia. apply size_empty_inv in Q. apply set_eq. intros x. split; [apply S|]. intros Hx. destruct (decide (x ∈ X)) as [Hi|Hi]; [exact Hi|]. exfalso. assert (B : x ∈ (∅ : gset bytes)) by (apply Q; now apply elem_of_difference). set_solver. }
  split; [|reflexivity]. clear S L. induction l as [|a l IH]; [constructor|]. cbn [list_to_set length] in E.
  assert (L : (size (list_to_set l : gset bytes) <= length l)%nat).
  { pose proof (EngineProofs.size_list l). lia. }
  destruct (decide (a ∈ l)) as [I|I].
  - replace ({[a]} ∪ list_to_set l : gset bytes) with (list_to_set l : gset bytes) in E by set_solver. lia.
  - rewrite size_union, size_singleton in E by set_solver. constructor; [exact I|]. apply IH. lia.
Qed.

Lemma soe s k X : set_or_empty (with_st s (<[k := X]> (st s))) k = X.
Proof. unfold set_or_empty. cbn [with_st st]. now rewrite lookup_insert. Qed.
Lemma spec_undo s c r c' r' s1 o : cmd_wf c -> undo s c r c' r' -> spec s c (Some (s1, inl r)) -> spec s1 c' o -> exists s2, o = says s2 r' /\ nearly_same s s2.
Proof.
  intros W U S S'. destruct U; cbn [spec] in S, S'.
  - case_bool_decide; [discriminate S|]. injection S as -> _. cbn [with_sl sl rev app] in S'. rewrite lookup_insert in S'. subst o. eexists. split; [reflexivity|]. apply near_rest.
    repeat split; cbn [with_sl ss sl sh st]. intros j. rewrite insert_insert. destruct (decide (k = j)) as [<-|N]; [now rewrite lookup_insert|now rewrite lookup_insert_ne].
  - case_bool_decide; [discriminate S|]. injection S as -> _. unfold list_or_nil at 1 in S'. cbn [with_sl sl] in S'. rewrite lookup_insert in S'. unfold id in S'. cbn [default from_option] in S'.
    destruct (list_or_nil s k ++ [v]) as [|x l] eqn:E; [destruct (list_or_nil s k); discriminate E|]. destruct S' as (vs & v' & X & ->). injection X as X. rewrite X in E. apply app_inj_tail in E as [E <-]. eexists. split; [reflexivity|]. apply near_rest.
    repeat split; cbn [with_sl ss sl sh st]. intros j. rewrite insert_insert. destruct (decide (k = j)) as [<-|N]; [rewrite lookup_insert; exact E|now rewrite lookup_insert_ne].
  - eapply (undo_arith Z.add Z.sub); eauto. intros v m V. now apply wrap_back.
  - eapply (undo_arith Z.sub Z.add); eauto. intros v m V. now apply wrap_back.
  - case_bool_decide; [discriminate S|]. injection S as -> S. apply (f_equal Z.to_nat) in S. rewrite !Nat2Z.id in S. symmetry in S. apply size_full in S as [D S]; [|set_solver]. subst o.
    rewrite !soe. clear W. set (X := set_or_empty s k) in *. eexists. split.
    + unfold says. apply (f_equal (fun n => Some (_, inl (r_nat n)))). transitivity (size (list_to_set vs : gset bytes)); [apply (f_equal size); apply set_eq; set_solver|now apply size_list_to_set].
    + apply near_rest. repeat split; cbn [with_st ss sl sh st]. intros j. rewrite insert_insert. destruct (decide (k = j)) as [<-|N]; [rewrite lookup_insert|now rewrite lookup_insert_ne]. cbn [default from_option]. unfold id. change (default ∅ (st s !! k)) with X. apply set_eq. intros x. destruct (decide (x ∈ vs)); set_solver.
  - case_bool_decide; [discriminate S|]. injection S as -> S. apply (f_equal Z.to_nat) in S. rewrite !Nat2Z.id in S. symmetry in S. apply size_full in S as [D S]; [|set_solver]. subst o.
    rewrite !soe. clear W. set (X := set_or_empty s k) in *. eexists. split.
    + unfold says. apply (f_equal (fun n => Some (_, inl (r_nat n)))). transitivity (size (list_to_set vs : gset bytes)); [apply (f_equal size); apply set_eq; set_solver|now apply size_list_to_set].
    + apply near_rest. repeat split; cbn [with_st ss sl sh st]. intros j. rewrite insert_insert. destruct (decide (k = j)) as [<-|N]; [rewrite lookup_insert|now rewrite lookup_insert_ne]. cbn [default from_option]. unfold id. change (default ∅ (st s !! k)) with X. apply set_eq. intros x. destruct (decide (x ∈ vs)); set_solver.
  - case_bool_decide; [discriminate S|]. cbv zeta in S. case_bool_decide as F; [discriminate S|]. injection S as -> S. apply (f_equal Z.to_nat) in S. rewrite !Nat2Z.id in S. symmetry in S. apply size_full in S as [D S]; [|set_solver].
    cbn [with_sh sh] in S'. rewrite lookup_insert in S'. destruct S' as (h' & G & ->). cbn [cmd_wf] in W. eexists. split.
    + unfold says. apply (f_equal (fun n => Some (_, inl (r_nat n)))). rewrite EachProofs.put_pairs_dom, zip_covers by exact W. transitivity (size (list_to_set fs : gset bytes)); [apply (f_equal size); apply set_eq; set_solver|now apply size_list_to_set].
    + apply near_rest. repeat split; cbn [with_sh ss sl sh st]. intros j. rewrite insert_insert. destruct (decide (k = j)) as [<-|N]; [rewrite lookup_insert|now rewrite lookup_insert_ne]. cbn [default from_option]. unfold id. apply map_eq. intros f. rewrite G. case_bool_decide as I.
      * apply not_elem_of_dom. change (f ∉ dom (default ∅ (sh s !! k))). assert (f ∈ (list_to_set fs : gset bytes)) by set_solver. rewrite <- S in H0. set_solver.
      * symmetry. apply put_pairs_other. now rewrite zip_covers.
Qed.
Theorem undone h d rs s e q c r e' q' c' r' d1 : Forall (fun x => env_ok (fst x)) h -> env_ok e -> env_ok e' ->
  requests_size (map snd h) + request_size q + request_size q' < 2 ^ 62 -> run new_db h = Ret (d, rs) -> db_rel d s -> asks q c -> asks q' c' ->
  run d [(e, q)] = Ret (d1, [Some r]) -> undo s c r c' r' ->
  exists d2 s2, run d1 [(e', q')] = Ret (d2, [Some r']) /\ db_rel d2 s2 /\ nearly_same s s2.
Proof.
  intros E He He' S H D A A' H1 U. pose proof (requests_size_nonneg (map snd h)). pose proof (request_size_nonneg q). pose proof (request_size_nonneg q').
  assert (R : run_ok s [(e, q)] (run d [(e, q)])). { apply (goes_on h _ d rs); [exact E|repeat constructor; exact He| |exact H|exact D]. cbn [map snd requests_size]. lia. }
  rewrite H1 in R. destruct R as (s1 & D1 & A1). apply answers_one in A1 as (x & X & A1). injection X as <-. pose proof (asks_answer _ _ _ _ A A1) as K. cbn beta iota in K.
  assert (K1 : spec s c (Some (s1, inl r))). { destruct K as [K|(er & _ & T)]; [exact K|]. exfalso. destruct U; destruct er; cbn in T; try discriminate T; destruct T as [? T]; discriminate T. }
  assert (R2 : run_ok s1 [(e', q')] (run d1 [(e', q')])).
  { apply (goes_on (h ++ [(e, q)]) _ d1 (rs ++ [Some r])); [apply Forall_app; split; [exact E|repeat constructor; exact He]|repeat constructor; exact He'| |rewrite run_app, H; cbn -[run new_db]; rewrite H1; reflexivity|exact D1]. rewrite map_app, requests_size_app. cbn [map snd requests_size]. lia. }
  destruct (asks_wf _ _ A) as [W _]. unfold run_ok in R2. cbn [map snd] in R2. destruct (run d1 [(e', q')]) as [[d2 rs2]| |]; try contradiction.
  - destruct R2 as (s2 & D2 & A2). apply answers_one in A2 as (y & -> & A2). pose proof (asks_answer _ _ _ _ A' A2) as Q. destruct y as [y|]; [|destruct Q].
    assert (Z : exists x, texts (Some y) x /\ spec s1 c' (Some (s2, x))) by (destruct Q as [Q|(er & Q & T)]; eexists; (split; [|exact Q]); exists y; auto).
    destruct Z as (z & Tz & Q'). destruct (spec_undo _ _ _ _ _ _ _ W U K1 Q') as (s3 & Eq & Near). injection Eq as -> ->. destruct Tz as (? & T1 & <-). injection T1 as <-. eauto.
  - inversion R2; subst; [|match goal with K : answers _ [] None |- _ => inversion K end]. match goal with K : answer s1 q' None |- _ => pose proof (asks_answer _ _ _ _ A' K) as Q end. destruct (spec_undo _ _ _ _ _ _ _ W U K1 Q) as (s3 & Eq & _). discriminate Eq.
Qed.
(* The counterpart later, when others have written other values. *)
Lemma nearly_at s s' t k : nearly_same s s' -> near_at t k s s'.
Proof. intros (A & _ & B & C & D). destruct t; cbn; auto. Qed.
Lemma near_same_at t k s s' s'' : near_at t k s s' -> same_at t k s' s'' -> near_at t k s s''.
Proof. destruct t; cbn; intros A B; now rewrite <- B. Qed.
Lemma undo_value s c r c' r' : undo s c r c' r' -> kind_of c' = kind_of c /\ names c' = written c /\ written c' = written c.
Proof. now destruct 1. Qed.
Theorem undone_later h d rs s e q c r d1 m d2 rs2 e' q' c' r' : Forall (fun x => env_ok (fst x)) (h ++ (e, q) :: m) -> env_ok e' ->
  requests_size (map snd (h ++ (e, q) :: m)) + request_size q' < 2 ^ 62 -> run new_db h = Ret (d, rs) -> db_rel d s -> asks q c -> asks q' c' ->
  run d [(e, q)] = Ret (d1, [Some r]) -> undo s c r c' r' ->
  run d1 m = Ret (d2, rs2) -> Forall (fun x => forall k, k ∈ written c -> ~ IdealSpec.writes (snd x) (kind_of c) k) m ->
  exists d3 s2 s3, run d2 [(e', q')] = Ret (d3, [Some r']) /\ db_rel d2 s2 /\ db_rel d3 s3 /\
    forall t k, (t = kind_of c /\ k ∈ written c -> near_at t k s s3) /\ (t <> kind_of c \/ k ∉ written c -> same_at t k s2 s3).
Proof.
  intros E He' S H D A A' H1 U H2 M. apply Forall_app in E as [E Em]. inversion Em as [|? ? He Em']; subst. cbn [fst] in He.
  rewrite map_app, requests_size_app in S. cbn [map snd requests_size] in S. pose proof (requests_size_nonneg (map snd h)). pose proof (requests_size_nonneg (map snd m)). pose proof (request_size_nonneg q). pose proof (request_size_nonneg q').
  assert (R : run_ok s [(e, q)] (run d [(e, q)])). { apply (goes_on h _ d rs); [exact E|repeat constructor; exact He| |exact H|exact D]. cbn [map snd requests_size]. lia. }
  rewrite H1 in R. destruct R as (s1 & D1 & A1). apply answers_one in A1 as (x & X & A1). injection X as <-. pose proof (asks_answer _ _ _ _ A A1) as K. cbn beta iota in K.
  assert (K1 : spec s c (Some (s1, inl r))). { destruct K as [K|(er & _ & T)]; [exact K|]. exfalso. destruct U; destruct er; cbn in T; try discriminate T; destruct T as [? T]; discriminate T. }
  assert (Hq : run new_db (h ++ [(e, q)]) = Ret (d1, rs ++ [Some r])) by (rewrite run_app, H; cbn -[run new_db]; rewrite H1; reflexivity).
  assert (Eq : Forall (fun x => env_ok (fst x)) (h ++ [(e, q)])) by (apply Forall_app; split; [exact E|repeat constructor; exact He]).
  assert (Rm : run_ok s1 m (run d1 m)). { apply (goes_on (h ++ [(e, q)]) m d1 (rs ++ [Some r])); [exact Eq|exact Em'| |exact Hq|exact D1]. rewrite map_app, requests_size_app. cbn [map snd requests_size]. lia. }
  rewrite H2 in Rm. destruct Rm as (s2 & D2 & A2).
  assert (F : forall k, k ∈ written c -> same_at (kind_of c) k s1 s2).
  { intros k Hk. eapply answers_frame; [|exact A2]. intros x Hx. apply elem_of_list_In, in_map_iff in Hx as (y & <- & Hy). apply elem_of_list_In in Hy. rewrite Forall_forall in M. exact (M _ Hy _ Hk). }
  assert (R3 : run_ok s2 [(e', q')] (run d2 [(e', q')])).
  { apply (goes_on ((h ++ [(e, q)]) ++ m) _ d2 ((rs ++ [Some r]) ++ rs2)); [apply Forall_app; split; [exact Eq|exact Em']|repeat constructor; exact He'| |rewrite run_app, Hq; cbn -[run new_db]; rewrite H2; reflexivity|exact D2]. rewrite !map_app, !requests_size_app. cbn [map snd requests_size]. lia. }
  destruct (asks_wf _ _ A) as [W _]. destruct (undo_value _ _ _ _ _ U) as (Uk & Un & Uw).
  assert (L : forall o, spec s2 c' o -> exists s3, o = says s3 r' /\ forall k, k ∈ written c -> near_at (kind_of c) k s s3).
  { intros o Q. destruct (spec_local s2 s1 c' o) as (o' & Q' & Lk); [|exact Q|]. { intros k Hk. rewrite Uk. rewrite Un in Hk. apply same_sym. now apply F. }
    destruct (spec_undo _ _ _ _ _ _ _ W U K1 Q') as (s3' & -> & Near). unfold like in Lk. cbn [says] in Lk. destruct o as [[s3 z]|]; [|destruct Lk]. destruct Lk as [-> Lk]. exists s3. split; [reflexivity|]. intros k Hk. rewrite Uk, Un in Lk. eapply near_same_at; [apply nearly_at; exact Near|]. apply same_sym. now apply Lk. }
  unfold run_ok in R3. cbn [map snd] in R3. destruct (run d2 [(e', q')]) as [[d3 rs3]| |]; try contradiction.
  - destruct R3 as (s3 & D3 & A3). apply answers_one in A3 as (y & -> & A3). pose proof (asks_answer _ _ _ _ A' A3) as Q. destruct y as [y|]; [|destruct Q].
    assert (Z : exists x, texts (Some y) x /\ spec s2 c' (Some (s3, x))) by (destruct Q as [Q|(er & Q & T)]; eexists; (split; [|exact Q]); exists y; auto).
    destruct Z as (z & Tz & Q'). destruct (L _ Q') as (s4 & X & Near). injection X as -> ->. destruct Tz as (? & T1 & <-). injection T1 as <-. exists d3, s2, s4. split; [reflexivity|]. split; [exact D2|]. split; [exact D3|].
    intros t k. split; [intros [-> B]; now apply Near|]. intros B. eapply spec_frame; [exact Q'|]. rewrite Uk, Uw. destruct B as [B|B]; [left; congruence|now right].
  - inversion R3; subst; [|match goal with K : answers _ [] None |- _ => inversion K end]. match goal with K : answer s2 q' None |- _ => pose proof (asks_answer _ _ _ _ A' K) as Q end. destruct (L _ Q) as (s3 & X & _). discriminate X.
Qed.
