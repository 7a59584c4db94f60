(* Proofs for Props_Hashes and Props_Sets. *)
From Verif Require Import Base BaseFacts IntSpec IndexSpec ListSpec IntParse IntParseProofs Resp StringC HashC HashProofs Command SpecDb
  RequestSpec IdealSpec Db DbProofs Engine EngineProofs SpecFacts StringFacts.
From Coq Require Import ZArith List Ascii String Bool Lia.
From stdpp Require Import gmap.
Open Scope Z_scope.

Definition hash_or_empty (s : sdb) (k : bytes) : gmap bytes bytes := default ∅ (sh s !! k).

Lemma put_pairs_last_wins (l1 l2 : list (bytes * bytes)) (k v : bytes) : k ∉ l2.*1 -> forall m, put_pairs m (l1 ++ (k, v) :: l2) !! k = Some v.
Proof.
  intros Hn. induction l1 as [|[a b] l1 IH]; intros m; cbn [app put_pairs]; [|apply IH].
  rewrite put_pairs_other by auto. apply lookup_insert.
Qed.

(* ---- hashes ---- *)
Lemma hset_ok (e : env) (d : db) (s : sdb) (q : robj) (k : bytes) l : good e d s -> k <> [] -> l <> [] -> request q "hset" (k :: alternate l) ->
  exists d' m, handle e d q = Ret (d', Some (RInt (Z.of_nat (size (list_to_set l.*1 ∖ dom (hash_or_empty s k) : gset bytes))))) /\
    db_rel d' (with_sh s (<[k := m]> (sh s))) /\
    (forall f v l1 l2, l = l1 ++ (f, v) :: l2 -> f ∉ l2.*1 -> m !! f = Some v) /\
    (forall f, f ∉ l.*1 -> m !! f = hash_or_empty s k !! f).
Proof.
  intros G Hk N Q.
  destruct (good_gives e d s q _ (with_sh s (<[k := put_pairs (hash_or_empty s k) l]> (sh s)))
    (r_nat (size (list_to_set l.*1 ∖ dom (hash_or_empty s k) : gset bytes))) G (req_hset q k l Q)) as (d' & H1 & H2).
  { apply spec_gives. intros out H. cbn [spec] in H. rewrite zip_fst_snd in H. rewrite bool_decide_eq_false_2 in H by auto.
    rewrite bool_decide_eq_false_2 in H by (destruct l; [congruence|discriminate]). exact H. }
  eexists d', _. split; [exact H1|]. split; [exact H2|]. split.
  - intros f v l1 l2 -> Hn. now apply put_pairs_last_wins.
  - intros f Hf. now apply put_pairs_other.
Qed.
Lemma hdel_ok (e : env) (d : db) (s : sdb) (q : robj) (k : bytes) (fs : list bytes) : good e d s -> fs <> [] -> request q "hdel" (k :: fs) ->
  exists d' s', handle e d q = Ret (d', Some (RInt (Z.of_nat (size (list_to_set fs ∩ dom (hash_or_empty s k) : gset bytes))))) /\
    db_rel d' s' /\
    (forall f, hash_or_empty s' k !! f = if decide (f ∈ fs) then None else hash_or_empty s k !! f) /\
    (forall k', k' <> k -> sh s' !! k' = sh s !! k') /\ ss s' = ss s /\ sl s' = sl s /\ st s' = st s.
Proof.
  intros G N Q. assert (Q' : asks q (CHdel k fs)) by (eapply req_key_many; eauto; apply t_hdel).
  unfold hash_or_empty. destruct (sh s !! k) as [h|] eqn:E.
  - destruct (good_gives e d s q _ (with_sh s (<[k := foldr delete h fs]> (sh s))) (r_nat (size (list_to_set fs ∩ dom h : gset bytes))) G Q') as (d' & H1 & H2).
    { apply spec_gives. intros out H. cbn [spec] in H. rewrite E in H. destruct H as (h' & Hh & H).
      assert (h' = foldr delete h fs) as <-; [|exact H]. apply map_eq. intros f. now rewrite Hh, foldr_delete_lookup. }
    eexists d', _. split; [exact H1|]. split; [exact H2|]. cbn [with_sh sh ss sl st]. split; [|split; [|auto]].
    + intros f. rewrite lookup_insert. cbn [default from_option]. unfold id. rewrite foldr_delete_lookup.
      destruct (decide (f ∈ fs)); [rewrite bool_decide_eq_true_2 by auto|rewrite bool_decide_eq_false_2 by auto]; reflexivity.
    + intros k' Hk. now rewrite lookup_insert_ne by congruence.
  - destruct (good_gives e d s q _ s (RInt 0) G Q') as (d' & H1 & H2).
    { apply spec_gives. intros out H. cbn [spec] in H. rewrite E in H. exact H. }
    exists d', s. split; [|split; [exact H2|split; [|auto]]].
    + rewrite H1. do 4 f_equal. cbn [default from_option]. rewrite dom_empty_L.
      replace (list_to_set fs ∩ ∅ : gset bytes) with (∅ : gset bytes) by set_solver. now rewrite size_empty.
    + intros f. rewrite E. cbn [default from_option]. rewrite lookup_empty. now destruct (decide _).
Qed.
Lemma hget_ok (e : env) (d : db) (s : sdb) (q : robj) (k : bytes) (f : bytes) : good e d s -> f <> [] -> request q "hget" [k; f] ->
  exists d', handle e d q = Ret (d', Some (match hash_or_empty s k !! f with Some v => RBulk v | None => RNullBulk end)) /\ db_rel d' s.
Proof.
  intros G N Q. eapply good_gives; [exact G|eapply req2; [apply t_hget|exact Q]|]. apply spec_gives.
  intros out H. cbn [spec] in H. unfold hash_or_empty. destruct (sh s !! k); [|exact H].
  rewrite bool_decide_eq_false_2 in H by auto. exact H.
Qed.
Lemma hmget_ok (e : env) (d : db) (s : sdb) (q : robj) (k : bytes) (fs : list bytes) : good e d s -> fs <> [] -> request q "hmget" (k :: fs) ->
  exists d', handle e d q =
    Ret (d', Some (RArr (map (fun f => match hash_or_empty s k !! f with Some v => RBulk v | None => RNullBulk end) fs))) /\ db_rel d' s.
Proof.
  intros G N Q. eapply good_gives; [exact G|eapply req_key_many; [apply t_hmget|exact N|exact Q]|]. apply spec_gives.
  intros out H. exact H.
Qed.
Lemma hexists_ok (e : env) (d : db) (s : sdb) (q : robj) (k : bytes) (f : bytes) : good e d s -> f <> [] -> request q "hexists" [k; f] ->
  exists d', handle e d q = Ret (d', Some (RInt (match hash_or_empty s k !! f with Some _ => 1 | None => 0 end))) /\ db_rel d' s.
Proof.
  intros G N Q. eapply good_gives; [exact G|eapply req2; [apply t_hexists|exact Q]|]. apply spec_gives.
  intros out H. cbn [spec] in H. unfold hash_or_empty. destruct (sh s !! k) as [h|]; [|exact H].
  rewrite bool_decide_eq_false_2 in H by auto. rewrite H. cbn [default from_option]. unfold id. destruct (h !! f) eqn:E.
  - rewrite bool_decide_eq_true_2 by eauto. reflexivity.
  - rewrite bool_decide_eq_false_2 by (intros [? ?]; discriminate). reflexivity.
Qed.
Lemma hlen_ok (e : env) (d : db) (s : sdb) (q : robj) (k : bytes) : good e d s -> request q "hlen" [k] ->
  exists d', handle e d q = Ret (d', Some (RInt (Z.of_nat (size (hash_or_empty s k))))) /\ db_rel d' s.
Proof. intros G Q. eapply good_gives; [exact G|eapply req1; [apply t_hlen|exact Q]|]. apply spec_gives. intros out H. exact H. Qed.
Lemma hstrlen_ok (e : env) (d : db) (s : sdb) (q : robj) (k : bytes) (f : bytes) : good e d s -> f <> [] -> request q "hstrlen" [k; f] ->
  exists d', handle e d q = Ret (d', Some (RInt (match hash_or_empty s k !! f with Some v => blen v | None => 0 end))) /\ db_rel d' s.
Proof.
  intros G N Q. eapply good_gives; [exact G|eapply req2; [apply t_hstrlen|exact Q]|]. apply spec_gives.
  intros out H. cbn [spec] in H. unfold hash_or_empty. destruct (sh s !! k) as [h|]; [|exact H].
  rewrite bool_decide_eq_false_2 in H by auto. rewrite H. cbn [default from_option]. unfold id. destruct (h !! f) eqn:E; reflexivity.
Qed.
Lemma hash_history (k : bytes) h ocs v xs : k <> [] -> Forall (fun x => env_ok (fst x)) h -> requests_size (map snd h) < 2 ^ 62 ->
  Forall2 (fun q oc => match oc with
                       | Some c => asks q c /\ names c = [k]
                       | None => ~ writes q KHash k
                       end) (map snd h) ocs ->
  ideal_run ideal_hash None ocs = Some (v, xs) ->
  match run new_db h with
  | Ret (d, rs) => Forall2 agrees xs rs /\ exists s, db_rel d s /\ fits s /\ sh s !! k = v
  | Panic => None ∈ ocs
  | NoFuel => False
  end.
Proof.
  intros Hk He Hw Hq Hi.
  apply (history (fun s => sh s !! k) (fun s v => with_sh s (set_at k v (sh s))) ideal_hash (fun c => names c = [k])
    (fun s v => set_at_get k v (sh s))
    (fun s c v r Hn H => ideal_hash_gives s c k v r Hk Hn H) (fun q => ~ writes q KHash k)); auto.
  intros s q s' r Ho Ha. symmetry. exact (answer_frame s q s' r KHash k Ha Ho).
Qed.

(* A reply chosen by the environment among those allowed. *)
Lemma good_some e d s q c s' : good e d s -> asks q c -> ~ crashes s c ->
  (forall out, spec s c out -> out = None \/ exists r, out = says s' r) ->
  exists d' r, handle e d q = Ret (d', Some r) /\ db_rel d' s' /\ spec s c (says s' r).
Proof.
  intros (He & Hr & Hf) Q Hc HS. pose proof (handle_asks e d s q c He Hr Hf Q) as H.
  destruct (handle e d q) as [[d' [r|]]| |]; try contradiction.
  - destruct H as (s1 & Hr1 & [H|(er & H & _)]); destruct (HS _ H) as [E|(r' & E)]; try discriminate.
    injection E as -> ->. exists d', r'. auto.
  - destruct Hc. apply spec_crashes; auto. now apply (asks_wf q).
Qed.

(* [l] lists the fields of [h], each once *)
Definition lists_fields (l : list bytes) (h : gmap bytes bytes) : Prop := NoDup l /\ forall f, f ∈ l <-> is_Some (h !! f).
Lemma lists_dom l h : lists_set l (dom h) -> lists_fields l h.
Proof. intros [H1 H2]. split; auto. intros f. rewrite H2. apply elem_of_dom. Qed.
Lemma hkeys_ok (e : env) (d : db) (s : sdb) (q : robj) (k : bytes) (h : gmap bytes bytes) : good e d s -> request q "hkeys" [k] -> sh s !! k = Some h ->
  exists d' l, handle e d q = Ret (d', Some (RArr (map RBulk l))) /\ db_rel d' s /\ lists_fields l h.
Proof.
  intros G Q E. destruct (good_some e d s q (CHkeys k) s G) as (d' & r & H1 & H2 & H3); auto.
  - eapply req1; [apply t_hkeys|exact Q].
  - intros out H. cbn [spec] in H. rewrite E in H. destruct H as (l & _ & H). eauto.
  - cbn [spec] in H3. rewrite E in H3. destruct H3 as (l & Hl & H3). injection H3 as ->. exists d', l. auto using lists_dom.
Qed.
Lemma hvals_ok (e : env) (d : db) (s : sdb) (q : robj) (k : bytes) (h : gmap bytes bytes) : good e d s -> request q "hvals" [k] -> sh s !! k = Some h ->
  exists d' l vs, handle e d q = Ret (d', Some (RArr (map RBulk vs))) /\ db_rel d' s /\ lists_fields l h /\
    Forall2 (fun f v => h !! f = Some v) l vs.
Proof.
  intros G Q E. destruct (good_some e d s q (CHvals k) s G) as (d' & r & H1 & H2 & H3); auto.
  - eapply req1; [apply t_hvals|exact Q].
  - intros out H. cbn [spec] in H. rewrite E in H. destruct H as (l & _ & H). eauto.
  - cbn [spec] in H3. rewrite E in H3. destruct H3 as (l & Hl & H3). injection H3 as ->. apply lists_dom in Hl.
    exists d', l, (map (fun f => text (h !! f)) l). destruct Hl as [Hn Hl].
    assert (HF : Forall (fun f => is_Some (h !! f)) l) by (apply Forall_forall; intros f Hf; now apply Hl).
    split; [|split; [exact H2|split; [split; auto|]]].
    + rewrite H1. do 4 f_equal. rewrite map_map. clear -HF. induction HF as [|f l [v Hv] _ IH]; cbn; auto. rewrite Hv. f_equal. exact IH.
    + clear -HF. induction HF as [|f l [v Hv] _ IH]; cbn; constructor; auto. now rewrite Hv.
Qed.
Lemma hgetall_ok (e : env) (d : db) (s : sdb) (q : robj) (k : bytes) (h : gmap bytes bytes) : good e d s -> request q "hgetall" [k] -> sh s !! k = Some h ->
  exists d' l, handle e d q = Ret (d', Some (RArr (map RBulk (alternate l)))) /\ db_rel d' s /\ lists_fields l.*1 h /\
    Forall (fun p => h !! p.1 = Some p.2) l.
Proof.
  intros G Q E. destruct (good_some e d s q (CHgetall k) s G) as (d' & r & H1 & H2 & H3); auto.
  - eapply req1; [apply t_hgetall|exact Q].
  - intros out H. cbn [spec] in H. rewrite E in H. destruct H as (l & _ & H). eauto.
  - cbn [spec] in H3. rewrite E in H3. destruct H3 as (l & Hl & H3). injection H3 as ->. apply lists_dom in Hl.
    exists d', (map (fun f => (f, text (h !! f))) l). destruct Hl as [Hn Hl].
    assert (HF : Forall (fun f => is_Some (h !! f)) l) by (apply Forall_forall; intros f Hf; now apply Hl).
    assert (E1 : (map (fun f => (f, text (h !! f))) l).*1 = l) by (clear; induction l; cbn; f_equal; auto).
    split; [|split; [exact H2|rewrite E1; split; [split; auto|]]].
    + rewrite H1. do 4 f_equal. clear -HF. induction HF as [|f l [v Hv] _ IH]; cbn [flat_map map alternate app]; auto. rewrite Hv. cbn [text r_opt]. do 2 f_equal. exact IH.
    + clear -HF. induction HF as [|f l [v Hv] _ IH]; cbn; constructor; auto. cbn. now rewrite Hv.
Qed.
Lemma hash_enum_absent (e : env) (d : db) (s : sdb) (q : robj) (w : string) (k : bytes) : good e d s -> (w = "hkeys" \/ w = "hvals" \/ w = "hgetall")%string -> request q w [k] -> sh s !! k = None ->
  exists d', handle e d q = Ret (d', Some RNullArr) /\ db_rel d' s.
Proof.
  intros G [->|[->| ->]] Q E; (eapply good_gives; [exact G|eapply req1; [constructor|exact Q]|]); apply spec_gives;
    intros out H; cbn [spec] in H; rewrite E in H; exact H.
Qed.

(* ---- sets ---- *)
Lemma sadd_ok (e : env) (d : db) (s : sdb) (q : robj) (k : bytes) (vs : list bytes) : good e d s -> k <> [] -> vs <> [] -> request q "sadd" (k :: vs) ->
  exists d', handle e d q = Ret (d', Some (RInt (Z.of_nat (size (list_to_set vs ∖ set_or_empty s k : gset bytes))))) /\
    db_rel d' (with_st s (<[k := set_or_empty s k ∪ list_to_set vs]> (st s))).
Proof.
  intros G Hk N Q. eapply good_gives; [exact G|eapply req_key_many; [apply t_sadd|exact N|exact Q]|]. apply spec_gives.
  intros out H. cbn [spec] in H. rewrite bool_decide_eq_false_2 in H by auto. exact H.
Qed.
Lemma srem_ok (e : env) (d : db) (s : sdb) (q : robj) (k : bytes) (vs : list bytes) : good e d s -> k <> [] -> vs <> [] -> request q "srem" (k :: vs) ->
  exists d', handle e d q = Ret (d', Some (RInt (Z.of_nat (size (set_or_empty s k ∩ list_to_set vs))))) /\
    db_rel d' (with_st s (<[k := set_or_empty s k ∖ list_to_set vs]> (st s))).
Proof.
  intros G Hk N Q. eapply good_gives; [exact G|eapply req_key_many; [apply t_srem|exact N|exact Q]|]. apply spec_gives.
  intros out H. cbn [spec] in H. rewrite bool_decide_eq_false_2 in H by auto. exact H.
Qed.
Lemma sismember_ok (e : env) (d : db) (s : sdb) (q : robj) (k : bytes) (v : bytes) : good e d s -> v <> [] -> request q "sismember" [k; v] ->
  exists d', handle e d q = Ret (d', Some (RInt (if decide (v ∈ set_or_empty s k) then 1 else 0))) /\ db_rel d' s.
Proof.
  intros G N Q. eapply good_gives; [exact G|eapply req2; [apply t_sismember|exact Q]|]. apply spec_gives.
  intros out H. cbn [spec] in H. unfold set_or_empty. destruct (st s !! k) as [X|].
  - rewrite bool_decide_eq_false_2 in H by auto. rewrite H. cbn [default from_option]. unfold id.
    destruct (decide (v ∈ X)); [rewrite bool_decide_eq_true_2 by auto|rewrite bool_decide_eq_false_2 by auto]; reflexivity.
  - rewrite H. destruct (decide _) as [Hin|]; [|reflexivity]. cbn in Hin. set_solver.
Qed.
Lemma scard_ok (e : env) (d : db) (s : sdb) (q : robj) (k : bytes) : good e d s -> request q "scard" [k] ->
  exists d', handle e d q = Ret (d', Some (RInt (Z.of_nat (size (set_or_empty s k))))) /\ db_rel d' s.
Proof. intros G Q. eapply good_gives; [exact G|eapply req1; [apply t_scard|exact Q]|]. apply spec_gives. intros out H. exact H. Qed.
Lemma smembers_ok (e : env) (d : db) (s : sdb) (q : robj) (k : bytes) (X : gset bytes) : good e d s -> request q "smembers" [k] -> st s !! k = Some X ->
  exists d' l, handle e d q = Ret (d', Some (RArr (map RBulk l))) /\ db_rel d' s /\ NoDup l /\ forall x, x ∈ l <-> x ∈ X.
Proof.
  intros G Q E. destruct (good_some e d s q (CSmembers k) s G) as (d' & r & H1 & H2 & H3); auto.
  - eapply req1; [apply t_smembers|exact Q].
  - intros out H. cbn [spec] in H. rewrite E in H. destruct H as (l & _ & H). eauto.
  - cbn [spec] in H3. rewrite E in H3. destruct H3 as (l & [Hn Hl] & H3). injection H3 as ->. exists d', l. auto.
Qed.
Lemma smembers_absent (e : env) (d : db) (s : sdb) (q : robj) (k : bytes) : good e d s -> request q "smembers" [k] -> st s !! k = None ->
  exists d', handle e d q = Ret (d', Some RNullArr) /\ db_rel d' s.
Proof.
  intros G Q E. eapply good_gives; [exact G|eapply req1; [apply t_smembers|exact Q]|]. apply spec_gives.
  intros out H. cbn [spec] in H. rewrite E in H. exact H.
Qed.
Lemma set_history (k : bytes) h ocs v xs : k <> [] -> Forall (fun x => env_ok (fst x)) h -> requests_size (map snd h) < 2 ^ 62 ->
  Forall2 (fun q oc => match oc with
                       | Some c => asks q c /\ names c = [k]
                       | None => ~ writes q KSet k
                       end) (map snd h) ocs ->
  ideal_run ideal_set None ocs = Some (v, xs) ->
  match run new_db h with
  | Ret (d, rs) => Forall2 agrees xs rs /\ exists s, db_rel d s /\ fits s /\ st s !! k = v
  | Panic => None ∈ ocs
  | NoFuel => False
  end.
Proof.
  intros Hk He Hw Hq Hi.
  apply (history (fun s => st s !! k) (fun s v => with_st s (set_at k v (st s))) ideal_set (fun c => names c = [k])
    (fun s v => set_at_get k v (st s))
    (fun s c v r Hn H => ideal_set_gives s c k v r Hk Hn H) (fun q => ~ writes q KSet k)); auto.
  intros s q s' r Ho Ha. symmetry. exact (answer_frame s q s' r KSet k Ha Ho).
Qed.

(* ---- set algebra ---- *)
(* The reply lists exactly the [x] with [P x], each once; the null array if none. *)
Definition replies_set (r : robj) (P : bytes -> Prop) : Prop :=
  (r = RNullArr /\ forall x, ~ P x) \/
  exists l, l <> [] /\ r = RArr (map RBulk l) /\ NoDup l /\ forall x, x ∈ l <-> P x.
Lemma sets_ok e d s q c op ks (P : bytes -> Prop) : good e d s -> asks q c -> ~ crashes s c -> 
  (forall out, spec s c out -> spec_sets op s ks out) ->
  (forall X Xs, map (set_or_empty s) ks = X :: Xs -> forall x, x ∈ op X Xs <-> P x) -> ks <> [] ->
  exists d' r, handle e d q = Ret (d', Some r) /\ db_rel d' s /\ replies_set r P.
Proof.
  intros G Q Hc HS HP N. destruct ks as [|k0 ks]; [congruence|].
  destruct (good_some e d s q c s G Q Hc) as (d' & r & H1 & H2 & H3).
  { intros out H. apply HS in H. unfold spec_sets in H. cbn [map] in H. destruct H as [(_ & H)|(_ & l & _ & H)]; eauto. }
  apply HS in H3. unfold spec_sets in H3. cbn [map] in H3, HP. specialize (HP _ _ eq_refl).
  exists d', r. split; [exact H1|]. split; [exact H2|].
  destruct H3 as [(HE & H3)|(HE & l & [Hn Hl] & H3)]; injection H3 as ->.
  - left. split; auto. intros x. rewrite <- HP, HE. set_solver.
  - right. exists l. split; [|split; [reflexivity|split; [auto|]]].
    + intros ->. apply HE. apply set_eq. intros x. rewrite <- Hl. set_solver.
    + intros x. rewrite Hl. apply HP.
Qed.
Lemma elem_union_map s ks x : x ∈ ⋃ (map (set_or_empty s) ks) <-> exists k, k ∈ ks /\ x ∈ set_or_empty s k.
Proof.
  rewrite elem_of_union_list. split.
  - intros (X & HX & Hx). apply elem_of_list_In, in_map_iff in HX as (k & <- & Hk). exists k. split; auto. now apply elem_of_list_In.
  - intros (k & Hk & Hx). exists (set_or_empty s k). split; auto. apply elem_of_list_In, in_map. now apply elem_of_list_In.
Qed.
Lemma sdiff_ok (e : env) (d : db) (s : sdb) (q : robj) (k : bytes) (ks : list bytes) : good e d s -> request q "sdiff" (k :: ks) ->
  exists d' r, handle e d q = Ret (d', Some r) /\ db_rel d' s /\
    replies_set r (fun x => x ∈ set_or_empty s k /\ forall k', k' ∈ ks -> x ∉ set_or_empty s k').
Proof.
  intros G Q. 
  apply (sets_ok e d s q (CSdiff (k :: ks)) (fun X Xs => X ∖ ⋃ Xs) (k :: ks)); [exact G| |intros []|intros out H; exact H| |discriminate].
  - eapply (req_many q "sdiff" CSdiff); [apply t_sdiff|discriminate|exact Q].
  - intros X Xs [= <- <-] x. rewrite elem_of_difference, elem_union_map. split.
    + intros [H1 H2]. split; auto. intros k' Hk Hx. apply H2. eauto.
    + intros [H1 H2]. split; auto. intros (k' & Hk & Hx). exact (H2 _ Hk Hx).
Qed.
Lemma sunion_ok (e : env) (d : db) (s : sdb) (q : robj) (ks : list bytes) : good e d s -> ks <> [] -> request q "sunion" ks ->
  exists d' r, handle e d q = Ret (d', Some r) /\ db_rel d' s /\ replies_set r (fun x => exists k, k ∈ ks /\ x ∈ set_or_empty s k).
Proof.
  intros G N Q. 
  apply (sets_ok e d s q (CSunion ks) (fun X Xs => X ∪ ⋃ Xs) ks); [exact G| |intros []|intros out H; exact H| |exact N].
  - eapply (req_many q "sunion" CSunion); [apply t_sunion|exact N|exact Q].
  - intros X Xs E x. rewrite <- elem_union_map, E. change (⋃ (X :: Xs)) with (X ∪ ⋃ Xs). reflexivity.
Qed.
Lemma elem_inter_fold (Xs : list (gset bytes)) : forall X x, x ∈ foldl (fun A B => A ∩ B) X Xs <-> x ∈ X /\ Forall (fun Y => x ∈ Y) Xs.
Proof.
  induction Xs as [|Y Xs IH]; intros X x; cbn [foldl].
  - split; [intros H; split; auto|intros [H _]; auto].
  - rewrite IH, elem_of_intersection, Forall_cons. tauto.
Qed.
Lemma sinter_ok (e : env) (d : db) (s : sdb) (q : robj) (ks : list bytes) : good e d s -> ks <> [] -> request q "sinter" ks ->
  exists d' r, handle e d q = Ret (d', Some r) /\ db_rel d' s /\ replies_set r (fun x => forall k, k ∈ ks -> x ∈ set_or_empty s k).
Proof.
  intros G N Q. 
  apply (sets_ok e d s q (CSinter ks) (fun X Xs => foldl (fun A B => A ∩ B) X Xs) ks); [exact G| |intros []|intros out H; exact H| |exact N].
  - eapply (req_many q "sinter" CSinter); [apply t_sinter|exact N|exact Q].
  - intros X Xs E x. rewrite elem_inter_fold, <- (Forall_cons (fun Y => x ∈ Y)), <- E, Forall_forall. split.
    + intros H k Hk. apply H. apply elem_of_list_In, in_map. now apply elem_of_list_In.
    + intros H Y HY. apply elem_of_list_In, in_map_iff in HY as (k & <- & Hk). apply H. now apply elem_of_list_In.
Qed.

(* ---- random members ---- *)
Definition chooses (l : list bytes) (n : Z) (X : gset bytes) : Prop :=
  NoDup l /\ (forall x, x ∈ l -> x ∈ X) /\ Z.of_nat (length l) = Z.min n (Z.of_nat (size X)).
Lemma handle_picks e d s q c : good e d s -> asks q c -> ~ crashes s c -> (forall s' er, ~ spec s c (errs s' er)) ->
  exists d' s' r, handle e d q = Ret (d', Some r) /\ db_rel d' s' /\ spec s c (says s' r).
Proof.
  intros (He & Hr & Hf) Q Hc HE. pose proof (handle_asks e d s q c He Hr Hf Q) as H.
  destruct (handle e d q) as [[d' [r|]]| |]; try contradiction.
  - destruct H as (s1 & Hr1 & [H|(er & H & _)]); [exists d', s1, r; auto|destruct (HE _ _ H)].
  - destruct Hc. apply spec_crashes; auto. now apply (asks_wf q).
Qed.
Definition chooses_reply (l : list bytes) : robj := match l with [] => RNullArr | _ => RArr (map RBulk l) end.
Lemma srandmember_ok (e : env) (d : db) (s : sdb) (q : robj) (k : bytes) (tn : bytes) (n : Z) : good e d s -> request q "srandmember" [k; tn] -> is_int tn n ->
  exists d' l, handle e d q = Ret (d', Some (chooses_reply l)) /\ db_rel d' s /\ chooses l (Z.abs n) (set_or_empty s k).
Proof.
  intros G Q In. assert (Q' : asks q (CSrandmember k n true)) by (eapply req_count; eauto; apply t_srandmember).
  destruct (handle_picks e d s q _ G Q') as (d' & s' & r & H1 & H2 & H3).
  { intros [H _]. discriminate. }
  { intros s' er H. cbn [spec] in H. crunch H; discriminate. }
  cbn [spec] in H3. unfold set_or_empty. destruct (st s !! k) as [X|].
  - destruct H3 as (l & Hp & H3). exists d', l. unfold pick_reply in H3. 
    assert (H4 : says s' r = says s (chooses_reply l)) by (destruct l; exact H3). injection H4 as -> ->. auto.
  - injection H3 as -> ->. exists d', []. split; [exact H1|]. split; [exact H2|]. split; [constructor|]. split; [intros x Hx; inversion Hx|].
    cbn [default from_option]. rewrite size_empty. cbn. lia.
Qed.
Lemma spop_ok (e : env) (d : db) (s : sdb) (q : robj) (k : bytes) (tn : bytes) (n : Z) : good e d s -> request q "spop" [k; tn] -> is_int tn n ->
  exists d' s' l, handle e d q = Ret (d', Some (chooses_reply l)) /\ chooses l (Z.abs n) (set_or_empty s k) /\ db_rel d' s' /\
    set_or_empty s' k = set_or_empty s k ∖ list_to_set l /\
    (forall k', k' <> k -> st s' !! k' = st s !! k') /\ ss s' = ss s /\ sl s' = sl s /\ sh s' = sh s.
Proof.
  intros G Q In. assert (Q' : asks q (CSpop k n true)) by (eapply req_count; eauto; apply t_spop).
  destruct (handle_picks e d s q _ G Q') as (d' & s' & r & H1 & H2 & H3).
  { intros [H _]. discriminate. }
  { intros s' er H. cbn [spec] in H. crunch H; discriminate. }
  cbn [spec] in H3. unfold set_or_empty. destruct (st s !! k) as [X|] eqn:E.
  - destruct H3 as (l & Hp & H3). unfold pick_reply in H3.
    assert (H4 : says s' r = says (with_st s (<[k := X ∖ list_to_set l]> (st s))) (chooses_reply l)) by (destruct l; exact H3).
    injection H4 as -> ->. eexists d', _, l. split; [exact H1|]. split; [exact Hp|]. split; [exact H2|]. cbn [with_st st ss sl sh].
    split; [now rewrite lookup_insert|]. split; [|auto]. intros k' Hk. now rewrite lookup_insert_ne by congruence.
  - injection H3 as -> ->. exists d', s, []. split; [exact H1|]. split.
    + split; [constructor|]. split; [intros x Hx; inversion Hx|]. cbn [default from_option]. rewrite size_empty. cbn. lia.
    + split; [exact H2|]. rewrite E. split; [set_solver|auto].
Qed.
Lemma choice_one l X : chooses l (Z.abs 1) X -> X <> ∅ -> exists x, l = [x] /\ x ∈ X.
Proof.
  intros (_ & H1 & H2) HX. assert (size X <> 0%nat).
  { intros Hs. apply HX. apply size_empty_inv in Hs. now apply leibniz_equiv. }
  destruct l as [|x [|y l]]; cbn [length] in H2; try lia. exists x. split; auto. apply H1. left.
Qed.
Lemma srandmember1_ok (e : env) (d : db) (s : sdb) (q : robj) (k : bytes) : good e d s -> request q "srandmember" [k] -> set_or_empty s k <> ∅ ->
  exists d' x, handle e d q = Ret (d', Some (RBulk x)) /\ db_rel d' s /\ x ∈ set_or_empty s k.
Proof.
  intros G Q HX. assert (Q' : asks q (CSrandmember k 1 false)) by (eapply req_count0; eauto; apply t_srandmember).
  unfold set_or_empty in *. destruct (st s !! k) as [X|] eqn:E; [|now destruct HX]. cbn [default from_option] in *. unfold id in *.
  destruct (handle_picks e d s q _ G Q') as (d' & s' & r & H1 & H2 & H3).
  { intros [_ H]. rewrite E in H. injection H as ->. congruence. }
  { intros s' er H. cbn [spec] in H. crunch H; discriminate. }
  cbn [spec] in H3. rewrite E in H3. destruct H3 as (l & Hp & H3). destruct (choice_one _ _ Hp HX) as (x & -> & Hx).
  cbn [pick_reply] in H3. injection H3 as -> ->. exists d', x. auto.
Qed.
Lemma spop1_ok (e : env) (d : db) (s : sdb) (q : robj) (k : bytes) : good e d s -> request q "spop" [k] -> set_or_empty s k <> ∅ ->
  exists d' x, handle e d q = Ret (d', Some (RBulk x)) /\ x ∈ set_or_empty s k /\
    db_rel d' (with_st s (<[k := set_or_empty s k ∖ {[x]}]> (st s))).
Proof.
  intros G Q HX. assert (Q' : asks q (CSpop k 1 false)) by (eapply req_count0; eauto; apply t_spop).
  unfold set_or_empty in *. destruct (st s !! k) as [X|] eqn:E; [|now destruct HX]. cbn [default from_option] in *. unfold id in *.
  destruct (handle_picks e d s q _ G Q') as (d' & s' & r & H1 & H2 & H3).
  { intros [_ H]. rewrite E in H. injection H as ->. congruence. }
  { intros s' er H. cbn [spec] in H. crunch H; discriminate. }
  cbn [spec] in H3. rewrite E in H3. destruct H3 as (l & Hp & H3). destruct (choice_one _ _ Hp HX) as (x & -> & Hx).
  cbn [pick_reply] in H3. injection H3 as -> ->. exists d', x. split; [exact H1|]. split; [exact Hx|].
  replace (X ∖ {[x]}) with (X ∖ list_to_set [x]) by set_solver. exact H2.
Qed.
Lemma pick_absent (e : env) (d : db) (s : sdb) (q : robj) (w : string) (k : bytes) : good e d s -> (w = "spop" \/ w = "srandmember")%string -> request q w [k] -> st s !! k = None ->
  exists d', handle e d q = Ret (d', Some RNullBulk) /\ db_rel d' s.
Proof.
  intros G [->| ->] Q E.
  - assert (Q' : asks q (CSpop k 1 false)) by (eapply req_count0; eauto; apply t_spop).
    eapply good_gives; eauto. apply spec_gives. intros out H. cbn [spec] in H. rewrite E in H. exact H.
  - assert (Q' : asks q (CSrandmember k 1 false)) by (eapply req_count0; eauto; apply t_srandmember).
    eapply good_gives; eauto. apply spec_gives. intros out H. cbn [spec] in H. rewrite E in H. exact H.
Qed.
