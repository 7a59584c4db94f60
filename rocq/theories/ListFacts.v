(* Proofs for Props_Lists. *)
From Verif Require Import Base BaseFacts IntSpec IndexSpec ListSpec IntParse IntParseProofs Resp StringC HashC HashProofs Command SpecDb
  RequestSpec IdealSpec Db DbProofs Engine EngineProofs SpecFacts StringFacts.
From Coq Require Import ZArith List Ascii String Bool Lia.
From stdpp Require Import gmap.
Open Scope Z_scope.

Lemma list_history (k : bytes) h ocs v xs : k <> [] -> Forall (fun x => env_ok (fst x)) h -> requests_size (map snd h) < 2 ^ 62 ->
  Forall2 (fun q oc => match oc with
                       | Some c => asks q c /\ names c = [k]
                       | None => ~ writes q KList k
                       end) (map snd h) ocs ->
  ideal_run ideal_list None ocs = Some (v, xs) ->
  match run new_db h with
  | Ret (d, rs) => Forall2 agrees xs rs /\ exists s, db_rel d s /\ fits s /\ sl s !! k = v
  | Panic => None ∈ ocs
  | NoFuel => False
  end.
Proof.
  intros Hk He Hw Hq Hi.
  apply (history (fun s => sl s !! k) (fun s v => with_sl s (set_at k v (sl s))) ideal_list (fun c => names c = [k])
    (fun s v => set_at_get k v (sl s))
    (fun s c v r Hn H => ideal_list_gives s c k v r Hk Hn H) (fun q => ~ writes q KList k)); auto.
  intros s q s' r Ho Ha. symmetry. exact (answer_frame s q s' r KList k Ha Ho).
Qed.
Lemma list_step e d s q c (k : bytes) o r : good e d s -> asks q c -> k <> [] -> names c = [k] ->
  ideal_list (sl s !! k) c = Some (o, r) ->
  exists d', handle e d q = Ret (d', Some r) /\ db_rel d' (with_sl s (set_at k o (sl s))).
Proof. intros G Q Hk Hn H. eapply good_gives; eauto. now apply ideal_list_gives. Qed.

Lemma lpush_ok e d s q k vs : good e d s -> k <> [] -> vs <> [] -> request q "lpush" (k :: vs) ->
  let l := rev vs ++ list_or_nil s k in
  exists d', handle e d q = Ret (d', Some (RInt (Z.of_nat (length l)))) /\ db_rel d' (with_sl s (<[k := l]> (sl s))).
Proof.
  intros G Hk N Q l. eapply good_gives; [exact G|eapply req_key_many; [apply t_lpush|exact N|exact Q]|]. apply spec_gives.
  intros out H. cbn [spec] in H. rewrite bool_decide_eq_false_2 in H by auto. exact H.
Qed.
Lemma rpush_ok e d s q k vs : good e d s -> k <> [] -> vs <> [] -> request q "rpush" (k :: vs) ->
  let l := list_or_nil s k ++ vs in
  exists d', handle e d q = Ret (d', Some (RInt (Z.of_nat (length l)))) /\ db_rel d' (with_sl s (<[k := l]> (sl s))).
Proof.
  intros G Hk N Q l. eapply good_gives; [exact G|eapply req_key_many; [apply t_rpush|exact N|exact Q]|]. apply spec_gives.
  intros out H. cbn [spec] in H. rewrite bool_decide_eq_false_2 in H by auto. exact H.
Qed.
Lemma lpop_ok e d s q k v l : good e d s -> request q "lpop" [k] -> sl s !! k = Some (v :: l) ->
  exists d', handle e d q = Ret (d', Some (RBulk v)) /\ db_rel d' (with_sl s (<[k := l]> (sl s))).
Proof.
  intros G Q E. eapply good_gives; [exact G|eapply req1; [apply t_lpop|exact Q]|]. apply spec_gives.
  intros out H. cbn [spec] in H. rewrite E in H. exact H.
Qed.
Lemma rpop_ok e d s q k v l : good e d s -> request q "rpop" [k] -> sl s !! k = Some (l ++ [v]) ->
  exists d', handle e d q = Ret (d', Some (RBulk v)) /\ db_rel d' (with_sl s (<[k := l]> (sl s))).
Proof.
  intros G Q E. eapply good_gives; [exact G|eapply req1; [apply t_rpop|exact Q]|]. apply spec_gives.
  intros out H. cbn [spec] in H. unfold list_or_nil in H. rewrite E in H. cbn [default from_option] in H. unfold id in H.
  destruct (l ++ [v]) eqn:E2; [destruct l; discriminate|]. destruct H as (vs & v' & Hl & H). injection Hl as Hl.
  rewrite Hl in E2. apply app_inj_tail in E2 as [-> ->]. exact H.
Qed.
Lemma pop_empty_ok e d s q w k : good e d s -> (w = "lpop" \/ w = "rpop")%string -> request q w [k] -> list_or_nil s k = [] ->
  exists d', handle e d q = Ret (d', Some RNullBulk) /\ db_rel d' s.
Proof.
  intros G [->| ->] Q E.
  - eapply good_gives; [exact G|eapply req1; [apply t_lpop|exact Q]|]. apply spec_gives.
    intros out H. cbn [spec] in H. unfold list_or_nil in E. destruct (sl s !! k) as [l|]; [|exact H].
    cbn in E. unfold id in E. subst l. exact H.
  - eapply good_gives; [exact G|eapply req1; [apply t_rpop|exact Q]|]. apply spec_gives.
    intros out H. cbn [spec] in H. rewrite E in H. exact H.
Qed.
Lemma llen_ok e d s q k : good e d s -> request q "llen" [k] ->
  exists d', handle e d q = Ret (d', Some (RInt (Z.of_nat (length (list_or_nil s k))))) /\ db_rel d' s.
Proof. intros G Q. eapply good_gives; [exact G|eapply req1; [apply t_llen|exact Q]|]. apply spec_gives. intros out H. exact H. Qed.
Lemma lindex_ok e d s q k ti i : good e d s -> request q "lindex" [k; ti] -> is_int ti i ->
  let l := list_or_nil s k in let p := position i (Z.of_nat (length l)) in
  exists d' r, handle e d q = Ret (d', Some r) /\ db_rel d' s /\
    (0 <= p < Z.of_nat (length l) -> exists v, l !! Z.to_nat p = Some v /\ r = RBulk v) /\
    (~ 0 <= p < Z.of_nat (length l) -> r = RNullBulk).
Proof.
  intros G Q Ii l p.
  destruct (good_gives e d s q (CLindex k i) s (r_opt (if 0 <=? p then l !! Z.to_nat p else None)) G (req_lindex _ _ _ _ Ii Q)) as (d' & H1 & H2).
  { apply spec_gives. intros out H. exact H. }
  eexists d', _. split; [exact H1|]. split; [exact H2|]. split; intros Hp.
  - replace (0 <=? p) with true by lia. destruct (lookup_lt_is_Some_2 l (Z.to_nat p)) as [v Hv]; [lia|]. exists v. rewrite Hv. auto.
  - destruct (0 <=? p) eqn:E; auto. rewrite lookup_ge_None_2 by lia. reflexivity.
Qed.
Lemma lset_ok e d s q k ti i v l : good e d s -> request q "lset" [k; ti; v] -> is_int ti i -> sl s !! k = Some l ->
  let p := position i (Z.of_nat (length l)) in
  (0 <= p < Z.of_nat (length l) -> exists d', handle e d q = Ret (d', Some (RSimple (bs "OK"))) /\
      db_rel d' (with_sl s (<[k := <[Z.to_nat p := v]> l]> (sl s)))) /\
  (~ 0 <= p < Z.of_nat (length l) -> exists d', handle e d q = Ret (d', Some (err "ERR index out of range")) /\ db_rel d' s).
Proof.
  intros G Q Ii E p. assert (Q' : asks q (CLset k i v)) by (eapply req_int_str; eauto; apply t_lset).
  split; intros Hp.
  - eapply good_gives; [exact G|exact Q'|]. apply spec_gives. intros out H. cbn [spec] in H. rewrite E in H. fold p in H.
    replace (0 <=? p) with true in H by lia. replace (p <? Z.of_nat (length l)) with true in H by lia. exact H.
  - eapply good_gives; [exact G|exact Q'|]. intros out H. right. exists ERange. split; [|auto]. cbn [spec] in H. rewrite E in H. fold p in H.
    destruct (0 <=? p) eqn:E1; destruct (p <? Z.of_nat (length l)) eqn:E2; cbn [andb] in H; try exact H. lia.
Qed.
Lemma lset_absent e d s q k ti i v : good e d s -> request q "lset" [k; ti; v] -> is_int ti i -> sl s !! k = None ->
  exists d', handle e d q = Ret (d', Some (err "ERR no such key")) /\ db_rel d' s.
Proof.
  intros G Q Ii E. assert (Q' : asks q (CLset k i v)) by (eapply req_int_str; eauto; apply t_lset).
  eapply good_gives; [exact G|exact Q'|]. intros out H. right. exists ENoKey. split; [|auto]. cbn [spec] in H. rewrite E in H. exact H.
Qed.

Lemma lrem_ok e d s q k tn n v l : good e d s -> request q "lrem" [k; tn; v] -> is_int tn n -> sl s !! k = Some l ->
  n <> - 2 ^ 63 -> v <> reserved ->
  let l' := if n =? 0 then remove_first (length l) v l
            else if 0 <? n then remove_first (Z.to_nat n) v l
            else rev (remove_first (Z.to_nat (- n)) v (rev l)) in
  exists d', handle e d q = Ret (d', Some (RInt (Z.of_nat (length l) - Z.of_nat (length l')))) /\
    db_rel d' (with_sl s (<[k := l']> (sl s))).
Proof.
  intros G Q In E Hn Hv l'. assert (Q' : asks q (CLrem k n v)) by (eapply req_int_str; eauto; apply t_lrem).
  eapply good_gives; [exact G|exact Q'|]. apply spec_gives. intros out H. cbn [spec] in H. rewrite E in H.
  apply Z.eqb_neq in Hn. rewrite Hn, bool_decide_eq_false_2 in H by auto. exact H.
Qed.
(* [remove_first] against occurrence counts *)
Definition occurrences (v : bytes) (l : list bytes) : nat := length (filter (fun x => x = v) l).
Definition others (v : bytes) (l : list bytes) : list bytes := filter (fun x => x <> v) l.
Lemma bytes_eqb_iff a b : bytes_eqb a b = true <-> a = b.
Proof. split; [apply bytes_eqb_eq|intros ->; apply bytes_eqb_refl]. Qed.
Lemma remove_first_spec n v l :
  occurrences v (remove_first n v l) = (occurrences v l - n)%nat /\ others v (remove_first n v l) = others v l /\
  remove_first n v l `sublist_of` l.
Proof.
  unfold occurrences, others. revert n. induction l as [|x l IH]; intros n.
  - destruct n; cbn; repeat split; auto; constructor.
  - destruct n as [|n]; cbn [remove_first].
    { rewrite Nat.sub_0_r. repeat split; auto. }
    destruct (bytes_eqb x v) eqn:E.
    + apply bytes_eqb_iff in E as ->. destruct (IH n) as (H1 & H2 & H3). 
      rewrite filter_cons_True, filter_cons_False by (congruence || tauto). cbn [length]. split; [|split; auto].
      * rewrite H1. lia.
      * now constructor.
    + assert (Hne : x <> v) by (intros ->; rewrite (proj2 (bytes_eqb_iff v v) eq_refl) in E; discriminate).
      destruct (IH (S n)) as (H1 & H2 & H3). 
      rewrite !(filter_cons_False (fun x => x = v)), !(filter_cons_True (fun x => x <> v)) by auto. split; [auto|]. split; [congruence|].
      now constructor.
Qed.

Lemma linsert_ok e d s q w (after : bool) k ww p v l : good e d s -> request q "linsert" [k; ww; p; v] ->
  spells ww (bs w) -> w = (if after then "after" else "before")%string -> sl s !! k = Some l -> p <> reserved ->
  match insert_near after p v l with
  | Some l' => exists d', handle e d q = Ret (d', Some (RInt (Z.of_nat (length l')))) /\ db_rel d' (with_sl s (<[k := l']> (sl s)))
  | None => exists d', handle e d q = Ret (d', Some (RInt (-1))) /\ db_rel d' s
  end.
Proof.
  intros G Q Hw Ew E Hp.
  assert (Q' : asks q (CLinsert k after p v)).
  { destruct after; subst w; [eapply req_after|eapply req_before]; eauto. }
  assert (HS : forall out, spec s (CLinsert k after p v) out ->
    match insert_near after p v l with
    | Some l' => out = says (with_sl s (<[k := l']> (sl s))) (r_nat (length l'))
    | None => out = says s (RInt (-1))
    end).
  { intros out H. cbn [spec] in H. rewrite E, bool_decide_eq_false_2 in H by auto. exact H. }
  destruct (insert_near after p v l); eapply good_gives; eauto; now apply spec_gives.
Qed.
Lemma linsert_absent e d s q w (after : bool) k ww p v : good e d s -> request q "linsert" [k; ww; p; v] ->
  spells ww (bs w) -> w = (if after then "after" else "before")%string -> sl s !! k = None ->
  exists d', handle e d q = Ret (d', Some (RInt 0)) /\ db_rel d' s.
Proof.
  intros G Q Hw Ew E.
  assert (Q' : asks q (CLinsert k after p v)).
  { destruct after; subst w; [eapply req_after|eapply req_before]; eauto. }
  eapply good_gives; eauto. apply spec_gives. intros out H. cbn [spec] in H. rewrite E in H. exact H.
Qed.
(* what [insert_near] does *)
Lemma insert_near_spec after p v l :
  match insert_near after p v l with
  | Some l' => exists l1 l2, l = l1 ++ p :: l2 /\ p ∉ l1 /\ l' = l1 ++ (if after then [p; v] else [v; p]) ++ l2
  | None => p ∉ l
  end.
Proof.
  induction l as [|y l IH]; cbn [insert_near]; [intros H; inversion H|].
  destruct (bytes_eqb y p) eqn:E.
  - apply bytes_eqb_iff in E as ->. exists [], l. split; [reflexivity|]. split; [intros H; inversion H|]. now destruct after.
  - assert (Hne : y <> p) by (intros ->; rewrite (proj2 (bytes_eqb_iff p p) eq_refl) in E; discriminate).
    destruct (insert_near after p v l) as [r|].
    + destruct IH as (l1 & l2 & -> & Hn & ->). exists (y :: l1), l2. split; [reflexivity|]. split; [|reflexivity].
      apply not_elem_of_cons. auto.
    + apply not_elem_of_cons. auto.
Qed.

Lemma range_of_spec a b l :
  let n := Z.of_nat (length l) in let pa := position a n in let pb := position b n in
  (0 <= pa < n /\ pa <= pb ->
     Z.of_nat (length (range_of a b l)) = Z.min pb (n - 1) - pa + 1 /\
     forall i, 0 <= i < Z.of_nat (length (range_of a b l)) -> range_of a b l !! Z.to_nat i = l !! Z.to_nat (pa + i)) /\
  (~ (0 <= pa < n /\ pa <= pb) -> range_of a b l = []).
Proof.
  intros n pa pb. unfold range_of. fold n. fold pa. fold pb.
  destruct (0 <=? pa) eqn:E1; destruct (pa <? n) eqn:E2; destruct (pa <=? pb) eqn:E3; cbn [andb];
      (split; [intros Hc|intros Hc; try reflexivity]); try lia.
  apply sub_list_spec; unfold n in *; lia.
Qed.
Lemma lrange_ok e d s q k ta tb a b : good e d s -> request q "lrange" [k; ta; tb] -> is_int ta a -> is_int tb b ->
  0 <= position b (Z.of_nat (length (list_or_nil s k))) ->
  exists d', handle e d q = Ret (d', Some (match range_of a b (list_or_nil s k) with [] => RNullArr | r => RArr (map RBulk r) end))
    /\ db_rel d' s.
Proof.
  intros G Q Ia Ib Hb. eapply good_gives; [exact G|exact (req_range q "lrange" CLrange k ta tb a b t_lrange Ia Ib Q)|].
  apply spec_gives. intros out H. cbn [spec] in H. rewrite seg_range in H by auto. destruct (range_of a b _); exact H.
Qed.
Lemma ltrim_ok e d s q k ta tb a b l : good e d s -> request q "ltrim" [k; ta; tb] -> is_int ta a -> is_int tb b ->
  sl s !! k = Some l -> range_of a b l <> [] ->
  exists d', handle e d q = Ret (d', Some (RSimple (bs "OK"))) /\ db_rel d' (with_sl s (<[k := range_of a b l]> (sl s))).
Proof.
  intros G Q Ia Ib E Hr. eapply good_gives; [exact G|exact (req_range q "ltrim" CLtrim k ta tb a b t_ltrim Ia Ib Q)|].
  apply spec_gives. intros out H. cbn [spec] in H. rewrite E in H.
  destruct (Z_lt_le_dec (position b (Z.of_nat (length l))) 0) as [Hb|Hb]; [rewrite range_neg in Hr by auto; congruence|].
  rewrite seg_range in H by auto. destruct (range_of a b l); [congruence|exact H].
Qed.

Lemma list_no_crash e d s q c : good e d s -> asks q c -> kind_of c = KList ->
  (forall k n, c <> CLrem k n reserved) -> (forall k v, c <> CLinsert k false reserved v) ->
  exists d' r, handle e d q = Ret (d', Some r).
Proof.
  intros (He & Hr & Hf) Q HK H1 H2.
  destruct (handle_total e d s q He Hr Hf) as (d' & r & E).
  - intros c' Q' Hc. rewrite (asks_det _ _ _ Q' Q) in Hc. destruct c; try discriminate HK; cbn in Hc; try contradiction.
    + destruct Hc as (-> & _). now destruct (H1 k count).
    + destruct Hc as (-> & -> & _). now destruct (H2 k v).
  - pose proof (handle_asks e d s q c He Hr Hf Q) as H. rewrite E in *. destruct r; [eauto|contradiction].
Qed.
