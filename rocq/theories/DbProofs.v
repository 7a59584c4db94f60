(* The command layer refines the reference machine of SpecDb.v. *)
From Verif Require Import Base BaseFacts IntSpec IndexSpec ListSpec IntParse IntParseProofs Resp
  StringC StringCProofs StringMap HashC HashProofs LinkedList LinkedListProofs Command SpecDb Db.
From Coq Require Import ZArith List Ascii Bool Lia Permutation.
From stdpp Require Import gmap.
Open Scope Z_scope.

(* pointwise relation of maps *)
Definition mrel {A B} (R : A -> B -> Prop) (m : gmap bytes A) (s : gmap bytes B) : Prop :=
  forall k, option_Forall2 R (m !! k) (s !! k).

Lemma mrel_insert {A B} (R : A -> B -> Prop) m s k a b : mrel R m s -> R a b -> mrel R (<[k := a]> m) (<[k := b]> s).
Proof.
  intros H Hab j. destruct (decide (j = k)) as [->|].
  - rewrite !lookup_insert. now constructor.
  - rewrite !lookup_insert_ne by congruence. apply H.
Qed.
Lemma mrel_same {A B} (R : A -> B -> Prop) m s k a b : mrel R m s -> s !! k = Some b -> R a b -> mrel R (<[k := a]> m) s.
Proof. intros H E Hab. rewrite <- (insert_id s k b E). now apply mrel_insert. Qed.
Lemma mrel_some {A B} (R : A -> B -> Prop) m s k a : mrel R m s -> m !! k = Some a -> exists b, s !! k = Some b /\ R a b.
Proof. intros H E. specialize (H k). rewrite E in H. inversion H; subst. eauto. Qed.
Lemma mrel_none {A B} (R : A -> B -> Prop) m s k : mrel R m s -> m !! k = None -> s !! k = None.
Proof. intros H E. specialize (H k). rewrite E in H. now inversion H. Qed.
Lemma mrel_empty {A B} (R : A -> B -> Prop) : mrel R ∅ ∅.
Proof. intros k. rewrite !lookup_empty. constructor. Qed.

Definition str_rel (c : strc) (t : bytes) : Prop := c = new_string t.
Record db_rel (d : db) (s : sdb) : Prop := mkRel {
  r_s : mrel str_rel (d_strs d) (ss s);
  r_l : mrel lrepr (d_lists d) (sl s);
  r_h : mrel hash_rel (d_hashes d) (sh s);
  r_t : mrel set_rel (d_sets d) (st s)
}.

Lemma new_db_rel : db_rel new_db empty_sdb.
Proof. constructor; apply mrel_empty. Qed.

(* Sizes the 64-bit arithmetic can cope with. *)
Record fits (s : sdb) : Prop := mkFits {
  f_s : forall k t, ss s !! k = Some t -> blen t < 2 ^ 62;
  f_l : forall k l, sl s !! k = Some l -> Z.of_nat (length l) < 2 ^ 62;
  f_t : forall k (X : gset bytes), st s !! k = Some X -> Z.of_nat (size X) < 2 ^ 62
}.

(* What the parsers guarantee. *)
Definition cmd_wf (c : cmd) : Prop :=
  match c with
  | CMset ks vs => length ks = length vs
  | CHset _ fs vs => length fs = length vs
  | CHdel _ l | CSadd _ l | CSrem _ l => l <> []
  | CGetrange _ a b | CLrange _ a b | CLtrim _ a b => int64_ok a /\ int64_ok b
  | CLindex _ i | CLset _ i _ | CLrem _ i _ => int64_ok i
  | CSpop _ n cs | CSrandmember _ n cs => int64_ok n /\ (cs = false -> n = 1)
  | _ => True
  end.

Definition refines (s : sdb) (c : cmd) (r : xres) : Prop :=
  match r with
  | Ret (d', rep) => exists s', db_rel d' s' /\ spec s c (Some (s', rep))
  | Panic => spec s c None
  | NoFuel => False
  end.

Lemma rel_put_list d s k l vs : db_rel d s -> lrepr l vs -> db_rel (put_list d k l) (with_sl s (<[k := vs]> (sl s))).
Proof. intros [? ? ? ?] H. constructor; auto. now apply mrel_insert. Qed.
Lemma rel_put_hash d s k m h : db_rel d s -> hash_rel m h -> db_rel (put_hash d k m) (with_sh s (<[k := h]> (sh s))).
Proof. intros [? ? ? ?] H. constructor; auto. now apply mrel_insert. Qed.
Lemma rel_put_set d s k m X : db_rel d s -> set_rel m X -> db_rel (put_set d k m) (with_st s (<[k := X]> (st s))).
Proof. intros [? ? ? ?] H. constructor; auto. now apply mrel_insert. Qed.
Lemma rel_put_strs d s m t : db_rel d s -> mrel str_rel m t -> db_rel (put_strs d m) (with_ss s t).
Proof. intros [? ? ? ?] H. constructor; auto. Qed.

Lemma strs_eq l : strs l = new_string <$> l.
Proof. reflexivity. Qed.

(* ---- strings ---- *)
Lemma sm_put_ok ks : forall vs m t, mrel str_rel m t -> mrel str_rel (sm_put m (strs ks) (strs vs)) (put_pairs t (zip ks vs)).
Proof.
  induction ks as [|k ks IH]; intros [|v vs] m t H; try exact H. cbn. apply IH. now apply mrel_insert.
Qed.
Lemma sm_lookup m t k : mrel str_rel m t -> m !! k = new_string <$> t !! k.
Proof. intros H. specialize (H k). destruct H as [x y Hxy|]; [|reflexivity]. now rewrite Hxy. Qed.

Lemma bulk_opt_ok o : bulk_opt (new_string <$> o) = r_opt o.
Proof. destruct o; reflexivity. Qed.

Lemma sm_exists_ok m t ks : mrel str_rel m t ->
  sm_exists m (strs ks) = Z.of_nat (length (filter (fun k => is_Some (t !! k)) ks)).
Proof.
  intros H. induction ks as [|k ks IH]; [reflexivity|]. cbn [strs map sm_exists] in *.
  change (map new_string ks) with (strs ks). rewrite IH. cbn [new_string s_data]. rewrite (sm_lookup m t k H).
  rewrite filter_cons. destruct (decide (is_Some (t !! k))) as [[v Hv]|Hn].
  - rewrite Hv. cbn [length]. cbn. lia.
  - destruct (t !! k) eqn:E; [exfalso; eauto|]. cbn. lia.
Qed.

Lemma parse_none a : parse_int a = None -> forall n, ~ is_int a n.
Proof. intros E n H. apply parse_int_spec in H. congruence. Qed.

Lemma exec_incr_ok (up : bool) d s k a : db_rel d s ->
  match exec_incr d k a up with
  | Ret (d', rep) => exists s', db_rel d' s' /\ spec_arith (if up then Z.add else Z.sub) s k a (Some (s', rep))
  | _ => False
  end.
Proof.
  intros Hr. unfold exec_incr. destruct (parse_int a) as [n|] eqn:Ea.
  2: { exists s. split; auto. right. split; [now apply parse_none|reflexivity]. }
  apply parse_int_spec in Ea. pose proof (sm_lookup _ _ k (r_s _ _ Hr)) as Hk.
  assert (E : (if up then sm_increase else sm_decrease) (d_strs d) (new_string k) n =
    match ss s !! k with
    | None => inr SmNoKey
    | Some t => match parse_int t with
                | None => inr SmNotInt
                | Some v => let w := wrap64 ((if up then Z.add else Z.sub) v n) in
                            inl (<[k := new_string (format_int w)]> (d_strs d), w)
                end
    end).
  { destruct up; [unfold sm_increase|unfold sm_decrease]; change (s_data (new_string k)) with k; rewrite Hk;
      destruct (ss s !! k) as [t|]; cbn [fmap option_fmap option_map]; auto;
      [rewrite s_increase_spec|rewrite s_decrease_spec]; destruct (parse_int t); reflexivity. }
  rewrite E. unfold fail, done. destruct (ss s !! k) as [t|] eqn:Es.
  - destruct (parse_int t) as [v|] eqn:Et.
    + cbn. exists (with_ss s (<[k := format_int (wrap64 ((if up then Z.add else Z.sub) v n))]> (ss s))). split.
      * apply rel_put_strs; auto. apply mrel_insert; [apply Hr|reflexivity].
      * left. exists n. split; auto. rewrite Es. left. exists v, (format_int (wrap64 ((if up then Z.add else Z.sub) v n))).
        split; [now apply parse_int_spec|]. split; [apply format_int_canonical|reflexivity].
    + exists s. split; auto. left. exists n. split; auto. rewrite Es. right. split; [now apply parse_none|reflexivity].
  - exists s. split; auto. left. exists n. split; auto. rewrite Es. reflexivity.
Qed.

Lemma str_range_ok t a b : int64_ok a -> int64_ok b -> blen t < 2 ^ 62 ->
  match s_getrange (new_string t) a b with Some r => s_data r | None => [] end = str_range a b t.
Proof.
  intros Ha Hb Ht. rewrite s_getrange_spec by (auto; lia). unfold str_range. cbn zeta.
  destruct (_ && _) eqn:E; [|reflexivity]. cbn [new_string s_data].
  unfold bslice, sub_list. f_equal. f_equal. lia.
Qed.

Lemma exec_global_ok d s c : db_rel d s -> fits s -> cmd_wf c -> target c = TGlobal ->
  (forall ks vs, c = CMset ks vs -> ks <> []) -> refines s c (exec_global c d).
Proof.
  intros Hr Hf Hw Ht Hms. pose proof (r_s _ _ Hr) as Hs. destruct c; try discriminate Ht; cbn [exec_global].
  - (* set *) eexists. split; [|reflexivity]. apply rel_put_strs; auto. now apply mrel_insert.
  - (* get *) cbn [sm_get map]. change (s_data (new_string k)) with k. rewrite (sm_lookup _ _ _ Hs).
    destruct (ss s !! k) eqn:E; exists s; (split; [exact Hr|]); cbn [spec]; rewrite E; reflexivity.
  - (* mset *) cbn in Hw. destruct ks as [|k ks]; [now destruct (Hms [] vs)|]. destruct vs as [|v vs]; [discriminate|].
    unfold sm_set, strs. rewrite !map_length, Hw, Nat.eqb_refl. eexists. split; [|reflexivity].
    apply rel_put_strs; auto. now apply (sm_put_ok (k :: ks) (v :: vs)).
  - (* mget *) exists s. split; auto. cbn [spec]. unfold says. do 4 f_equal.
    unfold sm_get, strs. rewrite !map_map. apply map_ext. intros k. cbn [new_string s_data].
    rewrite (sm_lookup _ _ _ Hs). apply bulk_opt_ok.
  - (* exists *) exists s. split; auto. cbn [spec]. unfold says, r_nat. do 4 f_equal. now apply sm_exists_ok.
  - (* strlen *) exists s. split; auto. cbn [spec]. unfold says. do 4 f_equal. unfold sm_strlen. cbn [new_string s_data].
    rewrite (sm_lookup _ _ _ Hs). destruct (ss s !! k); reflexivity.
  - (* append *) unfold sm_append. cbn [new_string s_data]. rewrite (sm_lookup _ _ _ Hs).
    destruct (ss s !! k) as [t|] eqn:E; cbn; eexists; (split; [|rewrite E; reflexivity]);
      (apply rel_put_strs; auto); now apply mrel_insert.
  - (* incr *) pose proof (exec_incr_ok true d s k amount Hr) as H. unfold refines. destruct (exec_incr d k amount true) as [[d' r]| |]; try contradiction; auto.
  - (* decr *) pose proof (exec_incr_ok false d s k amount Hr) as H. unfold refines. destruct (exec_incr d k amount false) as [[d' r]| |]; try contradiction; auto.
  - (* getrange *) destruct Hw as [Ha Hb]. unfold sm_getrange. cbn [new_string s_data]. rewrite (sm_lookup _ _ _ Hs).
    destruct (ss s !! k) as [t|] eqn:E; cbn [fmap option_fmap option_map].
    + pose proof (str_range_ok t a b Ha Hb (f_s _ Hf _ _ E)) as R.
      destruct (s_getrange (new_string t) a b); exists s; split; auto; cbn; rewrite E; cbn [text]; rewrite <- R; reflexivity.
    + exists s. split; auto. cbn. rewrite E. cbn [text]. unfold str_range.
      replace (sub_list _ _ (@nil ascii)) with (@nil ascii) by (unfold sub_list; now rewrite skipn_nil, firstn_nil).
      destruct (_ && _); reflexivity.
Qed.

(* ---- lists ---- *)
Lemma bulk_map l : map bulk (new_string <$> l) = map RBulk l.
Proof. change (new_string <$> l) with (map new_string l). now rewrite map_map. Qed.

Lemma list_len_ok l vs : lrepr l vs -> list_len l = Z.of_nat (length vs).
Proof. intros (ns & _ & _ & _ & _ & H). exact H. Qed.

Lemma seg_all vs : vs <> [] -> seg_sel 0 (-1) vs = Some vs.
Proof.
  intros H. unfold seg_sel, seg_right, position. set (n := Z.of_nat (length vs)).
  assert (0 < n) by (destruct vs; [congruence|subst n; cbn [length]; lia]).
  change (0 <? 0) with false. change (-1 <? 0) with true. cbv iota.
  replace (Z.min (n + -1) (n - 1)) with (n - 1) by lia. destruct (n - 1 <? 0) eqn:E; [lia|].
  replace ((0 <=? 0) && (0 <? n) && (0 <=? n - 1) && (n - 1 <? n)) with true by lia.
  change (Z.to_nat 0) with O. rewrite skipn_O. f_equal. rewrite firstn_all2; [reflexivity|]. subst n. lia.
Qed.

Definition creating (c : cmd) : Prop := match c with CLpush _ _ | CRpush _ _ => True | _ => False end.

(* A list command on an existing list. *)
Lemma exec_list_ok d s c k l vs : db_rel d s -> fits s -> cmd_wf c -> target c = TList -> cmd_keys c = [k] ->
  k <> [] \/ ~ creating c -> d_lists d !! k = Some l -> sl s !! k = Some vs -> lrepr l vs ->
  refines s c (exec_list c d k l).
Proof.
  intros Hr Hf Hw Ht Hk Hc Hd Hs Hl. pose proof (f_l _ Hf _ _ Hs) as Hb.
  assert (Hln : list_or_nil s k = vs) by (unfold list_or_nil; now rewrite Hs).
  destruct c; try discriminate Ht; injection Hk as ->; cbn [exec_list].
  - (* lpop *) pose proof (pop_head_ok l vs Hl) as H. destruct vs as [|v vs].
    + rewrite H. exists s. split; auto. cbn. now rewrite Hs.
    + destruct H as (l' & -> & Hl'). eexists. split; [eapply rel_put_list; eassumption|]. cbn. now rewrite Hs.
  - (* rpop *) destruct (pop_tail_ok l vs Hl) as [H0 H1]. destruct vs as [|v vs _] using rev_ind.
    + rewrite H0 by auto. exists s. split; auto. cbn [spec]. now rewrite Hln.
    + destruct (H1 vs v eq_refl) as (l' & -> & Hl'). eexists. split; [eapply rel_put_list; eassumption|].
      cbn [spec]. rewrite Hln. destruct (vs ++ [v]) eqn:E; [now destruct vs|]. rewrite <- E in *. eauto.
  - (* lpush *) destruct (push_head_ok vs0 l vs Hl) as (l' & E & Hl'). rewrite strs_eq, E. eexists. split; [eapply rel_put_list; eassumption|].
    cbn [spec]. rewrite bool_decide_eq_false_2 by (destruct Hc as [|Hc]; [auto|now destruct Hc]).
    rewrite Hln, (list_len_ok l' _ Hl'). reflexivity.
  - (* rpush *) destruct (push_tail_ok vs0 l vs Hl) as (l' & E & Hl'). rewrite strs_eq, E. eexists. split; [eapply rel_put_list; eassumption|].
    cbn [spec]. rewrite bool_decide_eq_false_2 by (destruct Hc as [|Hc]; [auto|now destruct Hc]).
    rewrite Hln, (list_len_ok l' _ Hl'). reflexivity.
  - (* lrange *) destruct Hw as [Ha Hb']. rewrite list_range_ok with (vs := vs) by auto.
    unfold refines. cbn [rbind]. destruct (seg_sel a b vs) as [r|] eqn:E; cbn [fmap option_fmap option_map].
    + exists s. split; auto. cbn [spec]. rewrite Hln, E. now rewrite bulk_map.
    + exists s. split; auto. cbn [spec]. now rewrite Hln, E.
  - (* lindex *) rewrite (list_index_ok l vs i Hl Hw) by lia. exists s. split; auto. cbn [spec]. rewrite Hln.
    set (p := position i (Z.of_nat (length vs))). destruct (0 <=? p) eqn:E1; cbn [andb].
    + destruct (p <? Z.of_nat (length vs)) eqn:E2; [now rewrite bulk_opt_ok|].
      rewrite lookup_ge_None_2 by lia. reflexivity.
    + reflexivity.
  - (* llen *) exists s. split; auto. cbn [spec]. rewrite Hln. now rewrite (list_len_ok l vs).
  - (* lset *) destruct (list_set_ok l vs i v Hl Hw) as [H1 H2]; [lia|]. cbn [spec refines].
    destruct ((0 <=? position i (Z.of_nat (length vs))) && (position i (Z.of_nat (length vs)) <? Z.of_nat (length vs))) eqn:E.
    + destruct H1 as (l' & -> & Hl'); [lia|]. eexists. split; [eapply rel_put_list; eassumption|]. cbn [spec]. now rewrite Hs, E.
    + rewrite H2 by lia. exists s. split; auto. cbn [spec]. now rewrite Hs, E.
  - (* lrem *) destruct (Z.eq_dec count (- 2 ^ 63)) as [->|Hm].
    + destruct (list_removec_min l vs v Hl) as (l' & -> & Hl'). exists s. split.
      * destruct Hr. constructor; auto. eapply mrel_same; eauto.
      * cbn [spec]. rewrite Hs. reflexivity.
    + destruct (decide (v = dummy_text)) as [->|Hv].
      * pose proof (list_removec_dummy l vs count Hl Hw) as H. fold dummy. 
        destruct (count =? - 2 ^ 63) eqn:E1; [lia|]. cbn [orb] in H.
        unfold refines. cbn [spec]. 
        destruct ((count =? 0) && (Z.of_nat (length vs) =? 0)) eqn:E2.
        -- destruct H as (l' & -> & Hl'). exists s. split.
           ++ destruct Hr. constructor; auto. eapply mrel_same; eauto.
           ++ cbn [spec]. rewrite Hs, E1. rewrite bool_decide_eq_true_2 by reflexivity.
              rewrite (bool_decide_eq_true_2 (vs = [])) by (destruct vs; [auto|cbn [length] in E2; lia]).
              destruct (count =? 0) eqn:E3; [reflexivity|lia].
        -- rewrite H. cbn [rbind]. rewrite Hs, E1. rewrite bool_decide_eq_true_2 by reflexivity.
           destruct ((count =? 0) && bool_decide (vs = [])) eqn:E3; [|reflexivity].
           exfalso. apply andb_true_iff in E3 as [E3 E4]. apply bool_decide_eq_true in E4 as ->. cbn [length] in E2. lia.
      * destruct (list_removec_ok l vs count v Hl Hw Hm Hv) as (l' & r & -> & Hl' & ->).
        eexists. split; [eapply rel_put_list; eassumption|]. cbn [spec]. rewrite Hs. destruct (count =? - 2 ^ 63) eqn:E; [lia|].
        rewrite bool_decide_eq_false_2 by exact Hv. reflexivity.
  - (* ltrim *) destruct Hw as [Ha Hb']. pose proof (list_trim_ok l vs a b Hl Ha Hb' Hb) as H.
    destruct (seg_sel a b vs) as [r|] eqn:E.
    + destruct H as (l' & -> & Hl'). eexists. split; [eapply rel_put_list; eassumption|]. cbn [spec]. now rewrite Hs, E.
    + rewrite H. cbn [rbind]. 
      pose proof (list_trim_ok l vs 0 (-1) Hl ltac:(unfold int64_ok; lia) ltac:(unfold int64_ok; lia) Hb) as H2.
      destruct vs as [|v vs].
      * change (seg_sel 0 (-1) []) with (@None (list bytes)) in H2. rewrite H2. exists s. split; auto. cbn [spec]. now rewrite Hs, E.
      * rewrite seg_all in H2 by discriminate. destruct H2 as (l' & -> & Hl'). exists s. split.
        -- destruct Hr. constructor; auto. eapply mrel_same; eauto.
        -- cbn [spec]. now rewrite Hs, E.
  - (* linsert *) destruct (decide (pivot = dummy_text)) as [->|Hp].
    + destruct (list_insert_dummy l vs v Hl) as [H1 (l' & H2 & Hl')]. fold dummy. destruct after.
      * rewrite H2. eexists. split; [eapply rel_put_list; eassumption|]. cbn [spec]. rewrite Hs, bool_decide_eq_true_2 by reflexivity.
        rewrite (list_len_ok l' _ Hl'). reflexivity.
      * rewrite H1. cbn [rbind refines spec]. now rewrite Hs, bool_decide_eq_true_2 by reflexivity.
    + pose proof (list_insert_ok' l vs pivot v after Hl Hp) as H. destruct (insert_near after pivot v vs) as [vs'|] eqn:E.
      * destruct H as (l' & -> & Hl'). eexists. split; [eapply rel_put_list; eassumption|]. cbn [spec].
        rewrite Hs, bool_decide_eq_false_2, E by exact Hp. rewrite (list_len_ok l' _ Hl'). reflexivity.
      * rewrite H. exists s. split; auto. cbn [spec]. now rewrite Hs, bool_decide_eq_false_2, E by exact Hp.
Qed.

Lemma exec_list_nil_ok d s c k : db_rel d s -> target c = TList -> cmd_keys c = [k] ->
  sl s !! k = None -> k = [] \/ ~ creating c -> refines s c (exec_list_nil c d).
Proof.
  intros Hr Ht Hk Hs Hc.
  assert (Hln : list_or_nil s k = []) by (unfold list_or_nil; now rewrite Hs).
  destruct c; try discriminate Ht; injection Hk as ->; cbn [exec_list_nil]; exists s; (split; [exact Hr|]); cbn [spec];
    rewrite ?Hln, ?Hs; try reflexivity.
  - rewrite bool_decide_eq_true_2; [reflexivity|]. destruct Hc as [|Hc]; [auto|now destruct Hc].
  - rewrite bool_decide_eq_true_2; [reflexivity|]. destruct Hc as [|Hc]; [auto|now destruct Hc].
  - unfold seg_sel, seg_right, position. cbn [length]. change (Z.of_nat 0) with 0.
    destruct (a <? 0) eqn:E; [replace (0 <=? 0 + a) with false by lia|replace (0 <=? a) with true by lia; replace (a <? 0) with false by lia]; reflexivity.
  - cbn [length]. destruct (0 <=? _); reflexivity.
Qed.

(* ---- hashes ---- *)
Lemma interleave_ok (h : gmap bytes bytes) (l : list bytes) : (forall f, f ∈ l -> is_Some (h !! f)) ->
  Db.interleave (he_key <$> ((fun f => hent f (text (h !! f))) <$> l)) (he_val <$> ((fun f => hent f (text (h !! f))) <$> l)) =
  flat_map (fun f => [RBulk f; r_opt (h !! f)]) l.
Proof.
  induction l as [|f l IH]; intros H; [reflexivity|]. rewrite !fmap_cons. cbn [Db.interleave flat_map app].
  rewrite IH by (intros g Hg; apply H; now right). destruct (H f) as [v Hv]; [left|]. rewrite Hv. reflexivity.
Qed.

Lemma exec_hash_ok (ord : orders) d s c k m h : orders_ok ord -> db_rel d s -> cmd_wf c -> target c = THash -> cmd_keys c = [k] ->
  k <> [] \/ should_create c = false -> d_hashes d !! k = Some m -> sh s !! k = Some h -> hash_rel m h ->
  refines s c (exec_hash ord c d k m).
Proof.
  intros Ho Hr Hw Ht Hk Hc Hd Hs Hl.
  assert (Hin : forall l, lists_set l (dom h) -> forall f, f ∈ l -> is_Some (h !! f)).
  { intros l [_ Hl'] f Hf. apply elem_of_dom. now apply Hl'. }
  assert (Hb : forall f : bytes, bytes_eqb f [] = bool_decide (f = [])).
  { intros f. destruct f; [reflexivity|]. now rewrite bool_decide_eq_false_2 by discriminate. }
  assert (Hg : forall f : bytes, h_get m [new_string f] = [new_string <$> h !! f]).
  { intros f. exact (h_get_ok m h [f] Hl). }
  destruct c; try discriminate Ht; injection Hk as ->; cbn [exec_hash].
  - (* hset *) cbn in Hw. destruct fs as [|f fs], vs as [|v vs]; try discriminate.
    + exists s. split; auto. cbn [spec]. rewrite bool_decide_eq_false_2 by (destruct Hc; [auto|discriminate]).
      rewrite (bool_decide_eq_true_2 ([] = [])) by reflexivity. rewrite Hs. cbn [default]. unfold errs. do 2 f_equal.
      unfold with_sh. rewrite insert_id by auto. now destruct s.
    + destruct (h_set_ok m h (f :: fs) (v :: vs) Hl Hw) as (m' & E & Hl'). unfold strs. rewrite E.
      eexists. split; [eapply rel_put_hash; eassumption|]. cbn [spec]. rewrite bool_decide_eq_false_2 by (destruct Hc; [auto|discriminate]).
      rewrite bool_decide_eq_false_2 by discriminate. rewrite Hs. reflexivity.
  - (* hget *) rewrite Hb, Hg. destruct (bool_decide (f = [])) eqn:E.
    + exists s. split; auto. cbn [spec]. now rewrite Hs, E.
    + destruct (h !! f) eqn:Ef; exists s; (split; [exact Hr|]); cbn [spec]; rewrite Hs, E, Ef; reflexivity.
  - (* hmget *) exists s. split; auto. cbn [spec]. rewrite Hs. unfold strs. rewrite (h_get_ok m h fs Hl), map_map.
    unfold says. do 4 f_equal. apply map_ext. intros f. apply bulk_opt_ok.
  - (* hexists *) rewrite Hb. destruct (bool_decide (f = [])) eqn:E; exists s; (split; [exact Hr|]); cbn [spec]; rewrite Hs, E; [reflexivity|].
    rewrite (h_exists_ok m h f Hl). reflexivity.
  - (* hlen *) exists s. split; auto. cbn [spec]. rewrite Hs. unfold h_len. now rewrite (hash_rel_size m h).
  - (* hgetall *) unfold h_entries. destruct (h_iter_ok ord 0 m h Ho Hl) as (l & Hl1 & ->). exists s. split; auto. cbn [spec].
    rewrite Hs. exists l. split; auto. rewrite interleave_ok by eauto. reflexivity.
  - (* hkeys *) unfold h_keys. destruct (h_iter_ok ord 0 m h Ho Hl) as (l & Hl1 & ->). exists s. split; auto. cbn [spec].
    rewrite Hs. exists l. split; auto. unfold says. do 4 f_equal. rewrite <- !list_fmap_compose. apply map_ext. reflexivity.
  - (* hvals *) unfold h_values. destruct (h_iter_ok ord 0 m h Ho Hl) as (l & Hl1 & ->). exists s. split; auto. cbn [spec].
    rewrite Hs. exists l. split; auto. unfold says. do 4 f_equal. rewrite <- !list_fmap_compose.
    apply list_fmap_ext. intros i f Hi. apply elem_of_list_lookup_2 in Hi. destruct (Hin _ Hl1 f Hi) as [v Hv]. cbn. rewrite Hv. reflexivity.
  - (* hstrlen *) rewrite Hb, Hg. destruct (bool_decide (f = [])) eqn:E.
    + exists s. split; auto. cbn [spec]. now rewrite Hs, E.
    + destruct (h !! f) eqn:Ef; exists s; (split; [exact Hr|]); cbn [spec]; rewrite Hs, E, Ef; reflexivity.
  - (* hdel *) destruct (h_del_ok fs m h Hl) as (m' & h' & E & Hl' & Hsp). destruct fs as [|f fs]; [now destruct Hw|].
    unfold strs. rewrite E. eexists. split; [eapply rel_put_hash; eassumption|]. cbn [spec]. rewrite Hs. exists h'. split; [exact Hsp|reflexivity].
Qed.

Lemma exec_hash_nil_ok d s c k : db_rel d s -> target c = THash -> cmd_keys c = [k] ->
  sh s !! k = None -> k = [] \/ should_create c = false -> refines s c (exec_hash_nil c d).
Proof.
  intros Hr Ht Hk Hs Hc.
  destruct c; try discriminate Ht; injection Hk as ->; cbn [exec_hash_nil];
    try (exists s; (split; [exact Hr|]); cbn [spec]; rewrite ?Hs; try reflexivity).
  cbn. rewrite bool_decide_eq_true_2; [reflexivity|]. destruct Hc; [auto|discriminate].
Qed.

(* ---- sets ---- *)
Definition set_op (c : cmd) : Prop := match c with CSdiff _ | CSinter _ | CSunion _ => True | _ => False end.
Lemma bulk_map' l : map bulk (map new_string l) = map RBulk l.
Proof. now rewrite map_map. Qed.

Lemma pop_reply_ok l cs : pop_reply (map new_string l) cs = match pick_reply l cs with Some r => Ret r | None => Panic end.
Proof. unfold pop_reply, pick_reply. destruct cs, l; cbn [map]; rewrite ?bulk_map'; reflexivity. Qed.

Lemma exec_set_ok (ord : orders) d s c k m X : orders_ok ord -> db_rel d s -> fits s -> cmd_wf c -> target c = TSet -> cmd_keys c = [k] ->
  ~ set_op c ->
  k <> [] \/ should_create c = false -> d_sets d !! k = Some m -> st s !! k = Some X -> set_rel m X ->
  refines s c (exec_set ord c d k m).
Proof.
  intros Ho Hr Hf Hw Ht Hk Hn Hc Hd Hs Hl. pose proof (f_t _ Hf _ _ Hs) as Hb.
  assert (Hbe : forall f : bytes, bytes_eqb f [] = bool_decide (f = [])).
  { intros f. destruct f; [reflexivity|]. now rewrite bool_decide_eq_false_2 by discriminate. }
  assert (Hse : set_or_empty s k = X) by (unfold set_or_empty; now rewrite Hs).
  destruct c; try discriminate Ht; try (injection Hk as ->); try (exfalso; apply Hn; exact I); cbn [exec_set].
  - exists s. split; auto. cbn [spec]. rewrite Hse. unfold set_len. now rewrite (set_rel_size m X).
  - (* sadd *) destruct vs as [|v vs]; [now destruct Hw|]. destruct (set_add_ok (v :: vs) m X Hl) as (m' & E & Hl'). unfold strs. rewrite E.
    eexists. split; [eapply rel_put_set; eassumption|]. cbn [spec]. rewrite bool_decide_eq_false_2 by (destruct Hc; [auto|discriminate]). now rewrite Hse.
  - (* smembers *) destruct (set_members_ok ord 0 m X Ho Hl) as (l & Hl1 & ->). exists s. split; auto. cbn [spec]. rewrite Hs. exists l. split; auto. now rewrite bulk_map'.
  - (* sismember *) rewrite Hbe. destruct (bool_decide (v = [])) eqn:E; exists s; (split; [exact Hr|]); cbn [spec]; rewrite Hs, E; [reflexivity|].
    now rewrite (set_is_member_ok m X).
  - (* srem *) destruct vs as [|v vs]; [now destruct Hw|]. destruct (set_delete_ok (v :: vs) m X Hl) as (m' & E & Hl'). unfold strs. rewrite E.
    eexists. split; [eapply rel_put_set; eassumption|]. cbn [spec]. rewrite bool_decide_eq_false_2 by (destruct Hc; [auto|discriminate]). now rewrite Hse.
  - (* spop *) destruct Hw as [Hw _]. destruct (set_pop_ok ord 0 m X count Ho Hl Hw) as (l & m' & Hp & -> & Hl'); [lia|].
    rewrite pop_reply_ok. destruct (pick_reply l count_set) as [r|] eqn:E; cbn [rbind].
    + eexists. split; [eapply rel_put_set; eassumption|]. cbn [spec]. rewrite Hs. exists l. split; auto. now rewrite E.
    + cbn. rewrite Hs. exists l. split; auto. now rewrite E.
  - (* srandmember *) destruct Hw as [Hw _]. destruct (set_random_ok ord 0 m X count Ho Hl Hw) as (l & Hp & ->); [lia|].
    rewrite pop_reply_ok. destruct (pick_reply l count_set) as [r|] eqn:E; cbn [rbind].
    + exists s. split; auto. cbn [spec]. rewrite Hs. exists l. split; auto. now rewrite E.
    + cbn. rewrite Hs. exists l. split; auto. now rewrite E.
Qed.

Lemma exec_set_nil_ok d s c k : db_rel d s -> target c = TSet -> cmd_keys c = [k] ->
  ~ set_op c ->
  st s !! k = None -> k = [] \/ should_create c = false -> refines s c (exec_set_nil c d).
Proof.
  intros Hr Ht Hk Hn Hs Hc.
  assert (Hse : set_or_empty s k = ∅) by (unfold set_or_empty; now rewrite Hs).
  destruct c; try discriminate Ht; try (injection Hk as ->); try (exfalso; apply Hn; exact I); cbn [exec_set_nil];
    try (exists s; (split; [exact Hr|]); cbn [spec]; rewrite ?Hs, ?Hse; reflexivity);
    cbn; (rewrite bool_decide_eq_true_2; [reflexivity|]); destruct Hc; [auto|discriminate|auto|discriminate].
Qed.

Lemma get_sets_ok d s ks : db_rel d s ->
  exists os, resolve_names d ks TSet false = (d, os) /\ length os = length ks /\
    Forall2 set_rel (map (set_of d) os) (map (set_or_empty s) ks).
Proof.
  intros Hr. induction ks as [|k ks IH]; [exists []; cbn; auto|]. destruct IH as (os & E & L & F).
  cbn [resolve_names resolve_name]. unfold get_set. destruct (d_sets d !! k) as [m|] eqn:Ek; rewrite E.
  - exists (AAt k :: os). split; auto. split; [cbn; lia|]. cbn [map]. constructor; auto. cbn [set_of]. rewrite Ek.
    destruct (mrel_some _ _ _ _ _ (r_t _ _ Hr) Ek) as (X & EX & HX). unfold set_or_empty. now rewrite EX.
  - exists (ANil :: os). split; auto. split; [cbn; lia|]. cbn [map]. constructor; auto. cbn [set_of].
    unfold set_or_empty. rewrite (mrel_none _ _ _ _ (r_t _ _ Hr) Ek). apply set_rel_empty.
Qed.

Lemma exec_sets_ok (ord : orders) op sop d s ks os :
  orders_ok ord -> db_rel d s -> Forall2 set_rel (map (set_of d) os) (map (set_or_empty s) ks) ->
  (forall m X cs Xs, map (set_of d) os = m :: cs -> map (set_or_empty s) ks = X :: Xs ->
     set_rel m X -> Forall2 set_rel cs Xs -> set_rel (op m cs) (sop X Xs)) ->
  match exec_sets ord op d os with
  | Ret (d', rep) => exists s', db_rel d' s' /\ spec_sets sop s ks (Some (s', rep))
  | _ => False
  end.
Proof.
  intros Ho Hr F Hop. unfold exec_sets, spec_sets.
  inversion F as [Eo Ek|m X cs Xs HmX HF Eo Ek].
  - exists s. auto.
  - pose proof (Hop m X cs Xs (eq_sym Eo) (eq_sym Ek) HmX HF) as HR.
    unfold set_len. rewrite (set_rel_size _ _ HR). destruct (Z.of_nat (size (sop X Xs)) =? 0) eqn:E.
    + exists s. split; auto. left. split; [|reflexivity]. apply leibniz_equiv, size_empty_inv. lia.
    + destruct (set_members_ok ord (2 * length os + 2) _ _ Ho HR) as (l & Hl & ->). exists s. split; auto. right.
      split; [intros H0; rewrite H0, size_empty in E; lia|]. exists l. split; auto. now rewrite bulk_map'.
Qed.

Lemma inter_size_fits s ks X Xs : fits s -> map (set_or_empty s) ks = X :: Xs -> Z.of_nat (size X) < 2 ^ 63.
Proof.
  intros Hf E. destruct ks as [|k ks]; [discriminate|]. injection E as <- _. unfold set_or_empty.
  destruct (st s !! k) eqn:Ek; cbn; [pose proof (f_t _ Hf _ _ Ek); lia|]. rewrite size_empty. lia.
Qed.

(* ---- all commands ---- *)
Lemma with_sl_twice s k a b : with_sl (with_sl s (<[k := a]> (sl s))) (<[k := b]> (sl (with_sl s (<[k := a]> (sl s))))) = with_sl s (<[k := b]> (sl s)).
Proof. unfold with_sl. cbn. now rewrite insert_insert. Qed.

Lemma fits_sl s k : fits s -> fits (with_sl s (<[k := []]> (sl s))).
Proof.
  intros [? ? ?]. constructor; cbn; auto. intros j l. destruct (decide (j = k)) as [->|].
  - rewrite lookup_insert. intros [= <-]. cbn. lia.
  - rewrite lookup_insert_ne by congruence. eauto.
Qed.
Lemma fits_st s k : fits s -> fits (with_st s (<[k := ∅]> (st s))).
Proof.
  intros [? ? ?]. constructor; cbn; auto. intros j l. destruct (decide (j = k)) as [->|].
  - rewrite lookup_insert. intros [= <-]. rewrite size_empty. lia.
  - rewrite lookup_insert_ne by congruence. eauto.
Qed.
Lemma fits_sh s x : fits s -> fits (with_sh s x).
Proof. intros [? ? ?]. constructor; cbn; auto. Qed.

(* a command that creates its container behaves as if the empty one had been there *)
Lemma spec_create_list s c k out : creating c -> cmd_keys c = [k] -> sl s !! k = None -> k <> [] ->
  spec (with_sl s (<[k := []]> (sl s))) c out -> spec s c out.
Proof.
  intros Hc Hk Hs Hn H. destruct c; try contradiction; injection Hk as ->; cbn [spec] in *;
    rewrite bool_decide_eq_false_2 in * by exact Hn; unfold list_or_nil in *; cbn [sl with_sl] in H; rewrite lookup_insert in H;
    rewrite Hs; cbn [default] in *; rewrite H; unfold with_sl; cbn; now rewrite insert_insert.
Qed.
Lemma spec_create_hash s c k out : target c = THash -> should_create c = true -> cmd_keys c = [k] -> sh s !! k = None -> k <> [] ->
  spec (with_sh s (<[k := ∅]> (sh s))) c out -> spec s c out.
Proof.
  intros Ht Hc Hk Hs Hn H. destruct c; try discriminate; injection Hk as ->; cbn [spec] in *;
    rewrite bool_decide_eq_false_2 in * by exact Hn; cbn [sh with_sh] in H; rewrite lookup_insert in H;
    rewrite Hs; cbn [default] in *; destruct (bool_decide (fs = [])); rewrite H; unfold with_sh; cbn; now rewrite insert_insert.
Qed.
Lemma spec_create_set s c k out : target c = TSet -> should_create c = true -> cmd_keys c = [k] -> st s !! k = None -> k <> [] ->
  spec (with_st s (<[k := ∅]> (st s))) c out -> spec s c out.
Proof.
  intros Ht Hc Hk Hs Hn H. destruct c; try discriminate; injection Hk as ->; cbn [spec] in *;
    rewrite bool_decide_eq_false_2 in * by exact Hn; unfold set_or_empty in *; cbn [st with_st] in H; rewrite lookup_insert in H;
    rewrite Hs; cbn [default] in *; rewrite H; unfold with_st; cbn; now rewrite insert_insert.
Qed.

Lemma refines_weaken s s' c r : (forall out, spec s' c out -> spec s c out) -> refines s' c r -> refines s c r.
Proof.
  intros H. unfold refines. destruct r as [[d' rep]| |]; auto. intros (s2 & H1 & H2). eauto.
Qed.

Lemma bytes_eqb_nil (k : bytes) : bytes_eqb k [] = true <-> k = [].
Proof. destruct k; split; auto; discriminate. Qed.

Lemma resolve_global ks d b : ks <> [] -> exists os, resolve_names d ks TGlobal b = (d, AGlobal :: os).
Proof.
  intros H. destruct ks as [|k ks]; [congruence|]. cbn [resolve_names resolve_name].
  assert (E : exists os, resolve_names d ks TGlobal b = (d, os)).
  { clear. induction ks as [|k ks (os & E)]; [eexists; reflexivity|]. cbn [resolve_names resolve_name]. rewrite E. eauto. }
  destruct E as (os & ->). eauto.
Qed.

Lemma exec_one (ord : orders) d s c k : orders_ok ord -> db_rel d s -> fits s -> cmd_wf c -> cmd_keys c = [k] -> ~ set_op c ->
  (forall ks vs, c <> CMset ks vs) -> refines s c (execute_command ord d c).
Proof.
  intros Ho Hr Hf Hw Hk Hns Hnm. unfold execute_command. rewrite Hk.
  assert (HE : forall d1 o, execute ord c d1 [o] =
     match target c, o with
      | TGlobal, AGlobal => exec_global c d1
      | TGlobal, _ => fail d1 EInternal
      | TList, AAt k =>
          match d_lists d1 !! k with Some l => exec_list c d1 k l | None => Panic end
      | TList, _ => exec_list_nil c d1
      | THash, AAt k =>
          match d_hashes d1 !! k with Some h => exec_hash ord c d1 k h | None => Panic end
      | THash, _ => exec_hash_nil c d1
      | TSet, AAt k =>
          match d_sets d1 !! k with Some s => exec_set ord c d1 k s | None => Panic end
      | TSet, _ => exec_set_nil c d1
      end).
  { intros d1 o. destruct c; try reflexivity; exfalso; apply Hns; exact I. }
  cbn [resolve_names]. destruct (target c) eqn:Ht; cbn [resolve_name].
  - rewrite HE. apply exec_global_ok; auto. intros ks vs E. now destruct (Hnm ks vs).
  - assert (Hcr : should_create c = true <-> creating c) by (destruct c; try discriminate Ht; cbn; split; auto; try discriminate; contradiction).
    destruct (should_create c) eqn:Hsc.
    + unfold get_or_create_list. destruct (bytes_eqb k []) eqn:Ek.
      * apply bytes_eqb_nil in Ek as ->. rewrite HE.
        destruct (sl s !! []) eqn:Es.
        -- destruct c; try discriminate Ht; try discriminate Hsc; injection Hk as ->; exists s; (split; [exact Hr|]); reflexivity.
        -- eapply exec_list_nil_ok; eauto.
      * assert (Hkn : k <> []) by (intros ->; discriminate).
        destruct (d_lists d !! k) as [l|] eqn:El; rewrite HE; cbn [d_lists put_list].
        -- rewrite El. destruct (mrel_some _ _ _ _ _ (r_l _ _ Hr) El) as (vs & Es & Hl). eapply exec_list_ok; eauto.
        -- rewrite lookup_insert. pose proof (mrel_none _ _ _ _ (r_l _ _ Hr) El) as Es.
           eapply refines_weaken; [intros out; eapply spec_create_list; eauto; now apply Hcr|].
           eapply exec_list_ok with (vs := []); eauto.
           ++ apply rel_put_list; auto. apply new_list_repr.
           ++ now apply fits_sl.
           ++ cbn. apply lookup_insert.
           ++ cbn. apply lookup_insert.
           ++ apply new_list_repr.
    + unfold get_list. destruct (d_lists d !! k) as [l|] eqn:El; rewrite HE.
      * rewrite El. destruct (mrel_some _ _ _ _ _ (r_l _ _ Hr) El) as (vs & Es & Hl). eapply exec_list_ok; eauto.
        right. intros Hc. apply Hcr in Hc. congruence.
      * eapply exec_list_nil_ok; eauto; [now eapply mrel_none; [apply Hr|]|]. right. intros Hc. apply Hcr in Hc. congruence.
  - destruct (should_create c) eqn:Hsc.
    + unfold get_or_create_hash. destruct (bytes_eqb k []) eqn:Ek.
      * apply bytes_eqb_nil in Ek as ->. rewrite HE. destruct c; try discriminate. injection Hk as ->. reflexivity.
      * assert (Hkn : k <> []) by (intros ->; discriminate).
        destruct (d_hashes d !! k) as [l|] eqn:El; rewrite HE; cbn [d_hashes put_hash].
        -- rewrite El. destruct (mrel_some _ _ _ _ _ (r_h _ _ Hr) El) as (vs & Es & Hl). eapply exec_hash_ok; eauto.
        -- rewrite lookup_insert. pose proof (mrel_none _ _ _ _ (r_h _ _ Hr) El) as Es.
           eapply refines_weaken; [intros out; eapply spec_create_hash; eauto|].
           eapply exec_hash_ok with (h := ∅); eauto.
           ++ apply rel_put_hash; auto. apply hash_rel_empty.
           ++ cbn. apply lookup_insert.
           ++ cbn. apply lookup_insert.
           ++ apply hash_rel_empty.
    + unfold get_hash. destruct (d_hashes d !! k) as [l|] eqn:El; rewrite HE.
      * rewrite El. destruct (mrel_some _ _ _ _ _ (r_h _ _ Hr) El) as (vs & Es & Hl). eapply exec_hash_ok; eauto.
      * eapply exec_hash_nil_ok; eauto. now eapply mrel_none; [apply Hr|].
  - destruct (should_create c) eqn:Hsc.
    + unfold get_or_create_set. destruct (bytes_eqb k []) eqn:Ek.
      * apply bytes_eqb_nil in Ek as ->. rewrite HE. destruct c; try discriminate; injection Hk as ->; reflexivity.
      * assert (Hkn : k <> []) by (intros ->; discriminate).
        destruct (d_sets d !! k) as [l|] eqn:El; rewrite HE; cbn [d_sets put_set].
        -- rewrite El. destruct (mrel_some _ _ _ _ _ (r_t _ _ Hr) El) as (vs & Es & Hl). eapply exec_set_ok; eauto.
        -- rewrite lookup_insert. pose proof (mrel_none _ _ _ _ (r_t _ _ Hr) El) as Es.
           eapply refines_weaken; [intros out; eapply spec_create_set; eauto|].
           eapply exec_set_ok with (X := ∅); eauto.
           ++ apply rel_put_set; auto. apply set_rel_empty.
           ++ now apply fits_st.
           ++ cbn. apply lookup_insert.
           ++ cbn. apply lookup_insert.
           ++ apply set_rel_empty.
    + unfold get_set. destruct (d_sets d !! k) as [l|] eqn:El; rewrite HE.
      * rewrite El. destruct (mrel_some _ _ _ _ _ (r_t _ _ Hr) El) as (vs & Es & Hl). eapply exec_set_ok; eauto.
      * eapply exec_set_nil_ok; eauto. now eapply mrel_none; [apply Hr|].
Qed.

Definition cmd_nonempty (c : cmd) : Prop :=
  match c with CMget ks | CExists ks => ks <> [] | _ => True end.

Theorem exec_refines (ord : orders) d s c : orders_ok ord -> db_rel d s -> fits s -> cmd_wf c -> cmd_nonempty c ->
  refines s c (execute_command ord d c).
Proof.
  intros Ho Hr Hf Hw Hne.
  assert (Hsets : forall ks op sop, target c = TSet -> should_create c = false -> cmd_keys c = ks ->
     (forall d1 os, execute ord c d1 os = exec_sets ord op d1 os) ->
     (forall out, spec s c out = spec_sets sop s ks out) ->
     (forall m X cs Xs, Z.of_nat (size X) < 2 ^ 63 -> set_rel m X -> Forall2 set_rel cs Xs -> set_rel (op m cs) (sop X Xs)) ->
     refines s c (execute_command ord d c)).
  { intros ks op sop Ht Hsc Hk He Hsp Hop. unfold execute_command. rewrite Hk, Ht, Hsc.
    destruct (get_sets_ok d s ks Hr) as (os & -> & _ & F). rewrite He.
    pose proof (exec_sets_ok ord op sop d s ks os Ho Hr F) as H. unfold refines.
    destruct (exec_sets ord op d os) as [[d' rep]| |].
    - destruct H as (s' & H1 & H2).
      + intros m X cs Xs _ EX ? ?. apply Hop; auto. eapply inter_size_fits; eauto.
      + exists s'. split; auto. now rewrite Hsp.
    - exfalso. apply H. intros m X cs Xs _ EX ? ?. apply Hop; auto. eapply inter_size_fits; eauto.
    - apply H. intros m X cs Xs _ EX ? ?. apply Hop; auto. eapply inter_size_fits; eauto. }
  destruct c; try solve [eapply exec_one; eauto].
  - (* mset *) destruct (decide (ks = [])) as [->|Hks].
    + exists s. split; auto. cbn [spec]. now rewrite bool_decide_eq_true_2.
    + unfold execute_command. cbn [cmd_keys target should_create].
      destruct (resolve_global ks d true Hks) as (os & ->).
      change (execute ord (CMset ks vs) d (AGlobal :: os)) with (exec_global (CMset ks vs) d).
      apply exec_global_ok; auto. intros ks' vs' [= <- <-]. exact Hks.
  - unfold execute_command. cbn [cmd_keys target should_create]. destruct (resolve_global ks d false Hne) as (os & ->).
    change (execute ord (CMget ks) d (AGlobal :: os)) with (exec_global (CMget ks) d).
    apply exec_global_ok; auto; discriminate.
  - unfold execute_command. cbn [cmd_keys target should_create]. destruct (resolve_global ks d false Hne) as (os & ->).
    change (execute ord (CExists ks) d (AGlobal :: os)) with (exec_global (CExists ks) d).
    apply exec_global_ok; auto; discriminate.
  - eapply (Hsets ks (set_diff ord) (fun X Xs => X ∖ ⋃ Xs)); try reflexivity. intros. now apply set_diff_ok.
  - eapply (Hsets ks (set_inter ord) (fun X Xs => foldl (fun A B => A ∩ B) X Xs)); try reflexivity. intros. now apply set_inter_ok.
  - eapply (Hsets ks (set_union ord) (fun X Xs => X ∪ ⋃ Xs)); try reflexivity. intros. now apply set_union_ok.
Qed.
