From Verif Require Import Base BaseFacts StringC StringCProofs HashC SpecDb.
From Coq Require Import ZArith List Ascii Bool Lia Permutation.
From stdpp Require Import gmap.
Open Scope Z_scope.

(* The oracle only reorders. *)
Definition orders_ok (ord : orders) : Prop := forall n l, Permutation (ord n l) l.

Lemma iter_keys_ok {A} (ord : orders) (n : nat) (m : gmap bytes A) : orders_ok ord ->
  NoDup (iter_keys ord n m) /\ forall k, k ∈ iter_keys ord n m <-> is_Some (m !! k).
Proof.
  intros Ho. unfold iter_keys. pose proof (Ho n (map fst (map_to_list m))) as P. split.
  - eapply NoDup_Permutation_proper; [exact P|]. apply NoDup_fst_map_to_list.
  - intros k. rewrite P. change (map fst (map_to_list m)) with ((map_to_list m).*1). rewrite elem_of_list_fmap. split.
    + intros ([k' v] & -> & H). apply elem_of_map_to_list in H. eauto.
    + intros [v H]. exists (k, v). split; auto. now apply elem_of_map_to_list.
Qed.

Lemma omap_total {A B} (f : A -> option B) (g : A -> B) (l : list A) :
  (forall x, x ∈ l -> f x = Some (g x)) -> omap f l = g <$> l.
Proof.
  induction l as [|x l IH]; intros H; [reflexivity|]. simpl.
  rewrite (H x) by left. f_equal. apply IH. intros y Hy. apply H. now right.
Qed.

(* Rolling through a map visits each entry once. *)
Lemma iter_vals_ok {A} (ord : orders) (n : nat) (m : gmap bytes A) : orders_ok ord ->
  exists ks, NoDup ks /\ (forall k, k ∈ ks <-> is_Some (m !! k)) /\
    iter_vals ord n m = omap (fun k => m !! k) ks.
Proof. intros Ho. destruct (iter_keys_ok ord n m Ho). exists (iter_keys ord n m). auto. Qed.

Lemma size_add1 (x : bytes) (X : gset bytes) : x ∉ X -> size ({[x]} ∪ X) = S (size X).
Proof. intros H. rewrite size_union by set_solver. now rewrite size_singleton. Qed.

(* ---- hashes ---- *)
Definition hent (f v : bytes) : hentry := mkHentry (new_string f) (new_string v).
Definition hash_rel (m : gmap bytes hentry) (h : gmap bytes bytes) : Prop :=
  forall f, m !! f = hent f <$> h !! f.

Lemma hash_rel_dom m h : hash_rel m h -> dom m =@{gset bytes} dom h.
Proof. intros H. apply set_eq. intros f. rewrite !elem_of_dom, H. destruct (h !! f); simpl; split; intros [? ?]; eauto; discriminate. Qed.
Lemma hash_rel_size m h : hash_rel m h -> size m = size h.
Proof. intros H. rewrite <- !(size_dom (D := gset bytes)). now rewrite (hash_rel_dom m h). Qed.
Lemma hash_rel_empty : hash_rel ∅ ∅.
Proof. intros f. now rewrite !lookup_empty. Qed.
Lemma hash_rel_insert m h f v : hash_rel m h -> hash_rel (<[f := hent f v]> m) (<[f := v]> h).
Proof. intros H g. destruct (decide (g = f)) as [->|]; [now rewrite !lookup_insert|now rewrite !lookup_insert_ne by congruence]. Qed.

Lemma h_put_ok fs : forall vs m h, hash_rel m h -> length fs = length vs ->
  hash_rel (h_put m (map new_string fs) (map new_string vs)) (put_pairs h (zip fs vs)).
Proof.
  induction fs as [|f fs IH]; intros [|v vs] m h H L; try discriminate; [exact H|]. simpl.
  apply IH; [|now injection L]. rewrite H. destruct (h !! f); simpl; now apply hash_rel_insert.
Qed.

Lemma put_pairs_dom l : forall h, dom (put_pairs h l) =@{gset bytes} dom h ∪ list_to_set l.*1.
Proof.
  induction l as [|[k v] l IH]; intros h; cbn [put_pairs]; [simpl; set_solver|].
  rewrite IH, dom_insert_L. rewrite fmap_cons. cbn [fst list_to_set]. set_solver.
Qed.
Lemma put_pairs_lookup_ne l : forall h k, k ∉ l.*1 -> put_pairs h l !! k = h !! k.
Proof.
  induction l as [|[k' v] l IH]; intros h k H; [reflexivity|]. cbn [put_pairs].
  rewrite fmap_cons, not_elem_of_cons in H. destruct H as [H1 H2]. rewrite IH by auto. now rewrite lookup_insert_ne by (simpl in H1; congruence).
Qed.
Lemma put_pairs_last l1 k v l2 h : k ∉ l2.*1 -> put_pairs h (l1 ++ (k, v) :: l2) !! k = Some v.
Proof.
  revert h. induction l1 as [|[k' v'] l1 IH]; intros h H; cbn [put_pairs app].
  - rewrite put_pairs_lookup_ne by auto. apply lookup_insert.
  - now apply IH.
Qed.

Lemma zip_fst {A B} (l : list A) (k : list B) : length l = length k -> (zip l k).*1 = l.
Proof. intros. apply fst_zip. lia. Qed.

Lemma h_set_ok m h fs vs : hash_rel m h -> length fs = length vs ->
  exists m', h_set m (map new_string fs) (map new_string vs) =
      Some (m', Z.of_nat (size (list_to_set fs ∖ dom h : gset bytes))) /\
    hash_rel m' (put_pairs h (zip fs vs)).
Proof.
  intros H L. unfold h_set. rewrite !map_length, L, Nat.eqb_refl. eexists. split; [|now apply h_put_ok].
  do 2 f_equal. unfold h_len.
  rewrite (hash_rel_size _ _ (h_put_ok fs vs m h H L)), (hash_rel_size _ _ H), <- !(size_dom (D := gset bytes)).
  rewrite put_pairs_dom, zip_fst by auto.
  replace (dom h ∪ list_to_set fs) with (dom h ∪ (list_to_set fs ∖ dom h) : gset bytes).
  - rewrite (size_union (dom h)) by set_solver. lia.
  - apply set_eq. intros x. rewrite !elem_of_union, elem_of_difference. destruct (decide (x ∈ (dom h : gset bytes))); tauto.
Qed.

Lemma h_get_ok m h fs : hash_rel m h -> h_get m (map new_string fs) = map (fun f => new_string <$> h !! f) fs.
Proof.
  intros H. unfold h_get. rewrite map_map. apply map_ext. intros f. simpl. rewrite H. destruct (h !! f); reflexivity.
Qed.

Lemma h_exists_ok m h f : hash_rel m h -> h_exists m (new_string f) = bool_decide (is_Some (h !! f)).
Proof.
  intros H. unfold h_exists. cbn [new_string s_data]. rewrite H. destruct (h !! f) eqn:E; cbn; reflexivity.
Qed.

Lemma hash_rel_delete m h f : hash_rel m h -> hash_rel (delete f m) (delete f h).
Proof. intros H g. destruct (decide (g = f)) as [->|]; [now rewrite !lookup_delete|now rewrite !lookup_delete_ne by congruence]. Qed.

Lemma h_del_ok fs : forall m h, hash_rel m h ->
  exists m' h', h_del m (map new_string fs) = (m', Z.of_nat (size (list_to_set fs ∩ dom h : gset bytes))) /\
    hash_rel m' h' /\ forall f, h' !! f = if bool_decide (f ∈ fs) then None else h !! f.
Proof.
  induction fs as [|f fs IH]; intros m h H; cbn [map h_del].
  - exists m, h. split; [|split; auto].
    f_equal. cbn [list_to_set]. rewrite intersection_empty_l_L, size_empty. reflexivity.
  - cbn [new_string s_data]. rewrite H. destruct (h !! f) as [v|] eqn:E; simpl fmap; cbv iota.
    + destruct (IH _ _ (hash_rel_delete m h f H)) as (m' & h' & -> & Hr & Hl). exists m', h'. split; [|split; [auto|]].
      * f_equal. cbn [list_to_set].
        replace (({[f]} ∪ list_to_set fs) ∩ dom h) with ({[f]} ∪ (list_to_set fs ∩ dom (delete f h)) : gset bytes).
        { rewrite size_add1 by (rewrite dom_delete_L; set_solver). lia. }
        rewrite dom_delete_L. assert (f ∈ (dom h : gset bytes)) by (apply elem_of_dom; eauto).
        apply set_eq. intros x. rewrite elem_of_union, !elem_of_intersection, elem_of_difference, elem_of_union, !elem_of_singleton.
        destruct (decide (x = f)) as [->|]; tauto.
      * intros g. rewrite Hl. destruct (decide (g = f)) as [->|Hg].
        -- rewrite lookup_delete. rewrite (bool_decide_eq_true_2 (f ∈ f :: fs)) by left. destruct (bool_decide _); auto.
        -- rewrite lookup_delete_ne by congruence.
           replace (bool_decide (g ∈ f :: fs)) with (bool_decide (g ∈ fs)); auto.
           apply bool_decide_ext. rewrite elem_of_cons. tauto.
    + destruct (IH _ _ H) as (m' & h' & -> & Hr & Hl). exists m', h'. split; [|split; [auto|]].
      * f_equal. f_equal. f_equal. cbn [list_to_set]. assert (f ∉ (dom h : gset bytes)) by (rewrite not_elem_of_dom; auto). set_solver.
      * intros g. rewrite Hl. destruct (decide (g = f)) as [->|Hg].
        -- rewrite (bool_decide_eq_true_2 (f ∈ f :: fs)) by left. rewrite E. destruct (bool_decide _); auto.
        -- replace (bool_decide (g ∈ f :: fs)) with (bool_decide (g ∈ fs)); auto.
           apply bool_decide_ext. rewrite elem_of_cons. tauto.
Qed.

(* the order of one traversal: fields and their values line up *)
Lemma h_iter_ok (ord : orders) (n : nat) m h : orders_ok ord -> hash_rel m h ->
  exists l, lists_set l (dom h) /\ iter_vals ord n m = (fun f => hent f (text (h !! f))) <$> l.
Proof.
  intros Ho H. destruct (iter_vals_ok ord n m Ho) as (ks & ND & Hin & ->).
  assert (Hin' : forall k, k ∈ ks <-> is_Some (h !! k)).
  { intros k. rewrite Hin, H. destruct (h !! k); simpl; split; intros [? ?]; eauto; discriminate. }
  exists ks. split; [split; auto; intros x; now rewrite Hin', elem_of_dom|].
  apply omap_total. intros f Hf. rewrite H. apply Hin' in Hf as [v Hv]. rewrite !Hv. reflexivity.
Qed.

(* ---- sets ---- *)
Definition set_rel (m : gmap bytes strc) (X : gset bytes) : Prop :=
  forall x, m !! x = if bool_decide (x ∈ X) then Some (new_string x) else None.

Lemma set_rel_in m X x : set_rel m X -> x ∈ X -> m !! x = Some (new_string x).
Proof. intros H Hx. rewrite H, bool_decide_eq_true_2 by auto. reflexivity. Qed.
Lemma set_rel_notin m X x : set_rel m X -> x ∉ X -> m !! x = None.
Proof. intros H Hx. rewrite H, bool_decide_eq_false_2 by auto. reflexivity. Qed.
Lemma set_rel_some m X x : set_rel m X -> is_Some (m !! x) <-> x ∈ X.
Proof.
  intros H. rewrite H. destruct (decide (x ∈ X)) as [i|i].
  - rewrite bool_decide_eq_true_2 by auto. split; eauto.
  - rewrite bool_decide_eq_false_2 by auto. split; [intros [? ?]; discriminate|tauto].
Qed.
Lemma set_rel_dom m X : set_rel m X -> dom m = X.
Proof. intros H. apply set_eq. intros x. rewrite elem_of_dom. now apply set_rel_some. Qed.
Lemma set_rel_size m X : set_rel m X -> size m = size X.
Proof. intros H. rewrite <- (size_dom (D := gset bytes)). now rewrite (set_rel_dom m X). Qed.
Lemma set_rel_empty : set_rel ∅ ∅.
Proof. intros x. rewrite lookup_empty, bool_decide_eq_false_2 by set_solver. reflexivity. Qed.
Lemma set_rel_ext m X Y : set_rel m X -> (forall x, x ∈ X <-> x ∈ Y) -> set_rel m Y.
Proof. intros H E. assert (X = Y) as <- by (apply set_eq; auto). auto. Qed.
Lemma set_rel_insert m X x : set_rel m X -> set_rel (<[x := new_string x]> m) ({[x]} ∪ X).
Proof.
  intros H y. destruct (decide (y = x)) as [->|].
  - rewrite lookup_insert, bool_decide_eq_true_2 by set_solver. reflexivity.
  - rewrite lookup_insert_ne, H by congruence. erewrite bool_decide_ext; [reflexivity|]. set_solver.
Qed.
Lemma set_rel_delete m X x : set_rel m X -> set_rel (delete x m) (X ∖ {[x]}).
Proof.
  intros H y. destruct (decide (y = x)) as [->|].
  - rewrite lookup_delete, bool_decide_eq_false_2 by set_solver. reflexivity.
  - rewrite lookup_delete_ne, H by congruence. erewrite bool_decide_ext; [reflexivity|]. set_solver.
Qed.

Lemma set_add_ok vs : forall m X, set_rel m X ->
  exists m', set_add m (map new_string vs) = (m', Z.of_nat (size (list_to_set vs ∖ X : gset bytes))) /\
    set_rel m' (X ∪ list_to_set vs).
Proof.
  induction vs as [|v vs IH]; intros m X H; cbn [map set_add list_to_set].
  - exists m. split; [f_equal; replace ((∅ : gset bytes) ∖ X) with (∅ : gset bytes) by set_solver; now rewrite size_empty|]. eapply set_rel_ext; [exact H|]. set_solver.
  - cbn [new_string s_data]. destruct (decide (v ∈ X)) as [Hv|Hv].
    + rewrite (set_rel_in m X v) by auto. destruct (IH m X H) as (m' & -> & Hr). exists m'. split.
      * do 3 f_equal. set_solver.
      * eapply set_rel_ext; [exact Hr|]. set_solver.
    + rewrite (set_rel_notin m X v) by auto.
      destruct (IH _ _ (set_rel_insert m X v H)) as (m' & E & Hr). 
      fold (new_string v). rewrite E. exists m'. split.
      * f_equal. replace (({[v]} ∪ list_to_set vs) ∖ X) with ({[v]} ∪ (list_to_set vs ∖ ({[v]} ∪ X)) : gset bytes).
        { rewrite size_add1 by set_solver. lia. }
        apply set_eq. intros x. rewrite elem_of_union, !elem_of_difference, !elem_of_union, !elem_of_singleton.
        destruct (decide (x = v)) as [->|]; tauto.
      * eapply set_rel_ext; [exact Hr|]. set_solver.
Qed.

Lemma set_delete_ok vs : forall m X, set_rel m X ->
  exists m', set_delete m (map new_string vs) = (m', Z.of_nat (size (X ∩ list_to_set vs))) /\
    set_rel m' (X ∖ list_to_set vs).
Proof.
  induction vs as [|v vs IH]; intros m X H; cbn [map set_delete list_to_set].
  - exists m. split; [f_equal; now rewrite intersection_empty_r_L, size_empty|]. eapply set_rel_ext; [exact H|]. set_solver.
  - cbn [new_string s_data]. destruct (decide (v ∈ X)) as [Hv|Hv].
    + rewrite (set_rel_in m X v) by auto.
      destruct (IH _ _ (set_rel_delete m X v H)) as (m' & -> & Hr). exists m'. split.
      * f_equal. replace (X ∩ ({[v]} ∪ list_to_set vs)) with ({[v]} ∪ ((X ∖ {[v]}) ∩ list_to_set vs) : gset bytes).
        { rewrite size_add1 by set_solver. lia. }
        apply set_eq. intros x. rewrite elem_of_union, !elem_of_intersection, elem_of_difference, elem_of_union, !elem_of_singleton.
        destruct (decide (x = v)) as [->|]; tauto.
      * eapply set_rel_ext; [exact Hr|]. set_solver.
    + rewrite (set_rel_notin m X v) by auto. destruct (IH m X H) as (m' & -> & Hr). exists m'. split.
      * do 3 f_equal. set_solver.
      * eapply set_rel_ext; [exact Hr|]. set_solver.
Qed.

Lemma set_is_member_ok m X x : set_rel m X -> set_is_member m (new_string x) = bool_decide (x ∈ X).
Proof. intros H. unfold set_is_member. simpl. rewrite H. destruct (bool_decide _); reflexivity. Qed.

Lemma set_members_ok (ord : orders) (n : nat) m X : orders_ok ord -> set_rel m X ->
  exists l, lists_set l X /\ set_members ord n m = map new_string l.
Proof.
  intros Ho H. unfold set_members. destruct (iter_vals_ok ord n m Ho) as (ks & ND & Hin & ->).
  exists ks. split.
  - split; auto. intros x. rewrite Hin. now apply set_rel_some.
  - apply omap_total. intros x Hx. apply Hin in Hx. apply set_rel_some with (X := X) in Hx; auto. now apply set_rel_in with (X := X).
Qed.

Lemma lists_set_length (l : list bytes) (X : gset bytes) : lists_set l X -> length l = size X.
Proof.
  intros [ND H]. assert (X = list_to_set l) as -> by (apply set_eq; intros x; rewrite elem_of_list_to_set; symmetry; apply H).
  symmetry. apply size_list_to_set. exact ND.
Qed.

Lemma random_loop_ok l : forall c, 0 <= c < 2 ^ 63 -> random_loop c (map new_string l) = map new_string (firstn (Z.to_nat c) l).
Proof.
  induction l as [|x l IH]; intros c Hc; cbn [map random_loop]; [now rewrite firstn_nil|].
  rewrite wrap64_id by (unfold int64_ok; lia). destruct (c - 1 <? 0) eqn:E.
  - replace (Z.to_nat c) with O by lia. reflexivity.
  - rewrite IH by lia. replace (Z.to_nat c) with (S (Z.to_nat (c - 1))) by lia. reflexivity.
Qed.
Lemma random_loop_min l : Z.of_nat (length l) < 2 ^ 63 -> random_loop (- 2 ^ 63) (map new_string l) = map new_string l.
Proof.
  destruct l as [|x l]; intros H; [reflexivity|]. cbn [map random_loop length] in *.
  change (wrap64 (- 2 ^ 63 - 1)) with (2 ^ 63 - 1). destruct (2 ^ 63 - 1 <? 0) eqn:E; [lia|].
  rewrite random_loop_ok by lia. rewrite firstn_all2 by lia. reflexivity.
Qed.

Lemma firstn_picks (l : list bytes) (n : nat) (X : gset bytes) : lists_set l X -> picks (firstn n l) (Z.of_nat n) X.
Proof.
  intros Hl. pose proof (lists_set_length _ _ Hl). destruct Hl as [ND Hin]. split; [|split].
  - rewrite <- (firstn_skipn n l) in ND. now apply NoDup_app in ND as [? _].
  - intros x Hx. apply Hin. rewrite <- (firstn_skipn n l). apply elem_of_app. auto.
  - rewrite firstn_length. lia.
Qed.

Lemma set_random_ok (ord : orders) (n : nat) m X c : orders_ok ord -> set_rel m X -> int64_ok c -> Z.of_nat (size X) < 2 ^ 63 ->
  exists l, picks l (Z.abs c) X /\ set_random ord n m c = map new_string l.
Proof.
  intros Ho H Hc Hs. unfold set_random. destruct (set_members_ok ord n m X Ho H) as (l & Hl & ->).
  pose proof (lists_set_length _ _ Hl) as Hlen. unfold int64_ok in Hc.
  destruct (c <? 0) eqn:E.
  - destruct (Z.eq_dec c (- 2 ^ 63)) as [->|].
    + change (wrap64 (- (- 2 ^ 63))) with (- 2 ^ 63). exists l. split; [|apply random_loop_min; lia].
      destruct Hl as [ND Hin]. split; [auto|split; [intros x; apply Hin|]]. lia.
    + rewrite wrap64_id by (unfold int64_ok; lia). exists (firstn (Z.to_nat (- c)) l). split; [|apply random_loop_ok; lia].
      replace (Z.abs c) with (Z.of_nat (Z.to_nat (- c))) by lia. now apply firstn_picks.
  - exists (firstn (Z.to_nat c) l). split; [|apply random_loop_ok; lia].
    replace (Z.abs c) with (Z.of_nat (Z.to_nat c)) by lia. now apply firstn_picks.
Qed.

Lemma set_pop_ok (ord : orders) (n : nat) m X c : orders_ok ord -> set_rel m X -> int64_ok c -> Z.of_nat (size X) < 2 ^ 63 ->
  exists l m', picks l (Z.abs c) X /\ set_pop ord n m c = (m', map new_string l) /\ set_rel m' (X ∖ list_to_set l).
Proof.
  intros Ho H Hc Hs. unfold set_pop. destruct (set_random_ok ord n m X c Ho H Hc Hs) as (l & Hl & ->).
  destruct (set_delete_ok l m X H) as (m' & -> & Hr). exists l, m'. auto.
Qed.

(* picking everything leaves nothing *)
Lemma picks_all (l : list bytes) (c : Z) (X : gset bytes) : picks l c X -> Z.of_nat (size X) <= c -> X ∖ list_to_set l = ∅.
Proof.
  intros (ND & Hin & Hlen) Hc. assert (E : length l = size X) by lia.
  assert (Hsub : (list_to_set l : gset bytes) ⊆ X) by (intros x; rewrite elem_of_list_to_set; auto).
  assert (size (list_to_set l : gset bytes) = length l) by (apply size_list_to_set; auto).
  pose proof (size_difference X (list_to_set l) Hsub). apply size_empty_inv in H0 || idtac.
  assert (Z0 : size (X ∖ list_to_set l) = 0%nat) by lia. apply leibniz_equiv. apply size_empty_inv. exact Z0.
Qed.

Lemma filter_members m X l : set_rel m X ->
  List.filter (set_is_member m) (map new_string l) = map new_string (List.filter (fun x => bool_decide (x ∈ X)) l).
Proof.
  intros H. induction l as [|x l IH]; [reflexivity|]. cbn [map List.filter]. rewrite (set_is_member_ok m X) by auto.
  destruct (bool_decide (x ∈ X)); cbn [map]; now rewrite IH.
Qed.
Lemma elem_of_lfilter (P : bytes -> bool) (l : list bytes) x : x ∈ List.filter P l <-> P x = true /\ x ∈ l.
Proof. rewrite !elem_of_list_In, filter_In. tauto. Qed.

Lemma add_fresh (ord : orders) (n : nat) m X : orders_ok ord -> set_rel m X -> set_rel (fst (set_add ∅ (set_members ord n m))) X.
Proof.
  intros Ho H. destruct (set_members_ok ord n m X Ho H) as (l & [ND Hl] & ->).
  destruct (set_add_ok l ∅ ∅ set_rel_empty) as (m' & -> & Hr). simpl.
  eapply set_rel_ext; [exact Hr|]. intros x. rewrite elem_of_union, elem_of_list_to_set, Hl. set_solver.
Qed.

Lemma diff_loop_ok (ord : orders) cs : forall (n : nat) m X Xs, orders_ok ord -> set_rel m X -> Forall2 set_rel cs Xs ->
  set_rel (diff_loop ord n m cs) (X ∖ ⋃ Xs).
Proof.
  induction cs as [|c cs IH]; intros n m X Xs Ho H HF; inversion HF as [|? ? ? ? Hc HF']; subst; cbn [diff_loop].
  - eapply set_rel_ext; [exact H|]. set_solver.
  - destruct (set_members_ok ord n c y Ho Hc) as (l & [ND Hl] & ->). rewrite (filter_members m X) by auto.
    destruct (set_delete_ok (List.filter (fun x => bool_decide (x ∈ X)) l) m X H) as (m' & -> & Hr). cbn [fst].
    pose proof (IH (S n) m' _ l' Ho Hr HF') as G. eapply set_rel_ext; [exact G|]. intros x. change (⋃ (y :: l')) with (y ∪ ⋃ l').
    rewrite !elem_of_difference, elem_of_union, elem_of_list_to_set, elem_of_lfilter, bool_decide_eq_true, Hl. tauto.
Qed.
Lemma set_diff_ok (ord : orders) m X cs Xs : orders_ok ord -> set_rel m X -> Forall2 set_rel cs Xs ->
  set_rel (set_diff ord m cs) (X ∖ ⋃ Xs).
Proof. intros. apply diff_loop_ok; auto. now apply add_fresh. Qed.

Lemma inter_loop_ok (ord : orders) cs : forall (n : nat) m X Xs, orders_ok ord -> set_rel m X -> Z.of_nat (size X) < 2 ^ 63 ->
  Forall2 set_rel cs Xs ->
  set_rel (inter_loop ord n m cs) (foldl (fun A B => A ∩ B) X Xs).
Proof.
  induction cs as [|c cs IH]; intros n m X Xs Ho H Hs HF; inversion HF as [|? ? ? ? Hc HF']; subst; cbn [inter_loop foldl]; [exact H|].
  destruct (set_members_ok ord n c y Ho Hc) as (l & [ND Hl] & ->). rewrite (filter_members m X) by auto.
  unfold set_len. rewrite (set_rel_size m X) by auto.
  destruct (set_pop_ok ord (S n) m X (Z.of_nat (size X)) Ho H) as (p & m' & Hp & -> & Hr); [unfold int64_ok; lia|lia|]. cbn [fst].
  rewrite (picks_all p _ X Hp) in Hr by lia.
  destruct (set_add_ok (List.filter (fun x => bool_decide (x ∈ X)) l) m' ∅ Hr) as (m2 & -> & Hr2). cbn [fst].
  apply IH; auto.
  - eapply set_rel_ext; [exact Hr2|]. intros x.
    rewrite elem_of_union, elem_of_list_to_set, elem_of_lfilter, bool_decide_eq_true, Hl, elem_of_intersection. set_solver.
  - assert (size (X ∩ y) <= size X)%nat by (apply subseteq_size; set_solver). lia.
Qed.
Lemma set_inter_ok (ord : orders) m X cs Xs : orders_ok ord -> set_rel m X -> Z.of_nat (size X) < 2 ^ 63 -> Forall2 set_rel cs Xs ->
  set_rel (set_inter ord m cs) (foldl (fun A B => A ∩ B) X Xs).
Proof. intros. apply inter_loop_ok; auto. now apply add_fresh. Qed.

Lemma union_loop_ok (ord : orders) cs : forall (n : nat) m X Xs, orders_ok ord -> set_rel m X -> Forall2 set_rel cs Xs ->
  set_rel (union_loop ord n m cs) (X ∪ ⋃ Xs).
Proof.
  induction cs as [|c cs IH]; intros n m X Xs Ho H HF; inversion HF as [|? ? ? ? Hc HF']; subst; cbn [union_loop].
  - eapply set_rel_ext; [exact H|]. set_solver.
  - destruct (set_members_ok ord n c y Ho Hc) as (l & [ND Hl] & ->).
    destruct (set_add_ok l m X H) as (m' & -> & Hr). cbn [fst].
    pose proof (IH (S n) m' _ l' Ho Hr HF') as G. eapply set_rel_ext; [exact G|]. intros x. change (⋃ (y :: l')) with (y ∪ ⋃ l').
    rewrite !elem_of_union, elem_of_list_to_set, Hl. tauto.
Qed.
Lemma set_union_ok (ord : orders) m X cs Xs : orders_ok ord -> set_rel m X -> Forall2 set_rel cs Xs ->
  set_rel (set_union ord m cs) (X ∪ ⋃ Xs).
Proof.
  intros Ho H HF. unfold set_union. destruct (set_members_ok ord 0 m X Ho H) as (l & [ND Hl] & ->).
  destruct (set_add_ok l _ _ (union_loop_ok ord cs 1 ∅ ∅ Xs Ho set_rel_empty HF)) as (m' & -> & Hr). cbn [fst].
  eapply set_rel_ext; [exact Hr|]. intros x. rewrite !elem_of_union, elem_of_list_to_set, Hl. set_solver.
Qed.
