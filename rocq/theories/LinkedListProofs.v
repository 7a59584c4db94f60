From Verif Require Import Base BaseFacts IndexSpec UtilIndex UtilIndexProofs StringC StringCProofs ListSpec LinkedList.
From Coq Require Import ZArith List Ascii Bool Lia ZifyBool.
From stdpp Require Import gmap.
Open Scope Z_scope.

(* ---- heap predicate: a doubly linked segment ---- *)
Definition first_or (l : list (loc * strc)) (n : option loc) : option loc :=
  match l with [] => n | (a, _) :: _ => Some a end.
Fixpoint last_or (p : option loc) (l : list (loc * strc)) : option loc :=
  match l with [] => p | (a, _) :: l' => last_or (Some a) l' end.
Fixpoint dll (h : heap) (p : option loc) (l : list (loc * strc)) (n : option loc) : Prop :=
  match l with
  | [] => True
  | (a, d) :: l' => h !! a = Some (mkNode d (first_or l' n) p) /\ dll h (Some a) l' n
  end.

Lemma first_or_app l1 l2 n : first_or (l1 ++ l2) n = first_or l1 (first_or l2 n).
Proof. destruct l1 as [|[] ?]; auto. Qed.
Lemma last_or_app l1 : forall p l2, last_or p (l1 ++ l2) = last_or (last_or p l1) l2.
Proof. induction l1 as [|[a d] l1 IH]; intros; simpl; auto. Qed.
Lemma last_or_snoc p l a d : last_or p (l ++ [(a, d)]) = Some a.
Proof. now rewrite last_or_app. Qed.

Lemma dll_app h l1 : forall p l2 n,
  dll h p (l1 ++ l2) n <-> dll h p l1 (first_or l2 n) /\ dll h (last_or p l1) l2 n.
Proof.
  induction l1 as [|[a d] l1 IH]; intros p l2 n; simpl; [tauto|].
  rewrite IH, first_or_app. tauto.
Qed.

Lemma dll_frame h a x l : forall p n, a ∉ l.*1 -> dll h p l n -> dll (<[a := x]> h) p l n.
Proof.
  induction l as [|[b d] l IH]; intros p n Ha H; [exact I|].
  rewrite fmap_cons in Ha. apply not_elem_of_cons in Ha as [Hne Ha]. destruct H as [H1 H2].
  split; [rewrite lookup_insert_ne by auto; exact H1|auto].
Qed.

Lemma NoDup_locs_split (l1 : list (loc * strc)) a d l2 : NoDup ((l1 ++ (a, d) :: l2).*1) ->
  a ∉ l1.*1 /\ a ∉ l2.*1 /\ NoDup ((l1 ++ l2).*1).
Proof.
  rewrite !fmap_app, fmap_cons. simpl. intros H.
  apply NoDup_app in H as (H1 & H2 & H3). apply NoDup_cons in H3 as [H3 H4].
  split; [intros Hin; apply (H2 _ Hin); left|]. split; auto.
  apply NoDup_app. split; auto. split; auto. intros x Hx Hx'. apply (H2 x Hx). now right.
Qed.

(* splitting the end of a non-empty list *)
Lemma snoc_case {A} (l : list A) : l = [] \/ exists l' x, l = l' ++ [x].
Proof. destruct l using rev_ind; eauto. Qed.

Lemma deref_some h a n : h !! a = Some n -> deref h (Some a) = Ret n.
Proof. simpl. now intros ->. Qed.
Lemma set_next_some h a n v : h !! a = Some n ->
  set_next h (Some a) v = Ret (<[a := mkNode (n_data n) v (n_prev n)]> h).
Proof. simpl. now intros ->. Qed.
Lemma set_prev_some h a n v : h !! a = Some n ->
  set_prev h (Some a) v = Ret (<[a := mkNode (n_data n) (n_next n) v]> h).
Proof. simpl. now intros ->. Qed.

(* ---- primitive operations ---- *)
Lemma delete_node_ok h l1 a d l2 :
  dll h None (l1 ++ (a, d) :: l2) None -> NoDup ((l1 ++ (a, d) :: l2).*1) -> l1 <> [] -> l2 <> [] ->
  exists h', delete_node h (Some a) = Ret (h', d) /\ dll h' None (l1 ++ l2) None.
Proof.
  intros H ND N1 N2. destruct (snoc_case l1) as [->|(l1' & [p dp] & ->)]; [congruence|].
  destruct l2 as [|[q dq] l2]; [congruence|]. clear N1 N2.
  rewrite <- app_assoc in H, ND. simpl in H, ND.
  pose proof H as H0.
  apply dll_app in H as [H1 H]. simpl in H. destruct H as (Hp & Ha & Hq & H2).
  rewrite !fmap_app, !fmap_cons in ND. simpl in ND.
  apply NoDup_app in ND as (ND1 & Dis & ND2).
  assert (Np : p ∉ l1'.*1) by (intros Hi; apply (Dis _ Hi); left).
  assert (Na : a ∉ l1'.*1) by (intros Hi; apply (Dis _ Hi); right; left).
  assert (Nq : q ∉ l1'.*1) by (intros Hi; apply (Dis _ Hi); right; right; left).
  apply NoDup_cons in ND2 as [Np2 ND2]. apply NoDup_cons in ND2 as [Na2 ND2].
  apply NoDup_cons in ND2 as [Nq2 ND2].
  rewrite !not_elem_of_cons in Np2. destruct Np2 as (Npa & Npq & Np2).
  rewrite !not_elem_of_cons in Na2. destruct Na2 as (Naq & Na2).
  unfold delete_node. rewrite (deref_some _ _ _ Ha). cbn [rbind n_prev n_next n_data].
  erewrite set_next_some by exact Hp. cbn [rbind n_prev n_next n_data].
  erewrite deref_some by (rewrite lookup_insert_ne by auto; exact Ha). cbn [rbind n_prev n_next n_data].
  erewrite set_prev_some by (rewrite lookup_insert_ne by auto; exact Hq). cbn [rbind n_prev n_next n_data].
  erewrite set_next_some by (rewrite !lookup_insert_ne by auto; exact Ha). cbn [rbind n_prev n_next n_data].
  erewrite set_prev_some by (rewrite lookup_insert; reflexivity). cbn [rbind n_prev n_next n_data].
  eexists. split; [reflexivity|].
  rewrite <- app_assoc. simpl. apply dll_app. split.
  - do 4 (apply dll_frame; [assumption|]). exact H1.
  - simpl. split; [|split].
    + rewrite !lookup_insert_ne by auto. rewrite lookup_insert. reflexivity.
    + rewrite !lookup_insert_ne by auto. rewrite lookup_insert. reflexivity.
    + do 4 (apply dll_frame; [assumption|]). exact H2.
Qed.

Lemma insert_between_ok h fresh l1 p dp q dq l2 d :
  dll h None (l1 ++ (p, dp) :: (q, dq) :: l2) None -> NoDup ((l1 ++ (p, dp) :: (q, dq) :: l2).*1) ->
  fresh ∉ (l1 ++ (p, dp) :: (q, dq) :: l2).*1 ->
  (exists h', insert_after h fresh (Some p) d = Ret h' /\
    dll h' None (l1 ++ (p, dp) :: (fresh, d) :: (q, dq) :: l2) None) /\
  (exists h', insert_before h fresh (Some q) d = Ret h' /\
    dll h' None (l1 ++ (p, dp) :: (fresh, d) :: (q, dq) :: l2) None).
Proof.
  intros H ND HF.
  apply dll_app in H as [H1 H]. simpl in H. destruct H as (Hp & Hq & H2).
  rewrite !fmap_app, !fmap_cons in ND, HF. simpl in ND, HF.
  apply NoDup_app in ND as (ND1 & Dis & ND2).
  rewrite not_elem_of_app, !not_elem_of_cons in HF. destruct HF as (F1 & Fp & Fq & F2).
  assert (Np : p ∉ l1.*1) by (intros Hi; apply (Dis _ Hi); left).
  assert (Nq : q ∉ l1.*1) by (intros Hi; apply (Dis _ Hi); right; left).
  apply NoDup_cons in ND2 as [Np2 ND2]. apply NoDup_cons in ND2 as [Nq2 ND2].
  rewrite !not_elem_of_cons in Np2. destruct Np2 as (Npq & Np2).
  assert (Fin : forall h', h' !! p = Some (mkNode dp (Some fresh) (last_or None l1)) ->
     h' !! fresh = Some (mkNode d (Some q) (Some p)) ->
     h' !! q = Some (mkNode dq (first_or l2 None) (Some fresh)) ->
     dll h' None l1 (Some p) -> dll h' (Some q) l2 None ->
     dll h' None (l1 ++ (p, dp) :: (fresh, d) :: (q, dq) :: l2) None).
  { intros h' A B C D E. apply dll_app. split; auto. simpl. auto. }
  split.
  - unfold insert_after. rewrite (deref_some _ _ _ Hp). cbn [rbind n_prev n_next n_data].
    erewrite set_prev_some by (rewrite lookup_insert_ne by auto; exact Hq). cbn [rbind n_prev n_next n_data].
    erewrite set_next_some by (rewrite !lookup_insert_ne by auto; exact Hp). cbn [rbind n_prev n_next n_data].
    eexists. split; [reflexivity|]. apply Fin.
    + now rewrite lookup_insert.
    + rewrite !lookup_insert_ne by auto. now rewrite lookup_insert.
    + rewrite !lookup_insert_ne by auto. now rewrite lookup_insert.
    + do 3 (apply dll_frame; [assumption|]). exact H1.
    + do 3 (apply dll_frame; [assumption|]). exact H2.
  - unfold insert_before. rewrite (deref_some _ _ _ Hq). cbn [rbind n_prev n_next n_data].
    erewrite set_next_some by (rewrite !lookup_insert_ne by auto; exact Hp). cbn [rbind n_prev n_next n_data].
    erewrite set_prev_some by (rewrite !lookup_insert_ne by auto; exact Hq). cbn [rbind n_prev n_next n_data].
    eexists. split; [reflexivity|]. apply Fin.
    + rewrite !lookup_insert_ne by auto. now rewrite lookup_insert.
    + rewrite !lookup_insert_ne by auto. now rewrite lookup_insert.
    + now rewrite lookup_insert.
    + do 3 (apply dll_frame; [assumption|]). exact H1.
    + do 3 (apply dll_frame; [assumption|]). exact H2.
Qed.

(* ---- representation ---- *)
(* The nodes, in order, of a list holding [vs]. *)
Definition full (l : llist) (ns : list (loc * strc)) : list (loc * strc) :=
  (l_head l, dummy) :: ns ++ [(l_tail l, dummy)].
Definition lrepr_ns (l : llist) (ns : list (loc * strc)) (vs : list bytes) : Prop :=
  ns.*2 = new_string <$> vs /\
  dll (l_heap l) None (full l ns) None /\
  NoDup ((full l ns).*1) /\
  Forall (fun a => a < l_alloc l)%nat ((full l ns).*1) /\
  l_size l = Z.of_nat (length vs).
(* [l] represents the sequence [vs]. *)
Definition lrepr (l : llist) (vs : list bytes) : Prop := exists ns, lrepr_ns l ns vs.

Lemma new_list_repr : lrepr new_list [].
Proof.
  exists []. split; [reflexivity|]. split.
  - simpl. auto.
  - split; [|split; [|reflexivity]].
    + simpl. apply NoDup_cons. split; [|apply NoDup_singleton].
      rewrite elem_of_list_singleton. discriminate.
    + simpl. repeat constructor.
Qed.

Lemma ns_length (ns : list (nat * strc)) (vs : list bytes) : ns.*2 = new_string <$> vs -> length ns = length vs.
Proof. intros H. apply (f_equal length) in H. rewrite !fmap_length in H. exact H. Qed.

Lemma fresh_not_in n (l : list nat) : Forall (fun a => a < n)%nat l -> n ∉ l.
Proof. intros H Hin. rewrite Forall_forall in H. specialize (H _ Hin). lia. Qed.

Lemma Forall_lt_S n (l : list nat) : Forall (fun a => a < n)%nat l -> Forall (fun a => a < S n)%nat l.
Proof. intros H. eapply Forall_impl; [exact H|]. simpl. lia. Qed.

(* inserting a node anywhere in the middle *)
Lemma repr_insert l l1 p dp q dq l2 ns d vs h' :
  full l ns = l1 ++ (p, dp) :: (q, dq) :: l2 ->
  dll h' None (l1 ++ (p, dp) :: (l_alloc l, d) :: (q, dq) :: l2) None ->
  NoDup ((full l ns).*1) -> Forall (fun a => a < l_alloc l)%nat ((full l ns).*1) ->
  forall ns', full l ns' = l1 ++ (p, dp) :: (l_alloc l, d) :: (q, dq) :: l2 ->
  ns'.*2 = new_string <$> vs -> l_size l + 1 = Z.of_nat (length vs) ->
  lrepr (mkList h' (S (l_alloc l)) (l_head l) (l_tail l) (l_size l + 1)) vs.
Proof.
  intros Hf Hd ND Fo ns' Hf' Hv Hs. exists ns'.
  unfold lrepr_ns. simpl l_heap. simpl l_alloc. simpl l_size.
  change (full _ ns') with (full l ns'). rewrite Hf'. rewrite Hf in ND, Fo.
  pose proof (fresh_not_in _ _ Fo) as Fr.
  assert (P : (l1 ++ (p, dp) :: (l_alloc l, d) :: (q, dq) :: l2).*1 ≡ₚ
              l_alloc l :: (l1 ++ (p, dp) :: (q, dq) :: l2).*1).
  { rewrite !fmap_app, !fmap_cons. simpl.
    rewrite (Permutation_swap (l_alloc l) p). now rewrite <- Permutation_middle. }
  repeat split; auto.
  - rewrite P. apply NoDup_cons. auto.
  - rewrite P. constructor; [lia|]. now apply Forall_lt_S.
Qed.

Lemma push_head_ok ds : forall l vs, lrepr l vs ->
  exists l', push_head l (new_string <$> ds) = Ret l' /\ lrepr l' (rev ds ++ vs).
Proof.
  induction ds as [|d ds IH]; intros l vs Hr; [exists l; auto|].
  cbn [fmap list_fmap push_head]. destruct Hr as (ns & Hv & Hd & ND & Fo & Hs).
  assert (E : exists q dq l2, ns ++ [(l_tail l, dummy)] = (q, dq) :: l2).
  { destruct ns as [|[q dq] ns]; simpl; eauto. }
  destruct E as (q & dq & l2 & E).
  assert (Ef : full l ns = [] ++ (l_head l, dummy) :: (q, dq) :: l2) by (unfold full; rewrite E; reflexivity).
  destruct (insert_between_ok (l_heap l) (l_alloc l) [] (l_head l) dummy q dq l2 (new_string d)) as [(h' & -> & Hd') _].
  { now rewrite <- Ef. } { now rewrite <- Ef. } { rewrite <- Ef. now apply fresh_not_in. }
  cbn [rbind].
  edestruct (IH (mkList h' (S (l_alloc l)) (l_head l) (l_tail l) (l_size l + 1)) (d :: vs)) as (l' & -> & Hr').
  { eapply (repr_insert l [] (l_head l) dummy q dq l2 ns); eauto.
    - instantiate (1 := (l_alloc l, new_string d) :: ns). unfold full. simpl. now rewrite E.
    - rewrite fmap_cons. simpl. now f_equal.
    - simpl length. lia. }
  exists l'. split; auto. simpl rev. now rewrite <- app_assoc.
Qed.

Lemma push_tail_ok ds : forall l vs, lrepr l vs ->
  exists l', push_tail l (new_string <$> ds) = Ret l' /\ lrepr l' (vs ++ ds).
Proof.
  induction ds as [|d ds IH]; intros l vs Hr; [exists l; rewrite app_nil_r; auto|].
  cbn [fmap list_fmap push_tail]. destruct Hr as (ns & Hv & Hd & ND & Fo & Hs).
  assert (E : exists l1 p dp, (l_head l, dummy) :: ns = l1 ++ [(p, dp)]).
  { destruct (snoc_case ((l_head l, dummy) :: ns)) as [?|(l1 & [p dp] & ?)]; [discriminate|eauto]. }
  destruct E as (l1 & p & dp & E).
  assert (Ef : full l ns = l1 ++ (p, dp) :: (l_tail l, dummy) :: []).
  { unfold full. change (?x :: ns ++ ?y) with ((x :: ns) ++ y). rewrite E, <- app_assoc. reflexivity. }
  destruct (insert_between_ok (l_heap l) (l_alloc l) l1 p dp (l_tail l) dummy [] (new_string d)) as [_ (h' & -> & Hd')].
  { now rewrite <- Ef. } { now rewrite <- Ef. } { rewrite <- Ef. now apply fresh_not_in. }
  cbn [rbind].
  edestruct (IH (mkList h' (S (l_alloc l)) (l_head l) (l_tail l) (l_size l + 1)) (vs ++ [d])) as (l' & -> & Hr').
  { eapply (repr_insert l l1 p dp (l_tail l) dummy [] ns); eauto.
    - instantiate (1 := ns ++ [(l_alloc l, new_string d)]). unfold full.
      change (?x :: (ns ++ ?z) ++ ?y) with ((x :: ns ++ z) ++ y).
      change (?x :: ns ++ ?z) with ((x :: ns) ++ z). rewrite E, <- !app_assoc. reflexivity.
    - rewrite !fmap_app. simpl. now f_equal.
    - rewrite app_length. simpl length. lia. }
  exists l'. split; auto. now rewrite <- app_assoc in Hr'.
Qed.

(* removing one node *)
Lemma repr_delete l ns1 a d ns2 vs1 v vs2 :
  lrepr_ns l (ns1 ++ (a, d) :: ns2) (vs1 ++ v :: vs2) -> length ns1 = length vs1 ->
  d = new_string v /\
  exists h', delete_node (l_heap l) (Some a) = Ret (h', d) /\
    lrepr_ns (mkList h' (l_alloc l) (l_head l) (l_tail l) (l_size l - 1)) (ns1 ++ ns2) (vs1 ++ vs2).
Proof.
  intros (Hv & Hd & ND & Fo & Hs) Hl.
  rewrite !fmap_app, !fmap_cons in Hv. simpl in Hv.
  apply app_inj_1 in Hv as [Hv1 Hv2]; [|now rewrite !fmap_length].
  injection Hv2 as -> Hv2. split; auto.
  assert (Ef : full l (ns1 ++ (a, new_string v) :: ns2) =
    ((l_head l, dummy) :: ns1) ++ (a, new_string v) :: (ns2 ++ [(l_tail l, dummy)])).
  { unfold full. simpl. now rewrite <- app_assoc. }
  rewrite Ef in Hd, ND, Fo.
  destruct (delete_node_ok _ _ _ _ _ Hd ND) as (h' & -> & Hd'); [discriminate|destruct ns2; discriminate|].
  exists h'. split; auto.
  apply NoDup_locs_split in ND as (_ & _ & ND).
  assert (Ef' : forall l', l_head l' = l_head l -> l_tail l' = l_tail l -> full l' (ns1 ++ ns2) =
    ((l_head l, dummy) :: ns1) ++ (ns2 ++ [(l_tail l, dummy)])).
  { intros l' E1 E2. unfold full. rewrite E1, E2. simpl. now rewrite <- app_assoc. }
  unfold lrepr_ns. rewrite Ef' by reflexivity. simpl l_heap. simpl l_alloc. simpl l_size.
  split; [rewrite !fmap_app, Hv1, Hv2; auto|]. split; [exact Hd'|]. split; [exact ND|]. split.
  - rewrite fmap_app in Fo. apply Forall_app in Fo as [F1 F2]. inversion F2; subst.
    rewrite fmap_app. apply Forall_app. auto.
  - rewrite app_length in *. simpl in Hs. lia.
Qed.

Lemma loc_eqb_spec p q : loc_eqb p q = true <-> p = q.
Proof.
  destruct p as [a|], q as [b|]; simpl; split; try congruence.
  - intros H. apply Nat.eqb_eq in H. congruence.
  - intros [= ->]. apply Nat.eqb_refl.
Qed.
Lemma loc_eqb_ne a b : a <> b -> loc_eqb (Some a) (Some b) = false.
Proof. intros H. simpl. apply Nat.eqb_neq. auto. Qed.

Lemma full_head_lookup l ns : dll (l_heap l) None (full l ns) None ->
  l_heap l !! l_head l = Some (mkNode dummy (first_or ns (Some (l_tail l))) None).
Proof. unfold full. simpl. rewrite first_or_app. simpl. tauto. Qed.
Lemma full_tail_lookup l ns : dll (l_heap l) None (full l ns) None ->
  l_heap l !! l_tail l = Some (mkNode dummy None (last_or (Some (l_head l)) ns)).
Proof.
  unfold full. change (?x :: ns ++ ?z) with ((x :: ns) ++ z). intros H.
  apply dll_app in H as [_ H]. simpl in H. tauto.
Qed.

Lemma pop_head_ok l vs : lrepr l vs ->
  match vs with
  | [] => pop_head l = Ret (l, None)
  | v :: vs' => exists l', pop_head l = Ret (l', Some (new_string v)) /\ lrepr l' vs'
  end.
Proof.
  intros (ns & Hr). pose proof Hr as (Hv & Hd & ND & Fo & Hs).
  unfold pop_head. rewrite (deref_some _ _ _ (full_head_lookup _ _ Hd)). cbn [rbind n_next].
  destruct vs as [|v vs], ns as [|[a d] ns]; try discriminate.
  - simpl. rewrite Nat.eqb_refl. reflexivity.
  - simpl first_or. destruct (repr_delete l [] a d ns [] v vs Hr eq_refl) as (-> & h' & -> & Hr').
    rewrite loc_eqb_ne.
    + eexists. split; [reflexivity|]. eexists; eauto.
    + intros ->. unfold full in ND. simpl in ND. apply NoDup_cons in ND as [_ ND].
      apply NoDup_cons in ND as [ND _]. apply ND. rewrite fmap_app. apply elem_of_app. right. left.
Qed.

Lemma pop_tail_ok l vs : lrepr l vs ->
  (vs = [] -> pop_tail l = Ret (l, None)) /\
  (forall vs' v, vs = vs' ++ [v] -> exists l', pop_tail l = Ret (l', Some (new_string v)) /\ lrepr l' vs').
Proof.
  intros (ns & Hr). pose proof Hr as (Hv & Hd & ND & Fo & Hs).
  unfold pop_tail. rewrite (deref_some _ _ _ (full_tail_lookup _ _ Hd)). cbn [rbind n_prev].
  split.
  - intros ->. destruct ns; [|discriminate]. simpl. rewrite Nat.eqb_refl. reflexivity.
  - intros vs' v ->. destruct (snoc_case ns) as [->|(ns' & [a d] & ->)].
    { rewrite fmap_app in Hv. simpl in Hv. destruct (new_string <$> vs'); discriminate. }
    assert (Hl : length ns' = length vs').
    { apply ns_length in Hv. rewrite !app_length in Hv. simpl in Hv. lia. }
    destruct (repr_delete l ns' a d [] vs' v [] Hr Hl) as (-> & h' & Hdel & Hr').
    rewrite last_or_snoc, Hdel. rewrite loc_eqb_ne.
    + eexists. split; [reflexivity|]. rewrite !app_nil_r in Hr'. eexists; eauto.
    + intros ->. unfold full in ND. simpl in ND. apply NoDup_cons in ND as [ND _].
      apply ND. rewrite !fmap_app. apply elem_of_app. left. apply elem_of_app. right. left.
Qed.

(* ---- general tools ---- *)
Definition emb (x : nat * bytes) : nat * strc := (fst x, new_string (snd x)).

Lemma emb_split (ns : list (nat * strc)) (vs : list bytes) : ns.*2 = new_string <$> vs ->
  exists xs, ns = emb <$> xs /\ vs = xs.*2.
Proof.
  revert vs. induction ns as [|[a d] ns IH]; intros [|v vs] H; try discriminate.
  - exists []. auto.
  - rewrite !fmap_cons in H. simpl in H. injection H as -> H.
    destruct (IH _ H) as (xs & -> & ->). exists ((a, v) :: xs). auto.
Qed.
Lemma emb_fst xs : (emb <$> xs).*1 = xs.*1.
Proof. induction xs as [|[] ? IH]; simpl; f_equal; auto. Qed.
Lemma emb_snd xs : (emb <$> xs).*2 = new_string <$> xs.*2.
Proof. induction xs as [|[] ? IH]; simpl; f_equal; auto. Qed.

Lemma dll_ext h h' l : forall p n, (forall x, x ∈ l.*1 -> h' !! x = h !! x) -> dll h p l n -> dll h' p l n.
Proof.
  induction l as [|[a d] l IH]; intros p n He H; [exact I|]. destruct H as [H1 H2].
  split; [rewrite He; [exact H1|left]|]. apply IH; auto. intros x Hx. apply He. now right.
Qed.

(* inserting at a split point *)
Lemma insert_split l ns1 ns2 vs1 vs2 v :
  lrepr_ns l (ns1 ++ ns2) (vs1 ++ vs2) -> length ns1 = length vs1 ->
  (exists h', insert_after (l_heap l) (l_alloc l) (last_or (Some (l_head l)) ns1) (new_string v) = Ret h' /\
    lrepr (mkList h' (S (l_alloc l)) (l_head l) (l_tail l) (l_size l + 1)) (vs1 ++ v :: vs2)) /\
  (exists h', insert_before (l_heap l) (l_alloc l) (first_or ns2 (Some (l_tail l))) (new_string v) = Ret h' /\
    lrepr (mkList h' (S (l_alloc l)) (l_head l) (l_tail l) (l_size l + 1)) (vs1 ++ v :: vs2)).
Proof.
  intros (Hv & Hd & ND & Fo & Hs) Hl.
  assert (E1 : exists l1 p dp, (l_head l, dummy) :: ns1 = l1 ++ [(p, dp)] /\ last_or (Some (l_head l)) ns1 = Some p).
  { destruct (snoc_case ((l_head l, dummy) :: ns1)) as [?|(l1 & [p dp] & E)]; [discriminate|].
    exists l1, p, dp. split; auto. change (last_or (Some (l_head l)) ns1) with (last_or None ((l_head l, dummy) :: ns1)).
    rewrite E. apply last_or_snoc. }
  destruct E1 as (l1 & p & dp & E1 & ->).
  assert (E2 : exists q dq l2, ns2 ++ [(l_tail l, dummy)] = (q, dq) :: l2 /\ first_or ns2 (Some (l_tail l)) = Some q).
  { destruct ns2 as [|[q dq] ns2]; simpl; eauto. }
  destruct E2 as (q & dq & l2 & E2 & ->).
  assert (Ef : full l (ns1 ++ ns2) = l1 ++ (p, dp) :: (q, dq) :: l2).
  { unfold full. rewrite <- app_assoc, E2. change (?x :: ns1 ++ ?z) with ((x :: ns1) ++ z).
    rewrite E1, <- app_assoc. reflexivity. }
  assert (Ef' : full l (ns1 ++ (l_alloc l, new_string v) :: ns2) = l1 ++ (p, dp) :: (l_alloc l, new_string v) :: (q, dq) :: l2).
  { unfold full. rewrite <- app_assoc. simpl. rewrite E2. change (?x :: ns1 ++ ?z) with ((x :: ns1) ++ z).
    rewrite E1, <- app_assoc. reflexivity. }
  assert (Hv' : (ns1 ++ (l_alloc l, new_string v) :: ns2).*2 = new_string <$> (vs1 ++ v :: vs2)).
  { rewrite !fmap_app in *. rewrite !fmap_cons. simpl.
    apply app_inj_1 in Hv as [-> ->]; [auto|now rewrite !fmap_length]. }
  assert (Hs' : l_size l + 1 = Z.of_nat (length (vs1 ++ v :: vs2))).
  { rewrite app_length in *. simpl length. lia. }
  destruct (insert_between_ok (l_heap l) (l_alloc l) l1 p dp q dq l2 (new_string v)) as [(h1 & I1 & D1) (h2 & I2 & D2)].
  { now rewrite <- Ef. } { now rewrite <- Ef. } { rewrite <- Ef. now apply fresh_not_in. }
  split; eexists; (split; [eassumption|]); eapply (repr_insert l l1 p dp q dq l2 (ns1 ++ ns2)); eauto.
Qed.

(* ---- Insert ---- *)
Fixpoint find_loc (pivot : bytes) (xs : list (nat * bytes)) : option nat :=
  match xs with
  | [] => None
  | (a, v) :: xs' => if bytes_eqb v pivot then Some a else find_loc pivot xs'
  end.

Lemma find_pivot_ok h t pivot xs : forall p fuel,
  dll h p ((emb <$> xs) ++ [(t, dummy)]) None -> t ∉ xs.*1 -> (length xs < fuel)%nat ->
  find_pivot fuel h (Some t) (first_or (emb <$> xs) (Some t)) (new_string pivot) = Ret (find_loc pivot xs).
Proof.
  induction xs as [|[a v] xs IH]; intros p fuel Hd Ht Hf; (destruct fuel as [|f]; [simpl in Hf; lia|]).
  - simpl. rewrite Nat.eqb_refl. reflexivity.
  - rewrite fmap_cons in Ht. simpl in Ht. apply not_elem_of_cons in Ht as [Hne Ht].
    rewrite fmap_cons in Hd. destruct Hd as [Ha Hd].
    rewrite fmap_cons. cbn [find_pivot emb first_or fst snd].
    rewrite loc_eqb_ne by auto. erewrite deref_some by exact Ha. cbn [rbind n_data n_next fst snd].
    rewrite s_equals_spec. cbn [find_loc]. destruct (bytes_eqb v pivot); [reflexivity|].
    rewrite first_or_app. simpl first_or at 2. eapply IH; eauto. simpl in Hf. lia.
Qed.

Lemma find_loc_None pivot xs : find_loc pivot xs = None <-> pivot ∉ xs.*2.
Proof.
  induction xs as [|[a v] xs IH]; simpl.
  - split; auto. intros _ H. inversion H.
  - rewrite not_elem_of_cons. destruct (bytes_eqb v pivot) eqn:E.
    + apply bytes_eqb_eq in E as ->. split; [discriminate|tauto].
    + apply bytes_eqb_neq in E. rewrite IH. split; [split; auto|tauto].
Qed.
Lemma find_loc_Some pivot xs a : find_loc pivot xs = Some a ->
  exists xs1 xs2, xs = xs1 ++ (a, pivot) :: xs2 /\ pivot ∉ xs1.*2.
Proof.
  induction xs as [|[b v] xs IH]; simpl; [discriminate|].
  destruct (bytes_eqb v pivot) eqn:E.
  - apply bytes_eqb_eq in E as ->. intros [= ->]. exists [], xs. split; auto. intros H; inversion H.
  - apply bytes_eqb_neq in E. intros H. destruct (IH H) as (x1 & x2 & -> & Hn).
    exists ((b, v) :: x1), x2. split; auto. rewrite fmap_cons. apply not_elem_of_cons. auto.
Qed.

Lemma full_emb l xs : full l (emb <$> xs) = (emb <$> ((l_head l, dummy_text) :: xs)) ++ [(l_tail l, dummy)].
Proof. reflexivity. Qed.

Lemma alloc_bound l xs vs : lrepr_ns l (emb <$> xs) vs -> (S (S (length xs)) <= l_alloc l)%nat.
Proof.
  intros (_ & _ & ND & Fo & _).
  assert (H : forall (L : list nat) n, NoDup L -> Forall (fun a => a < n)%nat L -> (length L <= n)%nat).
  { intros L n HN HF. rewrite <- (seq_length n 0). apply submseteq_length.
    apply NoDup_submseteq; auto. intros x Hx. rewrite Forall_forall in HF. apply HF in Hx. apply elem_of_seq. lia. }
  apply H in Fo; auto. unfold full in Fo. rewrite fmap_length in Fo. simpl in Fo.
  rewrite app_length, fmap_length in Fo. simpl in Fo. lia.
Qed.

Lemma tail_not_in l xs vs : lrepr_ns l (emb <$> xs) vs -> l_tail l ∉ ((l_head l, dummy_text) :: xs).*1.
Proof.
  intros (_ & _ & ND & _). rewrite full_emb, fmap_app, emb_fst in ND.
  apply NoDup_app in ND as (_ & D & _). intros H. apply (D _ H). left.
Qed.

(* Insert, for every pivot.  The head sentinel is examined first. *)
Lemma list_insert_ok l vs pivot v after : lrepr l vs -> pivot <> dummy_text ->
  (pivot ∉ vs /\ list_insertp l (new_string pivot) (new_string v) after = Ret None) \/
  (exists vs1 vs2 l', vs = vs1 ++ pivot :: vs2 /\ pivot ∉ vs1 /\
     list_insertp l (new_string pivot) (new_string v) after = Ret (Some l') /\
     lrepr l' (if after then vs1 ++ pivot :: v :: vs2 else vs1 ++ v :: pivot :: vs2)).
Proof.
  intros (ns & Hr) Hp. pose proof Hr as (Hv & _). apply emb_split in Hv as (xs & -> & ->).
  pose proof Hr as (Hv & Hd & ND & Fo & Hs).
  unfold list_insertp. rewrite full_emb in Hd.
  change (Some (l_head l)) with (first_or (emb <$> ((l_head l, dummy_text) :: xs)) (Some (l_tail l))).
  rewrite (find_pivot_ok _ _ pivot _ _ (S (S (l_alloc l))) Hd (tail_not_in _ _ _ Hr)).
  2:{ simpl. pose proof (alloc_bound _ _ _ Hr). lia. }
  cbn [find_loc]. destruct (bytes_eqb dummy_text pivot) eqn:E.
  { apply bytes_eqb_eq in E. congruence. }
  destruct (find_loc pivot xs) as [a|] eqn:Ef.
  - right. apply find_loc_Some in Ef as (x1 & x2 & -> & Hn).
    cbn [rbind]. destruct after.
    + destruct (insert_split l (emb <$> (x1 ++ [(a, pivot)])) (emb <$> x2) (x1 ++ [(a, pivot)]).*2 x2.*2 v) as [(h' & I & R) _].
      { rewrite <- !fmap_app. rewrite <- !app_assoc. exact Hr. } { now rewrite !fmap_length. }
      rewrite fmap_app in I. simpl in I. rewrite last_or_app in I. simpl in I. rewrite I. cbn [rbind].
      eexists x1.*2, x2.*2, _. split; [now rewrite fmap_app|]. split; auto. split; [reflexivity|].
      rewrite fmap_app, <- app_assoc in R. exact R.
    + destruct (insert_split l (emb <$> x1) (emb <$> ((a, pivot) :: x2)) x1.*2 ((a, pivot) :: x2).*2 v) as [_ (h' & I & R)].
      { rewrite <- !fmap_app. exact Hr. } { now rewrite !fmap_length. }
      simpl first_or in I. rewrite I. cbn [rbind].
      eexists x1.*2, x2.*2, _. split; [now rewrite fmap_app|]. split; auto.
  - left. apply find_loc_None in Ef. auto.
Qed.

(* The sentinel's own text as pivot: BEFORE crashes, AFTER inserts at the front. *)
Lemma list_insert_dummy l vs v : lrepr l vs ->
  list_insertp l dummy (new_string v) false = Panic /\
  exists l', list_insertp l dummy (new_string v) true = Ret (Some l') /\ lrepr l' (v :: vs).
Proof.
  intros (ns & Hr). pose proof Hr as (Hv & _). apply emb_split in Hv as (xs & -> & ->).
  pose proof Hr as (Hv & Hd & ND & Fo & Hs).
  unfold list_insertp. rewrite full_emb in Hd.
  change (Some (l_head l)) with (first_or (emb <$> ((l_head l, dummy_text) :: xs)) (Some (l_tail l))).
  change dummy with (new_string dummy_text).
  rewrite (find_pivot_ok _ _ dummy_text _ _ (S (S (l_alloc l))) Hd (tail_not_in _ _ _ Hr)).
  2:{ simpl. pose proof (alloc_bound _ _ _ Hr). lia. }
  cbn [find_loc]. rewrite bytes_eqb_refl. cbn [rbind].
  destruct Hd as [Hh _]. cbn [emb fst snd] in Hh. split.
  - unfold insert_before. rewrite (deref_some _ _ _ Hh). reflexivity.
  - destruct (insert_split l [] (emb <$> xs) [] xs.*2 v Hr eq_refl) as [(h' & I & R) _].
    simpl last_or in I. rewrite I. cbn [rbind]. eexists. split; [reflexivity|exact R].
Qed.

(* ---- Index / Set ---- *)
Lemma walk_ok h l1 : forall p l2 n, dll h p (l1 ++ l2) n ->
  walk h (length l1) (first_or (l1 ++ l2) n) = Ret (first_or l2 n).
Proof.
  induction l1 as [|[a d] l1 IH]; intros p l2 n H; [reflexivity|].
  destruct H as [H1 H2]. cbn [length walk app first_or]. rewrite (deref_some _ _ _ H1). cbn [rbind n_next].
  eapply IH; eauto.
Qed.

Lemma extract_ok l ns vs i : lrepr_ns l ns vs -> int64_ok i -> Z.of_nat (length vs) < 2 ^ 63 ->
  let p := position i (Z.of_nat (length vs)) in
  (0 <= p < Z.of_nat (length vs) ->
     exists ns1 a d ns2, ns = ns1 ++ (a, d) :: ns2 /\ length ns1 = Z.to_nat p /\ extract l i = Ret (Some a)) /\
  (~ 0 <= p < Z.of_nat (length vs) -> extract l i = Ret None).
Proof.
  intros (Hv & Hd & ND & Fo & Hs) Hi Hlen p. unfold extract. rewrite Hs.
  rewrite resolve_spec by (auto; lia). fold p. split; intros Hp.
  - destruct (_ && _) eqn:E; [|lia]. destruct (p =? -1) eqn:E2; [lia|].
    apply ns_length in Hv.
    destruct (lookup_lt_is_Some_2 ns (Z.to_nat p)) as ([a d] & Ha); [lia|].
    exists (take (Z.to_nat p) ns), a, d, (drop (S (Z.to_nat p)) ns).
    pose proof (take_drop_middle _ _ _ Ha) as Eq. split; [auto|].
    assert (Hl : length (take (Z.to_nat p) ns) = Z.to_nat p) by (rewrite take_length; lia). split; auto.
    rewrite <- Eq in Hd. unfold full in Hd. rewrite <- app_assoc in Hd.
    change (?x :: ?y ++ ?z) with ((x :: y) ++ z) in Hd.
    pose proof (walk_ok _ _ _ _ _ Hd) as Hw. cbn [length] in Hw. rewrite Hl in Hw.
    replace (Z.to_nat (p + 1)) with (S (Z.to_nat p)) by lia. exact Hw.
  - destruct (_ && _) eqn:E; [lia|]. reflexivity.
Qed.

Lemma dll_middle h p l1 a d l2 n : dll h p (l1 ++ (a, d) :: l2) n ->
  h !! a = Some (mkNode d (first_or l2 n) (last_or p l1)).
Proof. intros H. apply dll_app in H as [_ [H _]]. exact H. Qed.

Lemma list_index_ok l vs i : lrepr l vs -> int64_ok i -> Z.of_nat (length vs) < 2 ^ 63 ->
  let p := position i (Z.of_nat (length vs)) in
  list_index l i = Ret (if (0 <=? p) && (p <? Z.of_nat (length vs)) then new_string <$> vs !! Z.to_nat p else None).
Proof.
  intros (ns & Hr) Hi Hlen p. destruct (extract_ok _ _ _ _ Hr Hi Hlen) as [H1 H2]. fold p in H1, H2.
  unfold list_index. destruct (_ && _) eqn:E.
  - destruct H1 as (ns1 & a & d & ns2 & -> & Hl & ->); [lia|]. cbn [rbind].
    destruct Hr as (Hv & Hd & _). unfold full in Hd. rewrite <- app_assoc in Hd.
    change (?x :: ?y ++ ?z) with ((x :: y) ++ z) in Hd. pose proof (dll_middle _ _ _ _ _ _ _ Hd) as Ha.
    rewrite (deref_some _ _ _ Ha). cbn [rbind n_data]. f_equal.
    rewrite <- list_lookup_fmap, <- Hv, fmap_app, fmap_cons.
    rewrite lookup_app_r by (rewrite fmap_length; lia). rewrite fmap_length, Hl, Nat.sub_diag. reflexivity.
  - rewrite H2 by lia. reflexivity.
Qed.

Lemma dll_set_data h l1 a d d' l2 : dll h None (l1 ++ (a, d) :: l2) None ->
  NoDup ((l1 ++ (a, d) :: l2).*1) ->
  exists h', set_data h (Some a) d' = Ret h' /\ dll h' None (l1 ++ (a, d') :: l2) None.
Proof.
  intros H ND. pose proof (dll_middle _ _ _ _ _ _ _ H) as Ha.
  apply NoDup_locs_split in ND as (N1 & N2 & _).
  unfold set_data. rewrite Ha. eexists. split; [reflexivity|].
  apply dll_app in H as [H1 [_ H2]]. apply dll_app. split; [apply dll_frame; auto|].
  split; [|apply dll_frame; auto]. rewrite lookup_insert. reflexivity.
Qed.

Lemma list_set_ok l vs i v : lrepr l vs -> int64_ok i -> Z.of_nat (length vs) < 2 ^ 63 ->
  let p := position i (Z.of_nat (length vs)) in
  (0 <= p < Z.of_nat (length vs) ->
     exists l', list_set l i (new_string v) = Ret (Some l') /\ lrepr l' (<[Z.to_nat p := v]> vs)) /\
  (~ 0 <= p < Z.of_nat (length vs) -> list_set l i (new_string v) = Ret None).
Proof.
  intros (ns & Hr) Hi Hlen p. destruct (extract_ok _ _ _ _ Hr Hi Hlen) as [H1 H2]. fold p in H1, H2.
  unfold list_set. split; intros Hp.
  - destruct H1 as (ns1 & a & d & ns2 & -> & Hl & ->); [lia|]. cbn [rbind].
    destruct Hr as (Hv & Hd & ND & Fo & Hs). unfold full in Hd, ND, Fo. rewrite <- app_assoc in Hd, ND, Fo.
    change (?x :: ?y ++ ?z) with ((x :: y) ++ z) in Hd, ND, Fo.
    destruct (dll_set_data _ _ _ _ (new_string v) _ Hd ND) as (h' & -> & Hd'). cbn [rbind].
    eexists. split; [reflexivity|]. exists (ns1 ++ (a, new_string v) :: ns2).
    assert (E : forall l0 x, (l_head l0 = l_head l) -> l_tail l0 = l_tail l ->
      full l0 (ns1 ++ (a, x) :: ns2) = ((l_head l, dummy) :: ns1) ++ ((a, x) :: ns2 ++ [(l_tail l, dummy)])).
    { intros l0 x E1 E2. unfold full. rewrite E1, E2, <- app_assoc. reflexivity. }
    unfold lrepr_ns. rewrite E by reflexivity. split; [|split; [exact Hd'|]].
    + rewrite list_fmap_insert, <- Hv, !fmap_app, !fmap_cons. simpl.
      replace (Z.to_nat p) with (length ns1.*2 + 0)%nat by (rewrite fmap_length; lia).
      rewrite insert_app_r. reflexivity.
    + simpl l_alloc. simpl l_size. rewrite insert_length.
      rewrite fmap_app, fmap_cons in *. auto.
  - rewrite H2 by lia. reflexivity.
Qed.

(* ---- Range ---- *)
Lemma dll_lookup h F : forall p i a d, dll h p F None -> F !! i = Some (a, d) ->
  exists q, h !! a = Some (mkNode d (fst <$> F !! S i) q).
Proof.
  induction F as [|[b e] F IH]; intros p i a d H Hi; [discriminate|].
  destruct H as [H1 H2]. destruct i as [|i].
  - injection Hi as -> ->. exists p. rewrite H1. do 2 f_equal. destruct F as [|[] ?]; reflexivity.
  - simpl in Hi. destruct (IH _ _ _ _ H2 Hi) as (q & Hq). exists q. exact Hq.
Qed.

Lemma segment_loop_ok h F nl nr : dll h None F None -> (Z.to_nat (nr + 2) < length F)%nat -> 0 <= nl <= nr ->
  forall k i left right, (i + k = Z.to_nat (nr + 2))%nat ->
  segment_loop h k (Z.of_nat i - 1) nl nr (fst <$> F !! i) left right =
    Ret (if (i <=? Z.to_nat (nl + 1))%nat then fst <$> F !! Z.to_nat (nl + 1) else left,
         if (i <=? Z.to_nat (nr + 1))%nat then fst <$> F !! Z.to_nat (nr + 1) else right).
Proof.
  intros Hd HF Hn. induction k as [|k IH]; intros i left right Hk.
  - simpl. destruct (i <=? Z.to_nat (nl + 1))%nat eqn:E1; [apply Nat.leb_le in E1; lia|].
    destruct (i <=? Z.to_nat (nr + 1))%nat eqn:E2; [apply Nat.leb_le in E2; lia|]. reflexivity.
  - cbn [segment_loop].
    destruct (lookup_lt_is_Some_2 F i) as ([a d] & Ha); [lia|].
    destruct (dll_lookup _ _ _ _ _ _ Hd Ha) as (q & Hq).
    rewrite Ha. cbn [fmap option_fmap option_map fst]. rewrite (deref_some _ _ _ Hq). cbn [rbind n_next].
    replace (Z.of_nat i - 1 + 1) with (Z.of_nat (S i) - 1) by lia. rewrite IH by lia. f_equal. f_equal.
    + destruct (Z.of_nat i - 1 =? nl) eqn:E1.
      * replace i with (Z.to_nat (nl + 1)) in Ha |- * by lia. rewrite Nat.leb_refl, Ha.
        destruct (S _ <=? _)%nat; reflexivity.
      * destruct (S i <=? _)%nat eqn:E2, (i <=? _)%nat eqn:E3; auto; try apply Nat.leb_le in E2;
          try apply Nat.leb_gt in E2; try apply Nat.leb_le in E3; try apply Nat.leb_gt in E3; lia.
    + destruct (Z.of_nat i - 1 =? nr) eqn:E1.
      * replace i with (Z.to_nat (nr + 1)) in Ha |- * by lia. rewrite Nat.leb_refl, Ha.
        destruct (S _ <=? _)%nat; reflexivity.
      * destruct (S i <=? _)%nat eqn:E2, (i <=? _)%nat eqn:E3; auto; try apply Nat.leb_le in E2;
          try apply Nat.leb_gt in E2; try apply Nat.leb_le in E3; try apply Nat.leb_gt in E3; lia.
Qed.

Lemma seg_right_once r size : 0 < size -> 0 <= position r size ->
  seg_right r size = Z.min (position r size) (size - 1).
Proof.
  intros Hs Hp. unfold seg_right. set (q := Z.min _ _). assert (0 <= q) by (unfold q; lia).
  unfold position. destruct (q <? 0) eqn:E; lia.
Qed.
Lemma seg_right_neg r size : 0 < size -> position r size < - size -> seg_right r size < 0.
Proof.
  intros Hs Hp. unfold seg_right. set (q := Z.min _ _). assert (q < - size) by (unfold q; lia).
  unfold position. destruct (q <? 0) eqn:E; lia.
Qed.

Lemma extract_segment_ok l ns vs a b : lrepr_ns l ns vs -> int64_ok a -> int64_ok b -> Z.of_nat (length vs) < 2 ^ 62 ->
  let size := Z.of_nat (length vs) in
  let pa := position a size in let pb := seg_right b size in
  (0 <= pa < size /\ pa <= pb < size ->
     exists x dx y dy, ns !! Z.to_nat pa = Some (x, dx) /\ ns !! Z.to_nat pb = Some (y, dy) /\
        extract_segment l a b = Ret (Some x, Some y)) /\
  (~ (0 <= pa < size /\ pa <= pb < size) -> extract_segment l a b = Ret (None, None)).
Proof.
  intros (Hv & Hd & ND & Fo & Hs) Ha Hb Hlen size pa pb. unfold extract_segment. rewrite Hs. fold size.
  rewrite resolve_raw_pos by (auto; unfold size; lia).
  replace (if size <=? position b size then size - 1 else position b size) with (Z.min (position b size) (size - 1))
    by (destruct (size <=? position b size) eqn:?; lia).
  assert (Hb' : int64_ok (Z.min (position b size) (size - 1))).
  { unfold int64_ok, position, size in *. destruct (b <? 0) eqn:?; lia. }
  destruct (slice_resolve_spec a (Z.min (position b size) (size - 1)) size Ha Hb' ltac:(lia)) as [H1 H2].
  cbv zeta in H1, H2. fold pa in H1, H2. fold (seg_right b size) in H1, H2. fold pb in H1, H2.
  assert (Hpb : pb < size \/ size <= 0).
  { unfold pb, seg_right. set (q := Z.min _ _). assert (q <= size - 1) by (unfold q; lia).
    unfold position. destruct (q <? 0) eqn:?; lia. }
  split; intros Hp.
  - rewrite H1 by lia. destruct (negb _ && negb _) eqn:E; [|lia].
    apply ns_length in Hv. replace (Z.min pb (size - 1)) with pb by lia.
    set (F := full l ns) in *.
    assert (HF : length F = S (S (length ns))) by (unfold F, full; simpl; rewrite app_length; simpl; lia).
    assert (Hh : Some (l_head l) = fst <$> F !! 0%nat) by reflexivity.
    change (-1) with (Z.of_nat 0 - 1). rewrite Hh.
    rewrite (segment_loop_ok _ F pa pb) by (auto; lia).
    assert (HL : forall i, (i < length ns)%nat -> F !! S i = ns !! i).
    { intros i Hi. unfold F, full. simpl. now apply lookup_app_l. }
    destruct (lookup_lt_is_Some_2 ns (Z.to_nat pa)) as ([x dx] & Hx); [lia|].
    destruct (lookup_lt_is_Some_2 ns (Z.to_nat pb)) as ([y dy] & Hy); [lia|].
    exists x, dx, y, dy. split; auto. split; auto. simpl.
    replace (Z.to_nat (pa + 1)) with (S (Z.to_nat pa)) by lia.
    replace (Z.to_nat (pb + 1)) with (S (Z.to_nat pb)) by lia.
    rewrite !HL by lia. rewrite Hx, Hy. reflexivity.
  - rewrite H2 by lia. reflexivity.
Qed.

Lemma range_loop_ok h l1 : forall p b d n fuel, dll h p (l1 ++ [(b, d)]) n -> b ∉ l1.*1 -> (length l1 < fuel)%nat ->
  range_loop fuel h (first_or (l1 ++ [(b, d)]) n) (Some b) = Ret (l1.*2 ++ [d]).
Proof.
  induction l1 as [|[a e] l1 IH]; intros p b d n fuel H Hb Hf; (destruct fuel as [|f]; [simpl in Hf; lia|]).
  - destruct H as [H _]. cbn [range_loop app first_or]. rewrite (deref_some _ _ _ H). cbn [rbind n_data].
    simpl loc_eqb. rewrite Nat.eqb_refl. reflexivity.
  - destruct H as [H1 H2]. rewrite fmap_cons in Hb. simpl in Hb. apply not_elem_of_cons in Hb as [Hne Hb].
    cbn [range_loop app first_or]. rewrite (deref_some _ _ _ H1). cbn [rbind n_data n_next].
    rewrite loc_eqb_ne by auto. rewrite (IH (Some a) b d n f H2 Hb) by (simpl in Hf; lia). reflexivity.
Qed.

(* cutting a list at two positions *)
Lemma cut3 {A} (l : list A) i j x y : l !! i = Some x -> l !! j = Some y -> (i <= j)%nat ->
  exists l1 m l3, l = l1 ++ m ++ l3 /\ length l1 = i /\ length m = (j - i + 1)%nat /\
    (exists m', m = x :: m') /\ (exists m', m = m' ++ [y]).
Proof.
  intros Hx Hy Hij. exists (take i l), (take (j - i + 1) (drop i l)), (drop (j - i + 1) (drop i l)).
  rewrite !take_drop. split; auto.
  pose proof (lookup_lt_Some _ _ _ Hy). rewrite !take_length, drop_length.
  split; [lia|]. split; [lia|]. split.
  - rewrite (drop_S _ _ _ Hx). replace (j - i + 1)%nat with (S (j - i)) by lia. simpl. eauto.
  - exists (take (j - i) (drop i l)). replace (j - i + 1)%nat with (S (j - i)) by lia.
    apply take_S_r. rewrite lookup_drop. replace (i + (j - i))%nat with j by lia. exact Hy.
Qed.

Lemma repr_cut l ns vs i j x dx y dy :
  lrepr_ns l ns vs -> ns !! i = Some (x, dx) -> ns !! j = Some (y, dy) -> (i <= j)%nat ->
  exists A M B vA vM vB, ns = A ++ M ++ B /\ vs = vA ++ vM ++ vB /\
    A.*2 = new_string <$> vA /\ M.*2 = new_string <$> vM /\ B.*2 = new_string <$> vB /\
    (exists M', M = (x, dx) :: M') /\ (exists M', M = M' ++ [(y, dy)]) /\
    vM = firstn (j - i + 1) (skipn i vs).
Proof.
  intros (Hv & _) Hi Hj Hij. destruct (cut3 _ _ _ _ _ Hi Hj Hij) as (A & M & B & -> & HA & HM & E1 & E2).
  exists A, M, B, (take i vs), (take (j - i + 1) (drop i vs)), (drop (j - i + 1) (drop i vs)).
  rewrite !take_drop. split; auto. split; auto.
  rewrite !fmap_app in Hv.
  assert (A.*2 = new_string <$> take i vs).
  { rewrite fmap_take, <- Hv, take_app_alt; auto. now rewrite fmap_length. }
  assert (HD : M.*2 ++ B.*2 = new_string <$> drop i vs).
  { rewrite fmap_drop, <- Hv, drop_app_alt; auto. now rewrite fmap_length. }
  split; auto. split; [|split; [|auto]].
  - rewrite fmap_take, <- HD, take_app_alt; auto. now rewrite fmap_length.
  - rewrite fmap_drop, <- HD, drop_app_alt; auto. now rewrite fmap_length.
Qed.

Lemma list_range_ok l vs a b : lrepr l vs -> int64_ok a -> int64_ok b -> Z.of_nat (length vs) < 2 ^ 62 ->
  list_range l a b = Ret (fmap (M := option) (fmap new_string) (seg_sel a b vs)).
Proof.
  intros (ns & Hr) Ha Hb Hlen. destruct (extract_segment_ok _ _ _ _ _ Hr Ha Hb Hlen) as [H1 H2].
  cbv zeta in H1, H2. unfold seg_sel. cbv zeta. unfold list_range.
  set (size := Z.of_nat (length vs)) in *. set (pa := position a size) in *. set (pb := seg_right b size) in *.
  destruct (_ && _ && _ && _) eqn:E.
  - destruct H1 as (x & dx & y & dy & Hx & Hy & ->); [lia|]. cbn [rbind].
    destruct (repr_cut _ _ _ _ _ _ _ _ _ Hr Hx Hy) as (A & M & B & vA & vM & vB & Ens & Evs & HA & HM & HB & (M1 & E1) & (M2 & E2) & EvM); [lia|].
    destruct Hr as (Hv & Hd & ND & Fo & Hs).
    replace (Z.to_nat pb - Z.to_nat pa + 1)%nat with (Z.to_nat (pb - pa + 1)) in EvM by lia.
    rewrite <- EvM. cbn [fmap option_fmap option_map].
    assert (Hd' : dll (l_heap l) (last_or (Some (l_head l)) A) M (first_or (B ++ [(l_tail l, dummy)]) None)).
    { subst ns. unfold full in Hd. rewrite <- !app_assoc in Hd. destruct Hd as [_ Hd].
      apply dll_app in Hd as [_ Hd]. apply dll_app in Hd as [Hd _]. exact Hd. }
    assert (HND : NoDup (M.*1)).
    { subst ns. unfold full in ND. simpl in ND. apply NoDup_cons in ND as [_ ND]. rewrite !fmap_app in ND.
      apply NoDup_app in ND as (ND & _). apply NoDup_app in ND as (_ & _ & ND). apply NoDup_app in ND as (ND & _). auto. }
    assert (Hlt : (length M2 < S (S (l_alloc l)))%nat).
    { assert (length (M.*1) <= length (full l ns))%nat.
      { subst ns. unfold full. rewrite fmap_length. simpl. rewrite !app_length. lia. }
      assert (length (full l ns) <= l_alloc l)%nat.
      { pose proof Hv as Hv0. apply emb_split in Hv0 as (xs & Ex & _).
        assert (R : lrepr_ns l (emb <$> xs) vs) by (rewrite <- Ex; unfold lrepr_ns; auto).
        apply alloc_bound in R. rewrite Ex. unfold full. simpl. rewrite app_length, fmap_length. simpl. lia. }
      clear - E2 H H0. rewrite E2, fmap_length, app_length in H. lia. }
    assert (E3 : Some x = first_or (M2 ++ [(y, dy)]) (first_or (B ++ [(l_tail l, dummy)]) None)).
    { rewrite <- E2, E1. reflexivity. }
    rewrite E3. rewrite E2 in Hd', HND.
    erewrite range_loop_ok; eauto.
    + cbn [rbind]. do 2 f_equal. change (list_fmap bytes strc new_string vM) with (new_string <$> vM).
      rewrite <- HM, E2, fmap_app. reflexivity.
    + rewrite fmap_app in HND. apply NoDup_app in HND as (_ & D & _). intros Hin. apply (D _ Hin). left.
  - rewrite H2 by lia. reflexivity.
Qed.

(* ---- Trim ---- *)
Lemma release_ok L : forall h p fuel, dll h p L None -> NoDup (L.*1) -> (length L < fuel)%nat ->
  exists h', release_list fuel h (first_or L None) = Ret (h', Z.of_nat (length L)) /\
    forall x, x ∉ L.*1 -> h' !! x = h !! x.
Proof.
  induction L as [|[a d] L IH]; intros h p fuel H ND Hf; (destruct fuel as [|f]; [simpl in Hf; lia|]).
  - exists h. split; auto.
  - destruct H as [H1 H2]. rewrite fmap_cons in ND. apply NoDup_cons in ND as [N1 N2].
    cbn [release_list first_or]. rewrite (deref_some _ _ _ H1). cbn [rbind n_next].
    destruct (IH h (Some a) f H2 N2) as (h' & -> & Hx); [simpl in Hf; lia|].
    cbn [rbind fst snd].
    erewrite set_prev_some by (rewrite Hx by auto; exact H1). cbn [rbind].
    erewrite set_next_some by (rewrite lookup_insert; reflexivity). cbn [rbind].
    eexists. split; [do 2 f_equal; simpl length; lia|].
    intros x Hin. rewrite fmap_cons in Hin. apply not_elem_of_cons in Hin as [? ?].
    rewrite !lookup_insert_ne by auto. auto.
Qed.

Lemma dll_set_next_last h p L x d n v : dll h p (L ++ [(x, d)]) n -> x ∉ L.*1 ->
  exists h', set_next h (Some x) v = Ret h' /\ dll h' p (L ++ [(x, d)]) v /\ (forall y, y <> x -> h' !! y = h !! y).
Proof.
  intros H Hx. apply dll_app in H as [H1 [H2 _]].
  erewrite set_next_some by exact H2. eexists. split; [reflexivity|]. split.
  - apply dll_app. split; [apply dll_frame; auto|]. split; [|exact I]. rewrite lookup_insert. reflexivity.
  - intros y Hy. rewrite lookup_insert_ne by auto. reflexivity.
Qed.
Lemma dll_set_prev_first h p L x d n v : dll h p ((x, d) :: L) n -> x ∉ L.*1 ->
  exists h', set_prev h (Some x) v = Ret h' /\ dll h' v ((x, d) :: L) n /\ (forall y, y <> x -> h' !! y = h !! y).
Proof.
  intros [H1 H2] Hx.
  erewrite set_prev_some by exact H1. eexists. split; [reflexivity|]. split.
  - split; [|apply dll_frame; auto]. rewrite lookup_insert. reflexivity.
  - intros y Hy. rewrite lookup_insert_ne by auto. reflexivity.
Qed.

Lemma list_trim_ok l vs a b : lrepr l vs -> int64_ok a -> int64_ok b -> Z.of_nat (length vs) < 2 ^ 62 ->
  match seg_sel a b vs with
  | None => list_trim l a b = Ret None
  | Some vs' => exists l', list_trim l a b = Ret (Some l') /\ lrepr l' vs'
  end.
Proof.
  intros (ns & Hr) Ha Hb Hlen. destruct (extract_segment_ok _ _ _ _ _ Hr Ha Hb Hlen) as [H1 H2].
  cbv zeta in H1, H2. unfold seg_sel. cbv zeta. unfold list_trim.
  set (size := Z.of_nat (length vs)) in *. set (pa := position a size) in *. set (pb := seg_right b size) in *.
  destruct (_ && _ && _ && _) eqn:E.
  2:{ rewrite H2 by lia. reflexivity. }
  destruct H1 as (x & dx & y & dy & Hx & Hy & ->); [lia|]. cbn [rbind].
  destruct (repr_cut _ _ _ _ _ _ _ _ _ Hr Hx Hy) as (A & M & B & vA & vM & vB & Ens & Evs & HA & HM & HB & (M1 & E1) & (M2 & E2) & EvM); [lia|].
  replace (Z.to_nat pb - Z.to_nat pa + 1)%nat with (Z.to_nat (pb - pa + 1)) in EvM by lia. rewrite <- EvM.
  destruct Hr as (Hv & Hd & ND & Fo & Hs).
  assert (Hall : (length ns + 2 <= l_alloc l)%nat).
  { pose proof Hv as Hv0. apply emb_split in Hv0 as (xs & Ex & _).
    assert (R : lrepr_ns l (emb <$> xs) vs) by (rewrite <- Ex; unfold lrepr_ns; auto).
    apply alloc_bound in R. rewrite Ex, fmap_length. lia. }
  subst ns. rewrite !app_length in Hall.
  (* shape of the whole structure *)
  unfold full in Hd, ND, Fo. rewrite <- !app_assoc in Hd, ND, Fo.
  change (?h :: A ++ ?z) with ((h :: A) ++ z) in Hd, ND, Fo.
  set (HA1 := (l_head l, dummy) :: A) in *. set (T := [(l_tail l, dummy)]) in *.
  apply dll_app in Hd as [Dh Hd]. apply dll_app in Hd as [Dm Hd]. apply dll_app in Hd as [Db Dt].
  rewrite !fmap_app in ND.
  apply NoDup_app in ND as (NDh & DisH & ND). apply NoDup_app in ND as (NDm & DisM & ND).
  apply NoDup_app in ND as (NDb & DisB & NDt).
  assert (xM : x ∈ M.*1) by (rewrite E1; left).
  assert (yM : y ∈ M.*1) by (rewrite E2, fmap_app; apply elem_of_app; right; left).
  assert (tT : l_tail l ∈ T.*1) by (left).
  assert (hH : l_head l ∈ HA1.*1) by (left).
  (* last node of head::A *)
  destruct (snoc_case HA1) as [?|(H' & [pl dpl] & EH)]; [discriminate|].
  assert (plH : pl ∈ HA1.*1) by (rewrite EH, fmap_app; apply elem_of_app; right; left).
  assert (DH_M : forall z, z ∈ HA1.*1 -> z ∉ M.*1).
  { intros z Hz Hz'. apply (DisH z Hz). apply elem_of_app. auto. }
  assert (DH_B : forall z, z ∈ HA1.*1 -> z ∉ B.*1).
  { intros z Hz Hz'. apply (DisH z Hz). apply elem_of_app. right. apply elem_of_app. auto. }
  assert (DH_T : forall z, z ∈ HA1.*1 -> z ∉ T.*1).
  { intros z Hz Hz'. apply (DisH z Hz). apply elem_of_app. right. apply elem_of_app. auto. }
  assert (DM_B : forall z, z ∈ M.*1 -> z ∉ B.*1).
  { intros z Hz Hz'. apply (DisM z Hz). apply elem_of_app. auto. }
  assert (DM_T : forall z, z ∈ M.*1 -> z ∉ T.*1).
  { intros z Hz Hz'. apply (DisM z Hz). apply elem_of_app. auto. }
  (* leftNode.prev.next = nil *)
  assert (Lx : l_heap l !! x = Some (mkNode dx (first_or M1 (first_or (B ++ T) None)) (Some pl))).
  { rewrite E1 in Dm. destruct Dm as [Dm _]. rewrite EH, last_or_snoc in Dm. exact Dm. }
  rewrite (deref_some _ _ _ Lx). cbn [rbind n_prev].
  rewrite EH in Dh.
  destruct (dll_set_next_last _ _ _ _ _ _ None Dh) as (h1 & -> & Dh1 & Fr1).
  { rewrite EH, fmap_app in NDh. apply NoDup_app in NDh as (_ & D & _). intros Hin. apply (D _ Hin). left. }
  rewrite <- EH in Dh1. cbn [rbind].
  (* release head.next .. *)
  destruct Dh1 as [Lh DA]. fold dummy in Lh.
  rewrite (deref_some _ _ _ Lh). cbn [rbind n_next].
  assert (NDA : NoDup (A.*1)) by (unfold HA1 in NDh; rewrite fmap_cons in NDh; now apply NoDup_cons in NDh as [_ ?]).
  assert (HnA : l_head l ∉ A.*1) by (unfold HA1 in NDh; rewrite fmap_cons in NDh; now apply NoDup_cons in NDh as [? _]).
  destruct (release_ok A h1 _ (S (S (l_alloc l))) DA NDA) as (r1 & -> & Fr2); [lia|].
  cbn [rbind fst snd].
  assert (NA : forall z, z ∈ A.*1 -> z ∈ HA1.*1) by (intros z Hz; right; exact Hz).
  assert (K1 : forall z, z ∉ HA1.*1 -> r1 !! z = l_heap l !! z).
  { intros z Hz. rewrite Fr2 by auto. apply Fr1. intros ->. auto. }
  (* tail.prev.next = nil *)
  assert (Lt : r1 !! l_tail l = Some (mkNode dummy None (last_or (last_or (last_or None HA1) M) B))).
  { rewrite K1. - destruct Dt as [Dt _]. exact Dt. - intros Hin. apply (DH_T _ Hin), tT. }
  rewrite (deref_some _ _ _ Lt). cbn [rbind n_prev].
  assert (Dmb : dll r1 (Some pl) (M ++ B) (Some (l_tail l))).
  { eapply (dll_ext (l_heap l)).
    - intros z Hz. apply K1. rewrite fmap_app in Hz. apply elem_of_app in Hz as [Hz|Hz]; intros Hin.
      + now apply (DH_M z).
      + now apply (DH_B z).
    - apply dll_app. rewrite EH, last_or_snoc in Dm, Db. rewrite first_or_app in Dm. split; auto. }
  replace (last_or (last_or (last_or None HA1) M) B) with (last_or (Some pl) (M ++ B))
    by (rewrite last_or_app, EH, last_or_snoc; reflexivity).
  destruct (snoc_case (M ++ B)) as [Em|(MB & [ql dql] & EMB)].
  { rewrite E1 in Em. discriminate. }
  rewrite EMB, last_or_snoc. rewrite EMB in Dmb.
  assert (NDmb : NoDup ((M ++ B).*1)).
  { rewrite fmap_app. apply NoDup_app. auto. }
  destruct (dll_set_next_last _ _ _ _ _ _ None Dmb) as (h2 & -> & Dmb2 & Fr3).
  { rewrite EMB, fmap_app in NDmb. apply NoDup_app in NDmb as (_ & D & _). intros Hin. apply (D _ Hin). left. }
  assert (qlMB : ql ∈ (M ++ B).*1) by (rewrite EMB, fmap_app; apply elem_of_app; right; left).
  rewrite <- EMB in Dmb2. cbn [rbind].
  apply dll_app in Dmb2 as [Dm2 Db2].
  (* release rightNode.next .. *)
  assert (Ly : h2 !! y = Some (mkNode dy (first_or B None) (last_or (Some pl) M2))).
  { rewrite E2 in Dm2. apply dll_app in Dm2 as [_ [Dm2 _]]. exact Dm2. }
  rewrite (deref_some _ _ _ Ly). cbn [rbind n_next].
  destruct (release_ok B h2 _ (S (S (l_alloc l))) Db2 NDb) as (r2 & -> & Fr4); [lia|].
  cbn [rbind fst snd].
  assert (Dm3 : dll r2 (Some pl) M (first_or B None)).
  { eapply dll_ext; [|exact Dm2]. intros z Hz. apply Fr4. auto. }
  (* relink *)
  assert (Lh3 : r2 !! l_head l = Some (mkNode dummy (first_or A None) None)).
  { rewrite Fr4 by auto. rewrite Fr3. - rewrite Fr2 by auto. exact Lh.
    - intros <-. rewrite fmap_app in qlMB. apply elem_of_app in qlMB as [Hz|Hz].
      + now apply (DH_M (l_head l)). + now apply (DH_B (l_head l)). }
  assert (Lt3 : r2 !! l_tail l = Some (mkNode dummy None (last_or (Some pl) (M ++ B)))).
  { rewrite Fr4 by (intros Hin; apply (DisB _ Hin), tT). rewrite Fr3.
    - rewrite Lt. do 2 f_equal. rewrite last_or_app, EH, last_or_snoc. reflexivity.
    - intros <-. rewrite fmap_app in qlMB. apply elem_of_app in qlMB as [Hz|Hz].
      + now apply (DM_T (l_tail l)). + now apply (DisB (l_tail l)). }
  assert (Nht : l_head l <> l_tail l) by (intros Heq; apply (DH_T _ hH); rewrite Heq; exact tT).
  erewrite set_next_some by exact Lh3. cbn [rbind n_data n_prev n_next].
  set (h3 := <[l_head l := mkNode dummy (Some x) None]> r2).
  assert (Dm4 : dll h3 (Some pl) M (first_or B None)).
  { apply dll_frame; auto. }
  rewrite E1 in Dm4.
  destruct (dll_set_prev_first _ _ _ _ _ _ (Some (l_head l)) Dm4) as (h4 & -> & Dm5 & Fr5).
  { rewrite E1, fmap_cons in NDm. now apply NoDup_cons in NDm as [? _]. }
  cbn [rbind].
  assert (Nxt : l_tail l <> x) by (intros <-; apply (DM_T _ xM), tT).
  assert (Lt4 : h4 !! l_tail l = Some (mkNode dummy None (last_or (Some pl) (M ++ B)))).
  { rewrite Fr5 by auto. unfold h3. rewrite lookup_insert_ne by auto. exact Lt3. }
  erewrite set_prev_some by exact Lt4. cbn [rbind n_data n_prev n_next].
  set (h5 := <[l_tail l := mkNode dummy None (Some y)]> h4).
  rewrite <- E1 in Dm5.
  assert (Dm6 : dll h5 (Some (l_head l)) M (first_or B None)).
  { apply dll_frame; auto. intros Hin. apply (DM_T _ Hin), tT. }
  rewrite E2 in Dm6.
  destruct (dll_set_next_last _ _ _ _ _ _ (Some (l_tail l)) Dm6) as (h6 & -> & Dm7 & Fr6).
  { rewrite E2, fmap_app in NDm. apply NoDup_app in NDm as (_ & D & _). intros Hin. apply (D _ Hin). left. }
  rewrite <- E2 in Dm7. cbn [rbind].
  eexists. split; [reflexivity|]. exists M.
  assert (Nyh : l_head l <> y) by (intros <-; now apply (DH_M _ hH)).
  assert (Nyt : l_tail l <> y) by (intros <-; apply (DM_T _ yM), tT).
  assert (Nxh : l_head l <> x) by (intros <-; now apply (DH_M _ hH)).
  split; [exact HM|]. split; [|split; [|split]].
  - unfold full. cbn [l_heap l_head l_tail]. split.
    + rewrite Fr6 by auto. unfold h5. rewrite lookup_insert_ne by auto. rewrite Fr5 by auto.
      unfold h3. rewrite lookup_insert. rewrite E1. reflexivity.
    + apply dll_app. split; [exact Dm7|]. split; [|exact I].
      rewrite Fr6 by auto. unfold h5. rewrite lookup_insert. rewrite E2, last_or_snoc. reflexivity.
  - unfold full. cbn [l_head l_tail]. rewrite fmap_cons. apply NoDup_cons. split.
    + rewrite fmap_app, not_elem_of_app. split; [now apply DH_M|]. now apply (DH_T (l_head l)).
    + rewrite fmap_app. apply NoDup_app. split; auto.
  - unfold full. cbn [l_head l_tail l_alloc].
    rewrite !fmap_app, !Forall_app in Fo. destruct Fo as (F1 & F2 & F3 & F4).
    rewrite fmap_cons, fmap_app. constructor; [|apply Forall_app; auto].
    rewrite Forall_forall in F1. apply F1, hH.
  - cbn [l_size]. rewrite Hs. unfold size.
    apply (f_equal length) in HA, HB. rewrite !fmap_length in HA, HB.
    rewrite Evs, !app_length. lia.
Qed.

(* ---- Remove ---- *)
Definition with_heap (l : llist) (h : heap) (k : Z) : llist :=
  mkList h (l_alloc l) (l_head l) (l_tail l) (l_size l - k).

Lemma first_in_tail l xs1 xs2 vs : lrepr_ns l (emb <$> (xs1 ++ xs2)) vs ->
  l_tail l ∉ xs2.*1 /\ l_head l ∉ xs1.*1.
Proof.
  intros Hr. pose proof (tail_not_in _ _ _ Hr) as H. destruct Hr as (_ & _ & ND & _).
  rewrite fmap_cons, fmap_app, not_elem_of_cons, not_elem_of_app in H. split; [tauto|].
  unfold full in ND. rewrite fmap_cons, fmap_app, emb_fst, fmap_app in ND.
  apply NoDup_cons in ND as [ND _]. simpl in ND. rewrite !not_elem_of_app in ND. tauto.
Qed.

Lemma repr_node l xs1 a v xs2 vs : lrepr_ns l (emb <$> (xs1 ++ (a, v) :: xs2)) vs ->
  l_heap l !! a = Some (mkNode (new_string v) (first_or (emb <$> xs2) (Some (l_tail l)))
                               (last_or (Some (l_head l)) (emb <$> xs1))).
Proof.
  intros (_ & Hd & _). unfold full in Hd. rewrite fmap_app, fmap_cons, <- app_assoc in Hd.
  change (?x :: ?y ++ ?z) with ((x :: y) ++ z) in Hd. apply dll_middle in Hd.
  rewrite first_or_app in Hd. exact Hd.
Qed.

Lemma del_head_loop_ok key count xs2 : forall l xs1 removed fuel vs,
  lrepr_ns l (emb <$> (xs1 ++ xs2)) vs -> (length xs2 < fuel)%nat ->
  exists h' xs2', xs2'.*2 = remove_first (Z.to_nat (count - removed)) key xs2.*2 /\
    del_head_loop fuel (l_heap l) (Some (l_tail l)) (first_or (emb <$> xs2) (Some (l_tail l))) removed count (new_string key)
      = Ret (h', removed + (Z.of_nat (length xs2) - Z.of_nat (length xs2'))) /\
    lrepr_ns (with_heap l h' (Z.of_nat (length xs2) - Z.of_nat (length xs2'))) (emb <$> (xs1 ++ xs2')) (xs1 ++ xs2').*2.
Proof.
  induction xs2 as [|[a v] xs2 IH]; intros l xs1 removed fuel vs Hr Hf; (destruct fuel as [|f]; [simpl in Hf; lia|]).
  - exists (l_heap l), []. split; [destruct (Z.to_nat _); reflexivity|].
    cbn [del_head_loop fmap list_fmap first_or]. simpl loc_eqb. rewrite Nat.eqb_refl. simpl negb. cbn [andb].
    split; [f_equal; f_equal; simpl; lia|]. unfold with_heap. simpl length.
    replace (l_size l - (Z.of_nat 0 - Z.of_nat 0)) with (l_size l) by lia.
    destruct l. simpl. pose proof Hr as (Hv & Hr').
    assert (vs = (xs1 ++ []).*2).
    { rewrite emb_snd in Hv. apply (f_equal (fmap s_data)) in Hv. rewrite <- !list_fmap_compose in Hv.
      unfold compose in Hv. simpl in Hv. rewrite !list_fmap_id in Hv. auto. }
    subst vs. exact Hr.
  - assert (Evs : vs = (xs1 ++ (a, v) :: xs2).*2).
    { destruct Hr as (Hv & _). rewrite emb_snd in Hv. apply (f_equal (fmap s_data)) in Hv. rewrite <- !list_fmap_compose in Hv.
      unfold compose in Hv. simpl in Hv. rewrite !list_fmap_id in Hv. auto. }
    subst vs.
    pose proof (first_in_tail _ _ _ _ Hr) as [Ht _].
    rewrite fmap_cons in Ht. simpl in Ht. apply not_elem_of_cons in Ht as [Hta Ht].
    cbn [del_head_loop]. rewrite (fmap_cons emb). cbn [emb first_or fst snd].
    rewrite loc_eqb_ne by auto. cbn [negb andb].
    destruct (removed <? count) eqn:Ec.
    2:{ exists (l_heap l), ((a, v) :: xs2). replace (Z.to_nat (count - removed)) with O by lia.
        split; [reflexivity|]. split; [f_equal; f_equal; lia|].
        unfold with_heap. rewrite Z.sub_diag, Z.sub_0_r. destruct l. exact Hr. }
    rewrite (deref_some _ _ _ (repr_node _ _ _ _ _ _ Hr)). cbn [rbind n_data n_next].
    rewrite s_equals_spec. rewrite (fmap_cons snd). cbn [snd].
    assert (En : Z.to_nat (count - removed) = S (Z.to_nat (count - (removed + 1)))) by lia.
    destruct (bytes_eqb v key) eqn:Ek.
    + destruct (repr_delete l (emb <$> xs1) a (new_string v) (emb <$> xs2) xs1.*2 v xs2.*2) as (_ & h' & -> & Hr').
      { rewrite fmap_app, fmap_cons in Hr. rewrite fmap_app, fmap_cons in Hr. exact Hr. }
      { now rewrite !fmap_length. }
      cbn [rbind fst]. rewrite <- fmap_app in Hr'.
      destruct (IH _ _ (removed + 1) f _ Hr' ltac:(simpl in Hf; lia)) as (h2 & xs2' & E1 & E2 & E3).
      exists h2, xs2'. split.
      { rewrite En. cbn [remove_first]. rewrite Ek. exact E1. }
      split.
      * cbn [l_heap l_tail] in E2. rewrite E2. f_equal. f_equal. simpl length. lia.
      * unfold with_heap in *. cbn [l_alloc l_head l_tail l_size] in E3.
        replace (l_size l - (Z.of_nat (length ((a, v) :: xs2)) - Z.of_nat (length xs2')))
          with (l_size l - 1 - (Z.of_nat (length xs2) - Z.of_nat (length xs2'))) by (simpl length; lia). exact E3.
    + replace (xs1 ++ (a, v) :: xs2) with ((xs1 ++ [(a, v)]) ++ xs2) in Hr by (rewrite <- app_assoc; reflexivity).
      destruct (IH _ _ removed f _ Hr ltac:(simpl in Hf; lia)) as (h2 & xs2' & E1 & E2 & E3).
      exists h2, ((a, v) :: xs2'). split; [|split].
      * rewrite En. cbn [remove_first]. rewrite Ek, <- En, <- E1. reflexivity.
      * rewrite E2. f_equal. f_equal. simpl length. lia.
      * rewrite <- app_assoc in E3.
        replace (Z.of_nat (length ((a, v) :: xs2)) - Z.of_nat (length ((a, v) :: xs2')))
          with (Z.of_nat (length xs2) - Z.of_nat (length xs2')) by (simpl length; lia). exact E3.
Qed.

Lemma repr_vs l xs vs : lrepr_ns l (emb <$> xs) vs -> vs = xs.*2.
Proof.
  intros (Hv & _). rewrite emb_snd in Hv. apply (f_equal (fmap s_data)) in Hv. rewrite <- !list_fmap_compose in Hv.
  unfold compose in Hv. simpl in Hv. rewrite !list_fmap_id in Hv. auto.
Qed.

Lemma remove_last_nil n v : remove_last n v [] = [].
Proof. unfold remove_last. destruct n; reflexivity. Qed.
Lemma remove_first_0 v l : remove_first 0 v l = l.
Proof. destruct l; reflexivity. Qed.
Lemma remove_last_0 v l : remove_last 0 v l = l.
Proof. unfold remove_last. destruct (rev l) eqn:E; cbn [remove_first]; rewrite <- E; apply rev_involutive. Qed.
Lemma remove_last_hit n v l : remove_last (S n) v (l ++ [v]) = remove_last n v l.
Proof. unfold remove_last. rewrite rev_app_distr. simpl. now rewrite bytes_eqb_refl. Qed.
Lemma remove_last_miss n v l x : x <> v -> remove_last (S n) v (l ++ [x]) = remove_last (S n) v l ++ [x].
Proof.
  intros H. unfold remove_last. rewrite rev_app_distr. simpl.
  destruct (bytes_eqb x v) eqn:E; [apply bytes_eqb_eq in E; congruence|]. reflexivity.
Qed.

Lemma del_tail_loop_ok key count n : forall xs1 l xs2 removed fuel vs, length xs1 = n ->
  lrepr_ns l (emb <$> (xs1 ++ xs2)) vs -> (length xs1 < fuel)%nat ->
  exists h' xs1', xs1'.*2 = remove_last (Z.to_nat (count - removed)) key xs1.*2 /\
    del_tail_loop fuel (l_heap l) (Some (l_head l)) (last_or (Some (l_head l)) (emb <$> xs1)) removed count (new_string key)
      = Ret (h', removed + (Z.of_nat (length xs1) - Z.of_nat (length xs1'))) /\
    lrepr_ns (with_heap l h' (Z.of_nat (length xs1) - Z.of_nat (length xs1'))) (emb <$> (xs1' ++ xs2)) (xs1' ++ xs2).*2.
Proof.
  induction n as [|n IH]; intros xs1 l xs2 removed fuel vs Hn Hr Hf; (destruct fuel as [|f]; [lia|]);
    pose proof (repr_vs _ _ _ Hr) as ->.
  - destruct xs1; [|discriminate]. exists (l_heap l), []. split; [rewrite remove_last_nil; reflexivity|].
    cbn [del_tail_loop fmap list_fmap last_or]. simpl loc_eqb. rewrite Nat.eqb_refl. simpl negb. cbn [andb].
    split; [f_equal; f_equal; simpl; lia|]. unfold with_heap. simpl length.
    replace (l_size l - (Z.of_nat 0 - Z.of_nat 0)) with (l_size l) by lia.
    destruct l. exact Hr.
  - destruct (snoc_case xs1) as [->|(ys & [a v] & ->)]; [discriminate|].
    rewrite app_length in Hn. simpl in Hn.
    rewrite <- app_assoc in Hr. simpl in Hr.
    pose proof Hr as Hr0. replace (ys ++ (a, v) :: xs2) with ((ys ++ [(a, v)]) ++ xs2) in Hr0 by (rewrite <- app_assoc; reflexivity).
    pose proof (first_in_tail _ _ _ _ Hr0) as [_ Hh].
    rewrite fmap_app in Hh. apply not_elem_of_app in Hh as [_ Hh]. simpl in Hh. apply not_elem_of_cons in Hh as [Hh _].
    cbn [del_tail_loop]. rewrite (fmap_app emb ys). cbn [fmap list_fmap]. change (emb (a, v)) with (a, new_string v). rewrite last_or_snoc.
    rewrite loc_eqb_ne by auto. cbn [negb andb].
    destruct (removed <? count) eqn:Ec.
    2:{ exists (l_heap l), (ys ++ [(a, v)]). replace (Z.to_nat (count - removed)) with O by lia.
        split; [rewrite remove_last_0; reflexivity|]. split; [f_equal; f_equal; lia|].
        unfold with_heap. rewrite Z.sub_diag, Z.sub_0_r. rewrite <- app_assoc. destruct l. exact Hr. }
    rewrite (deref_some _ _ _ (repr_node _ _ _ _ _ _ Hr)). cbn [rbind n_data n_prev].
    rewrite s_equals_spec. rewrite (fmap_app snd ys). cbn [fmap list_fmap snd].
    assert (En : Z.to_nat (count - removed) = S (Z.to_nat (count - (removed + 1)))) by lia.
    rewrite app_length in Hf. simpl in Hf.
    destruct (bytes_eqb v key) eqn:Ek.
    + apply bytes_eqb_eq in Ek as ->.
      destruct (repr_delete l (emb <$> ys) a (new_string key) (emb <$> xs2) ys.*2 key xs2.*2) as (_ & h' & -> & Hr').
      { rewrite fmap_app, fmap_cons in Hr. rewrite fmap_app, fmap_cons in Hr. exact Hr. }
      { now rewrite !fmap_length. }
      cbn [rbind fst]. rewrite <- fmap_app in Hr'.
      destruct (IH ys _ _ (removed + 1) f _ ltac:(lia) Hr' ltac:(lia)) as (h2 & xs1' & E1 & E2 & E3).
      exists h2, xs1'. split.
      { rewrite En, remove_last_hit. exact E1. }
      split.
      * cbn [l_heap l_head] in E2. rewrite E2. f_equal. f_equal. rewrite app_length. simpl length. lia.
      * unfold with_heap in *. cbn [l_alloc l_head l_tail l_size] in E3.
        replace (l_size l - (Z.of_nat (length (ys ++ [(a, key)])) - Z.of_nat (length xs1')))
          with (l_size l - 1 - (Z.of_nat (length ys) - Z.of_nat (length xs1'))) by (rewrite app_length; simpl length; lia). exact E3.
    + apply bytes_eqb_neq in Ek.
      destruct (IH ys _ _ removed f _ ltac:(lia) Hr ltac:(lia)) as (h2 & xs1' & E1 & E2 & E3).
      exists h2, (xs1' ++ [(a, v)]). split; [|split].
      * rewrite En, remove_last_miss by auto. rewrite <- En, <- E1, fmap_app. reflexivity.
      * rewrite E2. f_equal. f_equal. rewrite !app_length. simpl length. lia.
      * rewrite <- app_assoc.
        replace (Z.of_nat (length (ys ++ [(a, v)])) - Z.of_nat (length (xs1' ++ [(a, v)])))
          with (Z.of_nat (length ys) - Z.of_nat (length xs1')) by (rewrite !app_length; simpl length; lia). exact E3.
Qed.

Lemma list_removec_ok l vs count key : lrepr l vs -> int64_ok count -> count <> - 2 ^ 63 -> key <> dummy_text ->
  exists l' r, list_removec l count (new_string key) = Ret (l', r) /\ lrepr l' (lrem_spec count key vs) /\
    r = Z.of_nat (length vs) - Z.of_nat (length (lrem_spec count key vs)).
Proof.
  intros (ns & Hr) Hc Hmin Hk. pose proof Hr as (Hv & _). apply emb_split in Hv as (xs & -> & ->).
  pose proof (alloc_bound _ _ _ Hr) as Hal. pose proof Hr as (Hv & Hd & ND & Fo & Hs).
  assert (Ed : bytes_eqb dummy_text key = false) by (apply bytes_eqb_neq; congruence).
  assert (Nht : l_head l <> l_tail l).
  { pose proof (tail_not_in _ _ _ Hr) as H. rewrite fmap_cons, not_elem_of_cons in H. simpl in H. intuition. }
  unfold list_removec, lrem_spec. rewrite !fmap_length in *.
  destruct (0 <=? count) eqn:E.
  - unfold delete_from_head. set (c := if count =? 0 then l_size l else count).
    assert (Hgoal : forall vs', vs' = remove_first (Z.to_nat c) key xs.*2 ->
      exists l' r, rbind (del_head_loop (S (S (l_alloc l))) (l_heap l) (Some (l_tail l)) (Some (l_head l)) 0 c (new_string key))
        (fun r => Ret (mkList (fst r) (l_alloc l) (l_head l) (l_tail l) (l_size l - snd r), snd r)) = Ret (l', r) /\
        lrepr l' vs' /\ r = Z.of_nat (length xs) - Z.of_nat (length vs')).
    { intros vs' ->. remember (S (l_alloc l)) as fu eqn:Efu. cbn [del_head_loop]. rewrite loc_eqb_ne by congruence. cbn [negb andb].
      destruct (0 <? c) eqn:Ec.
      - rewrite (deref_some _ _ _ (full_head_lookup _ _ Hd)). cbn [rbind n_data n_next].
        unfold dummy. rewrite s_equals_spec, Ed. cbv iota.
        destruct (del_head_loop_ok key c xs l [] 0 fu _ Hr) as (h' & xs' & E1 & -> & E3); [lia|].
        cbn [rbind fst snd]. do 2 eexists. split; [reflexivity|]. rewrite Z.sub_0_r in E1. rewrite Z.add_0_l. split.
        + exists (emb <$> xs'). rewrite <- E1. exact E3.
        + rewrite <- E1, fmap_length. reflexivity.
      - cbn [rbind fst snd]. do 2 eexists. split; [reflexivity|]. replace (Z.to_nat c) with O by lia.
        rewrite Z.sub_0_r. rewrite remove_first_0. split; [exists (emb <$> xs); destruct l; exact Hr|rewrite fmap_length; lia]. }
    apply Hgoal. unfold c. destruct (count =? 0) eqn:E0.
    + rewrite Hs, Nat2Z.id. reflexivity.
    + destruct (0 <? count) eqn:E1; [reflexivity|lia].
  - destruct (count =? 0) eqn:E0; [lia|]. destruct (0 <? count) eqn:E1; [lia|].
    rewrite wrap64_id by (unfold int64_ok in *; lia).
    unfold delete_from_tail. remember (S (l_alloc l)) as fu eqn:Efu. cbn [del_tail_loop]. rewrite loc_eqb_ne by congruence. cbn [negb andb].
    destruct (0 <? - count) eqn:E2; [|lia].
    rewrite (deref_some _ _ _ (full_tail_lookup _ _ Hd)). cbn [rbind n_data n_prev].
    unfold dummy. rewrite s_equals_spec, Ed. cbv iota.
    pose proof Hr as Hr2. rewrite <- (app_nil_r xs) in Hr2.
    destruct (del_tail_loop_ok key (- count) (length xs) xs l [] 0 fu _ eq_refl Hr2) as (h' & xs' & F1 & -> & F3); [lia|].
    cbn [rbind fst snd]. do 2 eexists. split; [reflexivity|]. rewrite Z.sub_0_r in F1. rewrite Z.add_0_l. split.
    + exists (emb <$> xs'). rewrite <- F1. rewrite !app_nil_r in F3. exact F3.
    + rewrite <- F1, fmap_length. reflexivity.
Qed.

(* the least int64 has no negation: nothing is removed *)
Lemma list_removec_min l vs key : lrepr l vs ->
  exists l', list_removec l (- 2 ^ 63) (new_string key) = Ret (l', 0) /\ lrepr l' vs.
Proof.
  intros (ns & Hr). pose proof Hr as (Hv & _). apply emb_split in Hv as (xs & -> & ->).
  assert (Nht : l_head l <> l_tail l).
  { pose proof (tail_not_in _ _ _ Hr) as H. rewrite fmap_cons, not_elem_of_cons in H. simpl in H. intuition. }
  unfold list_removec. replace (0 <=? - 2 ^ 63) with false by reflexivity.
  replace (wrap64 (- (- 2 ^ 63))) with (- 2 ^ 63) by reflexivity.
  unfold delete_from_tail. remember (S (l_alloc l)) as fu eqn:Efu. cbn [del_tail_loop]. rewrite loc_eqb_ne by congruence. cbn [negb andb].
  replace (0 <? - 2 ^ 63) with false by reflexivity. cbn [rbind fst snd].
  eexists. split; [reflexivity|]. rewrite Z.sub_0_r. exists (emb <$> xs). destruct l. exact Hr.
Qed.

(* the sentinel's own text *)
Lemma list_removec_dummy l vs count : lrepr l vs -> int64_ok count ->
  if (count =? - 2 ^ 63) || ((count =? 0) && (Z.of_nat (length vs) =? 0))
  then exists l', list_removec l count dummy = Ret (l', 0) /\ lrepr l' vs
  else list_removec l count dummy = Panic.
Proof.
  intros Hl Hc. destruct (count =? - 2 ^ 63) eqn:Em; cbn [orb].
  { apply Z.eqb_eq in Em as ->. now apply list_removec_min. }
  destruct Hl as (ns & Hr). pose proof Hr as (Hv & _). apply emb_split in Hv as (xs & -> & ->).
  pose proof Hr as (Hv & Hd & ND & Fo & Hs).
  assert (Nht : l_head l <> l_tail l).
  { pose proof (tail_not_in _ _ _ Hr) as H. rewrite fmap_cons, not_elem_of_cons in H. simpl in H. intuition. }
  unfold list_removec. destruct (0 <=? count) eqn:E.
  - unfold delete_from_head. rewrite Hs. remember (S (l_alloc l)) as fu eqn:Efu. cbn [del_head_loop]. rewrite loc_eqb_ne by congruence. cbn [negb andb].
    set (c := if count =? 0 then Z.of_nat (length xs.*2) else count).
    destruct ((count =? 0) && (Z.of_nat (length xs.*2) =? 0)) eqn:Ez.
    + destruct (0 <? c) eqn:Ec; [unfold c in Ec; destruct (count =? 0) eqn:?; lia|].
      cbn [rbind fst snd]. eexists. split; [reflexivity|]. rewrite Z.sub_0_r. exists (emb <$> xs).
      rewrite <- Hs. destruct l. exact Hr.
    + destruct (0 <? c) eqn:Ec; [|unfold c in Ec; destruct (count =? 0) eqn:?; lia].
      rewrite (deref_some _ _ _ (full_head_lookup _ _ Hd)). cbn [rbind n_data n_next].
      unfold dummy at 1. unfold dummy at 1. rewrite s_equals_spec, bytes_eqb_refl.
      unfold delete_node. rewrite (deref_some _ _ _ (full_head_lookup _ _ Hd)). reflexivity.
  - destruct ((count =? 0) && _) eqn:Ez; [lia|].
    rewrite wrap64_id by (unfold int64_ok in *; lia).
    unfold delete_from_tail. remember (S (l_alloc l)) as fu eqn:Efu. cbn [del_tail_loop]. rewrite loc_eqb_ne by congruence. cbn [negb andb].
    destruct (0 <? - count) eqn:E2; [|lia].
    rewrite (deref_some _ _ _ (full_tail_lookup _ _ Hd)). cbn [rbind n_data n_prev].
    unfold dummy at 1. unfold dummy at 1. rewrite s_equals_spec, bytes_eqb_refl.
    unfold delete_node. rewrite (deref_some _ _ _ (full_tail_lookup _ _ Hd)). cbn [rbind n_prev n_next].
    (* tail.prev.next = tail.next succeeds, then tail.next.prev crashes *)
    destruct (last_or (Some (l_head l)) (emb <$> xs)) as [p|] eqn:El; [|reflexivity].
    assert (exists n, l_heap l !! p = Some n) as (n & Hn).
    { destruct (snoc_case xs) as [->|(ys & [a v] & ->)].
      - simpl in El. injection El as <-. eexists. apply (full_head_lookup _ _ Hd).
      - rewrite fmap_app in El. cbn [fmap list_fmap] in El. change (emb (a, v)) with (a, new_string v) in El. rewrite last_or_snoc in El. injection El as <-.
        eexists. apply (repr_node _ _ _ _ _ _ Hr). }
    assert (p <> l_tail l).
    { pose proof (tail_not_in _ _ _ Hr) as H. intros ->. destruct (snoc_case xs) as [->|(ys & [a v] & ->)].
      - simpl in El. congruence.
      - rewrite fmap_app in El. cbn [fmap list_fmap] in El. change (emb (a, v)) with (a, new_string v) in El. rewrite last_or_snoc in El. injection El as ->.
        apply H. rewrite fmap_cons, fmap_app. right. apply elem_of_app. right. left. }
    erewrite set_next_some by exact Hn. cbn [rbind].
    erewrite deref_some by (rewrite lookup_insert_ne by auto; exact (full_tail_lookup _ _ Hd)). reflexivity.
Qed.

(* remove_first with a large enough bound removes every occurrence *)
Lemma remove_first_all v l : forall n, (length l <= n)%nat ->
  remove_first n v l = List.filter (fun x => negb (bytes_eqb x v)) l.
Proof.
  induction l as [|x l IH]; intros n Hn.
  - destruct n; reflexivity.
  - destruct n as [|n]; [simpl in Hn; lia|]. simpl. destruct (bytes_eqb x v); simpl.
    + apply IH. simpl in Hn. lia.
    + f_equal. apply IH. simpl in Hn. lia.
Qed.

Lemma insert_near_app pivot x after vs1 vs2 : pivot ∉ vs1 ->
  insert_near after pivot x (vs1 ++ pivot :: vs2) =
  Some (if after then vs1 ++ pivot :: x :: vs2 else vs1 ++ x :: pivot :: vs2).
Proof.
  induction vs1 as [|y vs1 IH]; intros H; simpl.
  - rewrite bytes_eqb_refl. destruct after; reflexivity.
  - apply not_elem_of_cons in H as [H1 H2]. destruct (bytes_eqb y pivot) eqn:E.
    + apply bytes_eqb_eq in E. congruence.
    + rewrite IH by auto. destruct after; reflexivity.
Qed.
Lemma insert_near_none pivot x after vs : pivot ∉ vs -> insert_near after pivot x vs = None.
Proof.
  induction vs as [|y vs IH]; intros H; auto. simpl.
  apply not_elem_of_cons in H as [H1 H2]. destruct (bytes_eqb y pivot) eqn:E.
  - apply bytes_eqb_eq in E. congruence.
  - now rewrite IH.
Qed.
Lemma list_insert_ok' l vs pivot v after : lrepr l vs -> pivot <> dummy_text ->
  match insert_near after pivot v vs with
  | None => list_insertp l (new_string pivot) (new_string v) after = Ret None
  | Some vs' => exists l', list_insertp l (new_string pivot) (new_string v) after = Ret (Some l') /\ lrepr l' vs'
  end.
Proof.
  intros Hr Hp. destruct (list_insert_ok l vs pivot v after Hr Hp) as [[Hn He]|(vs1 & vs2 & l' & -> & Hn & He & Hr')].
  - now rewrite insert_near_none.
  - rewrite insert_near_app by auto. eauto.
Qed.
