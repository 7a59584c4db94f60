(* The skip list follows the specification as long as nothing taller is behind a removed node. *)
From Coq Require Import ZArith List Bool Permutation Sorted SpecFloat Lia.
From Verif Require Import Base BaseFacts Lts UtilIndex IndexSpec UtilIndexProofs SkipList SortedSetSpec.
Import ListNotations.
Open Scope nat_scope.

(* ---- the order ---- *)
Definition fkey (f : spec_float) : Z * Z * Z :=
  match f with
  | S754_infinity true => (0, 0, 0)%Z
  | S754_finite true m e => (1, - e, - Zpos m)%Z
  | S754_zero _ => (2, 0, 0)%Z
  | S754_finite false m e => (3, e, Zpos m)%Z
  | S754_infinity false => (4, 0, 0)%Z
  | S754_nan => (5, 0, 0)%Z
  end.
Definition klt (a b : Z * Z * Z) : Prop :=
  let '(x, y, z) := a in let '(x', y', z') := b in (x < x' \/ x = x' /\ (y < y' \/ y = y' /\ z < z'))%Z.
Lemma fcompare a b : a <> S754_nan -> b <> S754_nan ->
  (SFcompare a b = Some Lt <-> klt (fkey a) (fkey b)) /\ (SFcompare a b = Some Eq <-> fkey a = fkey b).
Proof.
  intros Ha Hb. destruct a as [s|s| |s m e], b as [s'|s'| |s' m' e']; try contradiction; unfold SFcompare; try destruct s; try destruct s'; cbn [fkey klt];
    try (split; split; intros H; first [discriminate|reflexivity|lia|injection H; discriminate|exfalso; lia]).
  - change (BinPos.Pos.compare_cont Eq m m') with (Pos.compare m m').
    destruct (Z.compare_spec e e') as [->|H|H]; [destruct (Pos.compare_spec m m') as [->|H|H]|..]; cbn [CompOpp]; split; split; intros X; try discriminate; try reflexivity; try lia; try (injection X; lia).
  - change (BinPos.Pos.compare_cont Eq m m') with (Pos.compare m m').
    destruct (Z.compare_spec e e') as [->|H|H]; [destruct (Pos.compare_spec m m') as [->|H|H]|..]; cbn [CompOpp]; split; split; intros X; try discriminate; try reflexivity; try lia; try (injection X; lia).
Qed.
Definition num (x : member) : Prop := m_score x <> S754_nan.
Lemma klt_trans a b c : klt a b -> klt b c -> klt a c.
Proof. destruct a as [[a1 a2] a3], b as [[b1 b2] b3], c as [[c1 c2] c3]. cbn. lia. Qed.
Lemma klt_irrefl a : ~ klt a a.
Proof. destruct a as [[a1 a2] a3]. cbn. lia. Qed.
Lemma klt_total a b : klt a b \/ a = b \/ klt b a.
Proof.
  destruct a as [[a1 a2] a3], b as [[b1 b2] b3]. cbn.
  destruct (Z.lt_trichotomy a1 b1) as [?|[->|?]]; [lia| |lia].
  destruct (Z.lt_trichotomy a2 b2) as [?|[->|?]]; [lia| |lia].
  destruct (Z.lt_trichotomy a3 b3) as [?|[->|?]]; [lia|auto|lia].
Qed.
Lemma precedes_key x y : num x -> num y ->
  (precedes x y <-> klt (fkey (m_score x)) (fkey (m_score y)) \/ (fkey (m_score x) = fkey (m_score y) /\ lex_lt (m_name x) (m_name y))).
Proof. intros Hx Hy. unfold precedes. destruct (fcompare _ _ Hx Hy) as [A B]. now rewrite A, B. Qed.
Lemma precedes_trans x y z : num x -> num y -> num z -> precedes x y -> precedes y z -> precedes x z.
Proof.
  intros Hx Hy Hz. rewrite !precedes_key by assumption. intros [A|[A A']] [B|[B B']].
  - left. eapply klt_trans; eassumption.
  - left. now rewrite <- B.
  - left. now rewrite A.
  - right. split; [congruence|]. eapply lex_lt_trans; eassumption.
Qed.
Lemma precedes_irrefl x : num x -> ~ precedes x x.
Proof. intros H. rewrite precedes_key by assumption. intros [A|[_ A]]; [now apply klt_irrefl in A|now apply lex_lt_irrefl in A]. Qed.
Lemma precedes_total x y : num x -> num y -> m_name x <> m_name y -> precedes x y \/ precedes y x.
Proof.
  intros Hx Hy Hn. rewrite !precedes_key by assumption. destruct (klt_total (fkey (m_score x)) (fkey (m_score y))) as [H|[H|H]]; auto.
  destruct (lex_trichotomy (m_name x) (m_name y)) as [A|[A|A]]; auto; contradiction.
Qed.
(* Only score and name count. *)
Lemma precedes_height x s e d d' : precedes x (Member s e d) <-> precedes x (Member s e d').
Proof. reflexivity. Qed.

(* ---- lists ---- *)
Lemma last_app {A} (p q : list A) a : List.last (p ++ q) a = List.last q (List.last p a).
Proof.
  revert a. induction p as [|x p IH]; intros a; [reflexivity|]. cbn [app].
  destruct p as [|y p]; [destruct q; cbn; [reflexivity|]|].
  - clear. revert x a a0. induction q as [|z q IH]; intros; [reflexivity|]. cbn in *. apply IH.
  - cbn [app] in *. change (List.last (x :: y :: p ++ q) a) with (List.last (y :: p ++ q) a).
    change (List.last (x :: y :: p) a) with (List.last (y :: p) a). apply IH.
Qed.
Lemma last_cons {A} (x : A) p a : List.last (x :: p) a = List.last p x.
Proof. apply (last_app [x] p a). Qed.
Lemma last_in {A} (p : list A) a : In (List.last p a) (a :: p).
Proof. revert a. induction p as [|x p IH]; intros a; [now left|]. rewrite last_cons. right. apply IH. Qed.
Lemma set_nth_same {A} (l : list A) i x : i < List.length l -> nth_error (set_nth l i x) i = Some x.
Proof. revert i. induction l as [|y l IH]; intros [|i] H; cbn in *; try lia; [reflexivity|]. apply IH. lia. Qed.
Lemma set_nth_other {A} (l : list A) i j x : j <> i -> nth_error (set_nth l i x) j = nth_error l j.
Proof. revert i j. induction l as [|y l IH]; intros [|i] [|j] H; cbn; try reflexivity; try contradiction. apply IH. lia. Qed.
Lemma set_nth_length {A} (l : list A) i x : List.length (set_nth l i x) = List.length l.
Proof. revert i. induction l as [|y l IH]; intros [|i]; cbn; auto. Qed.

(* ---- what the heap looks like, spans left out ---- *)
Definition nxt (h : nat -> node) (l a : nat) : option nat := option_map fst (nth_error (n_next (h a)) l).
Definition ht (h : nat -> node) (a : nat) : nat := List.length (n_next (h a)).
Lemma nxt_none h l a : ht h a <= l -> nxt h l a = None.
Proof. intros H. unfold nxt. now rewrite (proj2 (nth_error_None _ _) H). Qed.
Lemma at_nxt h l a : l < ht h a -> exists b sp, at_ h a l = Ret (b, sp) /\ nxt h l a = Some b.
Proof.
  intros H. unfold at_, nxt. destruct (nth_error (n_next (h a)) l) as [[b sp]|] eqn:E; [|apply nth_error_None in E; unfold ht in H; lia].
  exists b, sp. auto.
Qed.
Lemma at_some h l a b : nxt h l a = Some b -> exists sp, at_ h a l = Ret (b, sp).
Proof. unfold nxt, at_. destruct (nth_error _ _) as [[c sp]|]; [|discriminate]. cbn. intros [= ->]. eauto. Qed.
Lemma nxt_some h l a b : nxt h l a = Some b -> l < ht h a.
Proof. unfold nxt, ht. intros H. apply nth_error_Some. intros E. now rewrite E in H. Qed.
(* Everything but the spans and the links. *)
Definition same (h h' : nat -> node) : Prop :=
  forall a, n_score (h' a) = n_score (h a) /\ n_data (h' a) = n_data (h a) /\ n_prev (h' a) = n_prev (h a).
Lemma same_refl h : same h h. Proof. intros a. auto. Qed.
Lemma same_trans h1 h2 h3 : same h1 h2 -> same h2 h3 -> same h1 h3.
Proof. intros A B a. destruct (A a) as (A1 & A2 & A3), (B a) as (B1 & B2 & B3). repeat split; congruence. Qed.
Lemma set_next_same h a l x : same h (set_next h a l x).
Proof. intros b. unfold set_next. destruct (upd_case h a b (Node (n_score (h a)) (n_data (h a)) (set_nth (n_next (h a)) l x) (n_prev (h a)))) as [[-> E]|[_ E]]; rewrite E; auto. Qed.
Lemma push_next_same h a x : same h (push_next h a x).
Proof. intros b. unfold push_next. destruct (upd_case h a b (Node (n_score (h a)) (n_data (h a)) (n_next (h a) ++ [x]) (n_prev (h a)))) as [[-> E]|[_ E]]; rewrite E; auto. Qed.
Lemma set_next_ht h a l x b : ht (set_next h a l x) b = ht h b.
Proof. unfold set_next, ht, upd. destruct (Nat.eqb_spec b a) as [->|]; [|reflexivity]. cbn. apply set_nth_length. Qed.
Lemma set_next_nxt h a l x : l < ht h a -> nxt (set_next h a l x) l a = Some (fst x).
Proof. intros H. unfold nxt, set_next. rewrite upd_eq. cbn [n_next]. now rewrite set_nth_same by exact H. Qed.
Lemma set_next_other h a l x b k : b <> a \/ k <> l -> nxt (set_next h a l x) k b = nxt h k b.
Proof.
  intros H. unfold nxt, set_next, upd. destruct (Nat.eqb_spec b a) as [->|]; [|reflexivity]. cbn [n_next].
  rewrite set_nth_other; [reflexivity|]. destruct H; [contradiction|assumption].
Qed.
Lemma push_next_ht h a x b : ht (push_next h a x) b = if Nat.eqb b a then S (ht h b) else ht h b.
Proof. unfold push_next, ht, upd. destruct (Nat.eqb_spec b a) as [->|]; [|reflexivity]. cbn. rewrite app_length. cbn. lia. Qed.
Lemma push_next_nxt h a x k b : nxt (push_next h a x) k b = if Nat.eqb b a && Nat.eqb k (ht h a) then Some (fst x) else nxt h k b.
Proof.
  unfold nxt, push_next, upd, ht. destruct (Nat.eqb_spec b a) as [->|]; [|reflexivity]. cbn [n_next andb].
  destruct (Nat.eqb_spec k (List.length (n_next (h a)))) as [->|Hk].
  - rewrite nth_error_app2, Nat.sub_diag by lia. reflexivity.
  - destruct (Nat.lt_ge_cases k (List.length (n_next (h a)))).
    + now rewrite nth_error_app1.
    + rewrite (proj2 (nth_error_None _ _)) by (rewrite app_length; cbn; lia). now rewrite (proj2 (nth_error_None _ _)).
Qed.
(* Changes of spans only. *)
Definition alike (h h' : nat -> node) : Prop := same h h' /\ (forall a, ht h' a = ht h a) /\ forall l a, nxt h' l a = nxt h l a.
Lemma alike_refl h : alike h h. Proof. split; [apply same_refl|auto]. Qed.
Lemma alike_trans h1 h2 h3 : alike h1 h2 -> alike h2 h3 -> alike h1 h3.
Proof. intros (A & B & C) (A' & B' & C'). split; [eapply same_trans; eassumption|]. split; intros; congruence. Qed.
Lemma respan h a l b sp : nxt h l a = Some b -> alike h (set_next h a l (b, sp)).
Proof.
  intros H. split; [apply set_next_same|]. split; [intros; apply set_next_ht|]. intros k c.
  destruct (Nat.eq_dec c a) as [->|]; [|apply set_next_other; auto]. destruct (Nat.eq_dec k l) as [->|]; [|apply set_next_other; auto].
  rewrite set_next_nxt by (eapply nxt_some; exact H). now rewrite H.
Qed.
Lemma raise_ok n : forall l h len, l + n <= ht h head -> exists h', raise n l h len = Ret h' /\ alike h h'.
Proof.
  induction n as [|n IH]; intros l h len H; [exists h; split; [reflexivity|apply alike_refl]|]. cbn [raise].
  destruct (at_nxt h l head) as (b & sp & E & E'); [lia|]. rewrite E. cbn [rbind].
  destruct (IH (S l) (set_next h head l (b, len)) len) as (h' & A & B); [rewrite set_next_ht; lia|].
  exists h'. split; [exact A|]. eapply alike_trans; [apply respan; exact E'|exact B].
Qed.
Lemma bump_ok us : forall l h, (forall i u r, nth_error us i = Some (u, r) -> l + i < ht h u) -> exists h', bump us l h = Ret h' /\ alike h h'.
Proof.
  induction us as [|[u r] us IH]; intros l h H; [exists h; split; [reflexivity|apply alike_refl]|]. cbn [bump].
  destruct (at_nxt h l u) as (b & sp & E & E'); [specialize (H 0 u r eq_refl); lia|]. rewrite E. cbn [rbind].
  destruct (IH (S l) (set_next h u l (b, (sp + 1)%Z))) as (h' & A & B).
  { intros i v rr Hi. rewrite set_next_ht. specialize (H (S i) v rr Hi). lia. }
  exists h'. split; [exact A|]. eapply alike_trans; [apply respan; exact E'|exact B].
Qed.
(* Linking a new node behind U l on the levels from l on. *)
Lemma link_ok (U : nat -> nat) c r0 us : forall l h, map fst us = map U (seq l (List.length us)) -> ht h c = l ->
  (forall k, l <= k < l + List.length us -> U k <> c /\ k < ht h (U k)) ->
  exists h', link us l h c r0 = Ret h' /\ same h h' /\ ht h' c = l + List.length us /\ (forall a, a <> c -> ht h' a = ht h a) /\
    (forall k a, a <> c -> nxt h' k a = if (l <=? k) && (k <? l + List.length us) && (a =? U k) then Some c else nxt h k a) /\
    (forall k, nxt h' k c = if k <? l then nxt h k c else if k <? l + List.length us then nxt h k (U k) else None).
Proof.
  induction us as [|[u r] us IH]; intros l h Hm Hc Hu.
  - exists h. cbn [link List.length] in *. rewrite Nat.add_0_r. split; [reflexivity|]. split; [apply same_refl|]. split; [exact Hc|].
    split; [auto|]. split.
    + intros k a _. destruct (Nat.leb_spec l k), (Nat.ltb_spec k l); cbn; try reflexivity; lia.
    + intros k. destruct (Nat.ltb_spec k l); [reflexivity|]. apply nxt_none. lia.
  - cbn [List.length map seq] in Hm. cbn [fst] in Hm. assert (u = U l /\ map fst us = map U (seq (S l) (List.length us))) as [-> Hm'] by (split; congruence). clear Hm.
    cbn [link List.length] in *. destruct (Hu l) as [Hne Hl]; [lia|].
    destruct (at_nxt h l (U l) Hl) as (b & sp & E & E'). rewrite E. cbn [rbind].
    set (h1 := set_next (push_next h c (b, (sp - (r0 - r))%Z)) (U l) l (c, (r0 - r + 1)%Z)).
    assert (H1c : ht h1 c = S l). { unfold h1. rewrite set_next_ht, push_next_ht, Nat.eqb_refl. lia. }
    assert (H1a : forall a, a <> c -> ht h1 a = ht h a). { intros a Ha. unfold h1. rewrite set_next_ht, push_next_ht. destruct (Nat.eqb_spec a c); [contradiction|reflexivity]. }
    destruct (IH (S l) h1 Hm' H1c) as (h' & A & B & C & D & F & G).
    { intros k Hk. destruct (Hu k) as [? ?]; [lia|]. split; [assumption|]. now rewrite H1a. }
    exists h'. split; [exact A|]. split. { eapply same_trans; [|exact B]. eapply same_trans; [apply push_next_same|apply set_next_same]. }
    split; [lia|]. split; [intros a Ha; rewrite D, H1a; auto|]. split.
    + intros k a Ha. rewrite F by assumption.
      assert (X : nxt h1 k a = if (k =? l) && (a =? U l) then Some c else nxt h k a).
      { unfold h1. destruct (Nat.eqb_spec k l) as [->|Hk]; cbn [andb].
        - destruct (Nat.eqb_spec a (U l)) as [->|Hul].
          + rewrite set_next_nxt; [reflexivity|]. rewrite push_next_ht. destruct (Nat.eqb_spec (U l) c); [contradiction|exact Hl].
          + rewrite set_next_other by auto. rewrite push_next_nxt. destruct (Nat.eqb_spec a c); [contradiction|reflexivity].
        - rewrite set_next_other by auto. rewrite push_next_nxt. destruct (Nat.eqb_spec a c); [contradiction|reflexivity]. }
      rewrite X. destruct (Nat.eqb_spec k l) as [->|Hk]; cbn [andb].
      * destruct (Nat.leb_spec (S l) l); [lia|]. destruct (Nat.leb_spec l l); [|lia]. destruct (Nat.ltb_spec l (l + S (List.length us))); [|lia]. reflexivity.
      * destruct (Nat.leb_spec (S l) k), (Nat.leb_spec l k); try lia; cbn [andb]; try reflexivity.
        destruct (Nat.ltb_spec k (S l + List.length us)), (Nat.ltb_spec k (l + S (List.length us))); try lia; reflexivity.
    + intros k. rewrite G.
      assert (X : forall k a, k <> l -> a <> c \/ k < l -> nxt h1 k a = nxt h k a).
      { intros k' a Hk Ha. unfold h1. rewrite set_next_other by auto. rewrite push_next_nxt, Hc.
        destruct (Nat.eqb_spec a c), (Nat.eqb_spec k' l); cbn; try reflexivity; contradiction. }
      destruct (Nat.ltb_spec k (S l)) as [Hk|Hk].
      * destruct (Nat.ltb_spec k l) as [Hk'|Hk'].
        -- apply X; lia.
        -- assert (k = l) as -> by lia. destruct (Nat.ltb_spec l (l + S (List.length us))); [|lia].
           unfold h1. rewrite set_next_other by auto. rewrite push_next_nxt, Hc, !Nat.eqb_refl. cbn. now rewrite E'.
      * destruct (Nat.ltb_spec k l); [lia|].
        destruct (Nat.ltb_spec k (S l + List.length us)), (Nat.ltb_spec k (l + S (List.length us))); try lia; try reflexivity.
        apply X; [lia|]. left. apply Hu. lia.
Qed.
(* Taking nd out behind U l. *)
Lemma unlink_ok (U : nat -> nat) nd n : forall l h,
  (forall k, l <= k < l + n -> U k <> nd /\ k < ht h (U k) /\ (nxt h k (U k) = Some nd -> k < ht h nd)) ->
  exists h', unlink (map U (seq l n)) l h nd = Ret h' /\ same h h' /\ (forall a, ht h' a = ht h a) /\
    forall k a, nxt h' k a = if (l <=? k) && (k <? l + n) && (a =? U k) then (match nxt h k a with Some b => if b =? nd then nxt h k nd else Some b | None => None end) else nxt h k a.
Proof.
  induction n as [|n IH]; intros l h Hu.
  - exists h. split; [reflexivity|]. split; [apply same_refl|]. split; [auto|]. intros k a. rewrite Nat.add_0_r.
    destruct (Nat.leb_spec l k), (Nat.ltb_spec k l); cbn; try reflexivity; lia.
  - cbn [seq map unlink]. destruct (Hu l) as (Hne & Hl & Hn); [lia|]. destruct (at_nxt h l (U l) Hl) as (b & sp & E & E'). rewrite E. cbn [rbind].
    assert (R : exists x, (if b =? nd then let! (nn, nspan) := at_ h nd l in unlink (map U (seq (S l) n)) (S l) (set_next h (U l) l (nn, (sp + (nspan - 1))%Z)) nd
        else unlink (map U (seq (S l) n)) (S l) (set_next h (U l) l (b, (sp - 1)%Z)) nd) = unlink (map U (seq (S l) n)) (S l) (set_next h (U l) l x) nd /\
        Some (fst x) = if b =? nd then nxt h l nd else Some b).
    { destruct (Nat.eqb_spec b nd) as [->|Hb]; [|eauto]. destruct (at_nxt h l nd (Hn E')) as (nn & ns & G & G'). rewrite G. cbn [rbind].
      eexists. split; [reflexivity|]. now rewrite G'. }
    destruct R as (x & -> & Hx). destruct (IH (S l) (set_next h (U l) l x)) as (h' & A & B & C & D).
    { intros k Hk. destruct (Hu k) as (? & ? & ?); [lia|]. rewrite !set_next_ht, !set_next_other by lia. auto. }
    exists h'. split; [exact A|]. split; [eapply same_trans; [apply set_next_same|exact B]|]. split; [intros; now rewrite C, set_next_ht|].
    intros k a. rewrite D.
    destruct (Nat.eq_dec k l) as [->|Hk].
    + destruct (Nat.leb_spec (S l) l); [lia|]. cbn [andb]. destruct (Nat.leb_spec l l); [|lia]. destruct (Nat.ltb_spec l (l + S n)); [|lia]. cbn [andb].
      destruct (Nat.eqb_spec a (U l)) as [->|Ha]; [rewrite set_next_nxt by exact Hl; now rewrite E', Hx|now rewrite set_next_other by auto].
    + rewrite !set_next_other by auto.
      destruct (Nat.leb_spec (S l) k), (Nat.leb_spec l k); try lia; cbn [andb]; try reflexivity.
      destruct (Nat.ltb_spec k (S l + n)), (Nat.ltb_spec k (l + S n)); try lia; reflexivity.
Qed.

(* ---- paths ---- *)
Fixpoint path (h : nat -> node) (l a : nat) (xs : list nat) : Prop :=
  match xs with [] => nxt h l a = Some tail | x :: xs' => nxt h l a = Some x /\ path h l x xs' end.
Lemma path_suffix h l p : forall a q, path h l a (p ++ q) -> path h l (List.last p a) q.
Proof. induction p as [|x p IH]; intros a q; [auto|]. rewrite last_cons. cbn. intros [_ H]. now apply IH. Qed.
Lemma path_ext h h' l xs : forall a, (forall x, In x (a :: xs) -> nxt h' l x = nxt h l x) -> path h l a xs -> path h' l a xs.
Proof.
  induction xs as [|x xs IH]; intros a H; cbn.
  - now rewrite H by now left.
  - intros [A B]. rewrite H by now left. split; [exact A|]. apply IH; [|exact B]. intros y Hy. apply H. now right.
Qed.
Lemma path_insert h h' l c q : forall p a, NoDup (a :: p ++ q) -> path h l a (p ++ q) -> ~ In c (a :: p ++ q) ->
  nxt h' l (List.last p a) = Some c -> nxt h' l c = nxt h l (List.last p a) ->
  (forall x, x <> c -> x <> List.last p a -> nxt h' l x = nxt h l x) -> path h' l a (p ++ c :: q).
Proof.
  induction p as [|x p IH]; intros a Hn Hp Hc H1 H2 H3.
  - cbn in *. split; [exact H1|]. assert (X : path h' l c q); [|exact X].
    assert (Y : forall x, In x q -> nxt h' l x = nxt h l x).
    { intros x Hx. apply H3; [intros ->; tauto|]. intros ->. inversion Hn; contradiction. }
    destruct q as [|y q]; cbn in *; [congruence|]. destruct Hp as [Hp Hq]. split; [congruence|]. eapply path_ext; [|exact Hq]. exact Y.
  - rewrite last_cons in *. cbn [app path] in *. destruct Hp as [Hp Hq].
    assert (Ha : a <> List.last p x). { intros ->. inversion Hn as [|? ? Hn1 Hn2]; subst. apply Hn1. cbn. destruct (last_in p x) as [E|E]; [now left|right; apply in_app_iff; auto]. }
    split. { rewrite H3; [exact Hp| |exact Ha]. intros ->. apply Hc. now left. }
    apply IH; auto. { now inversion Hn. } intros X. apply Hc. now right.
Qed.
Lemma path_remove h h' l n q : forall p a, NoDup (a :: p ++ n :: q) -> path h l a (p ++ n :: q) ->
  nxt h' l (List.last p a) = nxt h l n -> (forall x, x <> List.last p a -> nxt h' l x = nxt h l x) -> path h' l a (p ++ q).
Proof.
  induction p as [|x p IH]; intros a Hn Hp H1 H2.
  - cbn in *. destruct Hp as [_ Hp]. assert (Y : forall x, In x q -> nxt h' l x = nxt h l x).
    { intros x Hx. apply H2. intros ->. inversion Hn as [|? ? X _]; subst. apply X. now right. }
    destruct q as [|y q]; cbn in *; [congruence|]. destruct Hp as [Hp Hq]. split; [congruence|]. eapply path_ext; [|exact Hq]. exact Y.
  - rewrite last_cons in *. cbn [app path] in *. destruct Hp as [Hp Hq].
    assert (Ha : a <> List.last p x). { intros ->. inversion Hn as [|? ? Hn1 Hn2]; subst. apply Hn1. cbn. destruct (last_in p x) as [E|E]; [now left|right; apply in_app_iff; auto]. }
    split; [now rewrite H2|]. apply IH; auto. now inversion Hn.
Qed.
Lemma path_nxt h l p : forall a n q, path h l a (p ++ n :: q) -> nxt h l (List.last p a) = Some n.
Proof. induction p as [|x p IH]; intros a n q; [now intros [? _]|]. rewrite last_cons. intros [_ H]. eapply IH; exact H. Qed.
Lemma path_end h l p : forall a, path h l a p -> nxt h l (List.last p a) = Some tail.
Proof. induction p as [|x p IH]; intros a; [auto|]. rewrite last_cons. intros [_ H]. now apply IH. Qed.

(* ---- the walks ---- *)
Definition node_is (h : nat -> node) (a : nat) (m : member) : Prop :=
  n_score (h a) = m_score m /\ n_data (h a) = Some (m_name m) /\ ht h a = m_height m.
(* The test of the walk of insert. *)
Definition behind (h : nat -> node) (a : nat) (s : spec_float) (e : bytes) : res bool :=
  if f_lt (n_score (h a)) s then Ret true
  else if f_eq (n_score (h a)) s then match n_data (h a) with None => Panic | Some d => Ret (lexical_compare d e <? 0)%Z end else Ret false.
Lemma behind_ok h a m s e d : node_is h a m -> proper m -> proper (Member s e d) ->
  exists b, behind h a s e = Ret b /\ (b = true <-> precedes m (Member s e d)).
Proof.
  intros (A & B & _) (P1 & P2 & _) (Q1 & Q2 & _). cbn [m_score m_name] in Q1, Q2. unfold behind. rewrite A, B. unfold f_lt, f_eq, SFltb, SFeqb, precedes. cbn [m_score m_name].
  destruct (lexical_compare_spec (m_name m) e) as (L & _ & _); [split; intros; contradiction|].
  destruct (SFcompare (m_score m) s) as [[| |]|] eqn:E.
  - eexists. split; [reflexivity|]. rewrite Z.ltb_lt, L. intuition discriminate.
  - exists true. intuition discriminate.
  - exists false. split; [reflexivity|]. intuition discriminate.
  - exfalso. destruct (m_score m), s; cbn in *; congruence.
Qed.
Lemma seek_unfold f h l s e cur r : seek (S f) h l s e cur r =
  (let! (nx, span) := at_ h cur l in if nx =? tail then Ret (cur, r) else let! b := behind h nx s e in if b then seek f h l s e nx (r + span)%Z else Ret (cur, r)).
Proof.
  cbn [seek]. unfold behind. destruct (at_ h cur l) as [[nx sp]| |]; cbn [rbind]; try reflexivity. destruct (nx =? tail); [reflexivity|].
  destruct (f_lt _ _); [reflexivity|]. destruct (f_eq _ _); [|reflexivity]. destruct (n_data _); reflexivity.
Qed.
Definition goes (h : nat -> node) (s : spec_float) (e : bytes) (b : bool) (a : nat) : Prop := a <> tail /\ behind h a s e = Ret b.
Lemma seek_ok h l s e q : match q with [] => True | y :: _ => goes h s e false y end -> forall p cur r fuel, path h l cur (p ++ q) ->
  Forall (goes h s e true) p -> List.length p < fuel -> exists r', seek fuel h l s e cur r = Ret (List.last p cur, r').
Proof.
  intros Hq. induction p as [|x p IH]; intros cur r fuel Hp Ha Hf; destruct fuel as [|fuel]; try (cbn in Hf; lia); rewrite seek_unfold.
  - cbn [app] in Hp. destruct q as [|y q]; cbn [path] in Hp.
    + destruct (at_some _ _ _ _ Hp) as (sp & ->). cbn. eauto.
    + destruct Hp as [Hp _]. destruct (at_some _ _ _ _ Hp) as (sp & ->). cbn [rbind]. destruct Hq as [Hy ->].
      destruct (Nat.eqb_spec y tail); [contradiction|]. cbn. eauto.
  - cbn [app path] in Hp. destruct Hp as [Hp Hp']. inversion Ha as [|? ? [Hx Hb] Ha']; subst. destruct (at_some _ _ _ _ Hp) as (sp & ->). cbn [rbind].
    destruct (Nat.eqb_spec x tail); [contradiction|]. rewrite Hb. cbn [rbind]. rewrite last_cons. apply IH; auto. cbn in Hf. lia.
Qed.
Definition tall (h : nat -> node) (l a : nat) : bool := l <? ht h a.
(* The last of the nodes on level l before the place. *)
Definition left_of (h : nat -> node) (B : list nat) (l : nat) : nat := List.last (List.filter (tall h l) B) head.
Lemma left_split h B l : exists p1 p2, List.filter (tall h l) B = p1 ++ p2 /\ List.last p1 head = left_of h B (S l).
Proof.
  unfold left_of. destruct (last_in (List.filter (tall h (S l)) B) head) as [E|E].
  - exists [], (List.filter (tall h l) B). split; [reflexivity|]. exact E.
  - apply filter_In in E as [E1 E2]. assert (In (List.last (List.filter (tall h (S l)) B) head) (List.filter (tall h l) B)) as X.
    { apply filter_In. split; [exact E1|]. unfold tall in *. apply Nat.ltb_lt in E2. apply Nat.ltb_lt. lia. }
    apply in_split in X as (p1 & p2 & X). exists (p1 ++ [List.last (List.filter (tall h (S l)) B) head]), p2. rewrite <- app_assoc. split; [exact X|].
    rewrite last_app. reflexivity.
Qed.
Lemma left_of_in h B l : In (left_of h B l) (head :: List.filter (tall h l) B).
Proof. apply last_in. Qed.
Lemma filter_le {A} (f : A -> bool) l : List.length (List.filter f l) <= List.length l.
Proof. induction l as [|x l IH]; cbn; [lia|]. destruct (f x); cbn; lia. Qed.
Lemma Forall_filter' {A} (P : A -> Prop) f l : Forall P l -> Forall P (List.filter f l).
Proof. rewrite !Forall_forall. intros H x Hx. apply filter_In in Hx as [Hx _]. auto. Qed.
Lemma descend_ok h s e B C fuel : Forall (goes h s e true) B -> Forall (goes h s e false) C -> List.length B < fuel ->
  forall level cur r, (forall l, l < level -> path h l head (List.filter (tall h l) (B ++ C))) -> cur = left_of h B level ->
  exists us, descend level fuel h s e cur r = Ret us /\ map fst us = map (left_of h B) (seq 0 level) /\ List.length us = level.
Proof.
  intros HB HC Hf. induction level as [|l IH]; intros cur r Hp Hc.
  - exists []. auto.
  - cbn [descend]. destruct (left_split h B l) as (p1 & p2 & E & E').
    specialize (Hp l ltac:(lia)) as Hl. rewrite filter_app, E, <- app_assoc in Hl. apply path_suffix in Hl. rewrite E', <- Hc in Hl.
    destruct (seek_ok h l s e (List.filter (tall h l) C)) with (p := p2) (cur := cur) (r := r) (fuel := fuel) as (r' & X).
    + apply (Forall_filter' _ (tall h l)) in HC. destruct (List.filter (tall h l) C); [exact I|]. now inversion HC.
    + exact Hl.
    + apply (Forall_filter' _ (tall h l)) in HB. rewrite E in HB. now apply Forall_app in HB.
    + pose proof (filter_le (tall h l) B). rewrite E, app_length in H. lia.
    + rewrite X. cbn [rbind]. assert (Y : List.last p2 cur = left_of h B l).
      { rewrite Hc, <- E'. unfold left_of. now rewrite E, last_app. }
      destruct (IH (List.last p2 cur) r') as (us & A & A' & A''); [intros; apply Hp; lia|exact Y|]. rewrite A. cbn [rbind]. eexists. split; [reflexivity|].
      rewrite map_app, A', app_length, A'', seq_S, map_app. cbn. rewrite Y. split; [reflexivity|lia].
Qed.
Lemma reach_ok h l nd q : match q with [] => True | y :: _ => y = nd end -> forall p cur fuel, path h l cur (p ++ q) ->
  Forall (fun a => a <> tail /\ a <> nd) p -> List.length p < fuel -> reach fuel h l nd cur = Ret (List.last p cur).
Proof.
  intros Hq. induction p as [|x p IH]; intros cur fuel Hp Ha Hf; destruct fuel as [|fuel]; try (cbn in Hf; lia); cbn [reach].
  - cbn [app] in Hp. destruct q as [|y q]; cbn [path] in Hp.
    + destruct (at_some _ _ _ _ Hp) as (sp & ->). cbn. reflexivity.
    + destruct Hp as [Hp _]. destruct (at_some _ _ _ _ Hp) as (sp & ->). cbn [rbind]. subst y. rewrite Nat.eqb_refl, orb_true_r. reflexivity.
  - cbn [app path] in Hp. destruct Hp as [Hp Hp']. inversion Ha as [|? ? [Hx Hb] Ha']; subst. destruct (at_some _ _ _ _ Hp) as (sp & ->). cbn [rbind].
    destruct (Nat.eqb_spec x tail); [contradiction|]. destruct (Nat.eqb_spec x nd); [contradiction|]. cbn [orb]. rewrite last_cons. apply IH; auto. cbn in Hf. lia.
Qed.
Lemma fall_ok h nd B C fuel : Forall (fun a => a <> tail /\ a <> nd) (B ++ C) -> (forall a, In a C -> ht h a <= ht h nd) -> List.length B < fuel ->
  forall level cur, (forall l, l < level -> path h l head (List.filter (tall h l) (B ++ nd :: C))) -> cur = left_of h B level ->
  fall level fuel h nd cur = Ret (map (left_of h B) (seq 0 level)).
Proof.
  intros HB HC Hf. induction level as [|l IH]; intros cur Hp Hc.
  - reflexivity.
  - cbn [fall]. destruct (left_split h B l) as (p1 & p2 & E & E').
    specialize (Hp l ltac:(lia)) as Hl. rewrite filter_app, E, <- app_assoc in Hl. apply path_suffix in Hl. rewrite E', <- Hc in Hl.
    rewrite (reach_ok h l nd (List.filter (tall h l) (nd :: C))) with (p := p2); [|..].
    + cbn [rbind]. assert (Y : List.last p2 cur = left_of h B l).
      { rewrite Hc, <- E'. unfold left_of. now rewrite E, last_app. }
      rewrite IH; [|intros; apply Hp; lia|exact Y]. cbn [rbind]. rewrite seq_S, map_app. cbn. now rewrite Y.
    + cbn [List.filter]. destruct (tall h l nd) eqn:T; [reflexivity|]. destruct (List.filter (tall h l) C) as [|y q] eqn:F; [exact I|exfalso].
      assert (In y (List.filter (tall h l) C)) as Hy by (rewrite F; now left). apply filter_In in Hy as [Hy Ty]. apply HC in Hy.
      unfold tall in *. apply Nat.ltb_lt in Ty. apply Nat.ltb_ge in T. lia.
    + exact Hl.
    + apply Forall_app in HB as [HB _]. apply (Forall_filter' _ (tall h l)) in HB. rewrite E in HB. now apply Forall_app in HB.
    + pose proof (filter_le (tall h l) B). rewrite E, app_length in H. lia.
Qed.

(* ---- the invariant ---- *)
Record shape (z : zset) (L : list member) (as_ : list nat) (t : bool) : Prop := {
  sh_sorted : StronglySorted precedes L;
  sh_proper : Forall proper L;
  sh_names : NoDup (map m_name L);
  sh_nodes : Forall2 (node_is (z_heap z)) as_ L;
  sh_distinct : NoDup as_;
  sh_range : Forall (fun a => 2 <= a < z_fresh z) as_;
  sh_head : ht (z_heap z) head = 32;
  sh_tail : ht (z_heap z) tail = 0;
  sh_fresh : 2 <= z_fresh z;
  sh_path : forall l, l < 32 -> path (z_heap z) l head (List.filter (tall (z_heap z) l) as_);
  sh_level : z_level z = tallest L;
  sh_set : Permutation (z_set z) (combine (map m_name L) as_);
  sh_last : t = true -> n_prev (z_heap z tail) = Some (List.last as_ head) }.

Lemma find_none e l : find_key e l = None <-> ~ In e (map fst l).
Proof.
  induction l as [|[k a] l IH]; cbn [find_key map fst In]; [tauto|]. destruct (bytes_eqb e k) eqn:E.
  - apply bytes_eqb_eq in E as ->. split; [discriminate|]. intros H. exfalso. auto.
  - rewrite IH. split; intros H; [intros [->|X]; [|auto]|auto]. assert (bytes_eqb e e = true) by now apply bytes_eqb_eq. congruence.
Qed.
Lemma find_some e a l : NoDup (map fst l) -> (find_key e l = Some a <-> In (e, a) l).
Proof.
  induction l as [|[k b] l IH]; cbn [find_key map fst In]; [now split|]. intros Hn. inversion Hn as [|? ? Hk Hn']; subst. destruct (bytes_eqb e k) eqn:E.
  - apply bytes_eqb_eq in E as ->. split; [intros [= ->]; auto|]. intros [[= ->]|H]; [reflexivity|]. exfalso. apply Hk. apply (in_map fst) in H. exact H.
  - rewrite IH by assumption. split; [auto|]. intros [[= -> ->]|H]; [|auto]. assert (bytes_eqb e e = true) by now apply bytes_eqb_eq. congruence.
Qed.
Lemma drop_perm e a l l' : Permutation l ((e, a) :: l') -> NoDup (map fst l) -> Permutation (drop_key e l) l'.
Proof.
  intros P N. unfold drop_key.
  assert (X : forall q q', Permutation q q' -> Permutation (List.filter (fun e0 : bytes * nat => negb (bytes_eqb e (fst e0))) q) (List.filter (fun e0 => negb (bytes_eqb e (fst e0))) q')).
  { induction 1 as [|y p p' _ IHp|y w p|p1 p2 p3 _ IHp _ IHq]; cbn [List.filter].
    - constructor.
    - destruct (negb _); [now constructor|assumption].
    - destruct (negb (bytes_eqb e (fst y))), (negb (bytes_eqb e (fst w))); try reflexivity. apply perm_swap.
    - now transitivity (List.filter (fun e0 => negb (bytes_eqb e (fst e0))) p2). }
  rewrite (X _ _ P). cbn [List.filter fst]. assert (E : bytes_eqb e e = true) by now apply bytes_eqb_eq. rewrite E. cbn [negb].
  apply (Permutation_map fst) in P. apply (Permutation_NoDup P) in N. cbn [map fst] in N. inversion N as [|? ? Hn _]; subst.
  clear -Hn. induction l' as [|[k b] l' IH]; cbn [List.filter fst]; [reflexivity|]. cbn [map fst In] in Hn.
  destruct (bytes_eqb e k) eqn:Ek; [apply bytes_eqb_eq in Ek as ->; exfalso; auto|]. cbn [negb]. constructor. apply IH. auto.
Qed.
Lemma combine_app {A B} (a b : list A) (c d : list B) : List.length a = List.length c -> combine (a ++ b) (c ++ d) = combine a c ++ combine b d.
Proof. revert c. induction a as [|x a IH]; intros [|y c] H; cbn in *; try discriminate; [reflexivity|]. f_equal. apply IH. lia. Qed.
Lemma map_fst_combine {A B} (a : list A) (c : list B) : List.length a = List.length c -> map fst (combine a c) = a.
Proof. revert c. induction a as [|x a IH]; intros [|y c] H; cbn in *; try discriminate; [reflexivity|]. f_equal. apply IH. lia. Qed.
Lemma ss_app {A} (R : A -> A -> Prop) l1 l2 : StronglySorted R (l1 ++ l2) <-> StronglySorted R l1 /\ StronglySorted R l2 /\ forall x y, In x l1 -> In y l2 -> R x y.
Proof.
  induction l1 as [|a l1 IH]; cbn.
  - split; [intros H; repeat split; auto; [constructor|contradiction]|tauto].
  - split.
    + inversion 1 as [|? ? H1 H2]; subst. apply IH in H1 as (A1 & A2 & A3). apply Forall_app in H2 as [B1 B2]. repeat split; auto; [now constructor|].
      intros x y [<-|Hx] Hy; [|auto]. rewrite Forall_forall in B2. auto.
    + intros (A1 & A2 & A3). inversion A1; subst. constructor; [apply IH; repeat split; auto|]. apply Forall_app. split; [assumption|]. apply Forall_forall. auto.
Qed.
Lemma proper_num x : proper x -> num x. Proof. now intros (H & _). Qed.
Lemma sorted_split L x : StronglySorted precedes L -> Forall proper L -> num x -> ~ In (m_name x) (map m_name L) ->
  exists L1 L2, L = L1 ++ L2 /\ Forall (fun y => precedes y x) L1 /\ Forall (precedes x) L2.
Proof.
  intros S P X. induction L as [|y L IH]; intros N.
  - exists [], []. auto.
  - inversion S as [|? ? S1 S2]; subst. inversion P as [|? ? P1 P2]; subst. cbn in N.
    destruct (precedes_total y x) as [H|H]; [now apply proper_num|exact X|intros E; apply N; auto|..].
    + destruct IH as (L1 & L2 & -> & H1 & H2); auto. exists (y :: L1), L2. repeat split; auto.
    + exists [], (y :: L). repeat split; auto. constructor; [exact H|]. rewrite Forall_forall in *. intros w Hw.
      apply precedes_trans with y; auto; apply proper_num; auto.
Qed.
Lemma tallest_perm L L' : Permutation L L' -> tallest L = tallest L'.
Proof. unfold tallest. induction 1; cbn; lia. Qed.
Lemma tallest_ge L x : In x L -> m_height x <= tallest L.
Proof. unfold tallest. induction L as [|y L IH]; cbn; [contradiction|]. intros [->|H]; [lia|]. specialize (IH H). lia. Qed.
Lemma tallest_pos L : 1 <= tallest L.
Proof. unfold tallest. induction L; cbn; lia. Qed.
Lemma tallest_le L n : 1 <= n -> (forall x, In x L -> m_height x <= n) -> tallest L <= n.
Proof. unfold tallest. induction L as [|x L IH]; cbn; intros H A; [lia|]. pose proof (A x (or_introl eq_refl)). assert (fold_right (fun x m => Nat.max (m_height x) m) 1 L <= n) by (apply IH; auto). lia. Qed.
Lemma tallest_32 L : Forall proper L -> tallest L <= 32.
Proof. intros H. apply tallest_le; [lia|]. rewrite Forall_forall in H. intros x Hx. apply H in Hx as (_ & _ & ?). lia. Qed.
Lemma forall2_in {A B} (R : A -> B -> Prop) l l' a : Forall2 R l l' -> In a l -> exists b, In b l' /\ R a b.
Proof. induction 1 as [|x y l l' Hxy _ IH]; cbn; [contradiction|]. intros [->|H]; [eauto|]. destruct (IH H) as (b & ? & ?). eauto. Qed.
Lemma filter_nil {A} (f : A -> bool) l : (forall x, In x l -> f x = false) -> List.filter f l = [].
Proof. induction l as [|x l IH]; cbn; [reflexivity|]. intros H. rewrite H by auto. apply IH. auto. Qed.
Lemma left_of_top h as_ L B C l : Forall2 (node_is h) as_ L -> as_ = B ++ C -> tallest L <= l -> left_of h B l = head.
Proof.
  intros F -> H. unfold left_of. rewrite filter_nil; [reflexivity|]. intros a Ha. unfold tall. apply Nat.ltb_ge.
  destruct (forall2_in _ _ _ a F) as (m & Hm & (_ & _ & ->)); [apply in_app_iff; auto|]. apply tallest_ge in Hm. lia.
Qed.
Lemma set_prev_nxt h a p l b : nxt (set_prev h a p) l b = nxt h l b.
Proof. unfold nxt, set_prev, upd. destruct (Nat.eqb_spec b a) as [->|]; reflexivity. Qed.
Lemma set_prev_ht h a p b : ht (set_prev h a p) b = ht h b.
Proof. unfold ht, set_prev, upd. destruct (Nat.eqb_spec b a) as [->|]; reflexivity. Qed.
Lemma set_prev_keeps h a p b : n_score (set_prev h a p b) = n_score (h b) /\ n_data (set_prev h a p b) = n_data (h b).
Proof. unfold set_prev, upd. destruct (Nat.eqb_spec b a) as [->|]; auto. Qed.
Lemma set_prev_prev h a p b : n_prev (set_prev h a p b) = if b =? a then p else n_prev (h b).
Proof. unfold set_prev, upd. destruct (Nat.eqb_spec b a) as [->|]; reflexivity. Qed.

Lemma forall2_length {A B} (R : A -> B -> Prop) l l' : Forall2 R l l' -> List.length l = List.length l'.
Proof. induction 1; cbn; congruence. Qed.
Lemma nth_error_skip {A} n : forall (l : list A) i, nth_error (List.skipn n l) i = nth_error l (n + i).
Proof. induction n as [|n IH]; intros [|x l] i; try reflexivity; [now destruct i|]. apply IH. Qed.
Lemma insert_ok z L as_ t s e d : shape z L as_ t -> ~ In e (map m_name L) -> proper (Member s e d) ->
  exists z' L1 L2 as', L = L1 ++ L2 /\ Forall (fun y => precedes y (Member s e d)) L1 /\ Forall (precedes (Member s e d)) L2 /\
    insert z s e d = Ret z' /\ forall t', (t' = true -> L2 = [] \/ t = true) -> shape z' (L1 ++ Member s e (Nat.max (tallest L) d) :: L2) as' t'.
Proof.
  intros S He Hx. destruct (sorted_split L (Member s e d)) as (L1 & L2 & EL & H1 & H2); [apply S|apply S|now apply proper_num|exact He|].
  pose proof (sh_nodes _ _ _ _ S) as F. rewrite EL in F. apply Forall2_app_inv_r in F as (B & C & FB & FC & Eas).
  set (h := z_heap z) in *. set (c := z_fresh z) in *.
  assert (Hr : forall a, In a (B ++ C) -> 2 <= a < c). { pose proof (sh_range _ _ _ _ S) as R. rewrite Eas, Forall_forall in R. exact R. }
  assert (Hprop : forall y, In y L -> proper y). { pose proof (sh_proper _ _ _ _ S) as R. rewrite Forall_forall in R. exact R. }
  assert (GB : Forall (goes h s e true) B).
  { apply Forall_forall. intros a Ha. destruct (forall2_in _ _ _ a FB Ha) as (m & Hm & Nm). split; [specialize (Hr a ltac:(apply in_app_iff; auto)); unfold tail; lia|].
    destruct (behind_ok h a m s e d Nm) as (b & E & Eb); [apply Hprop; rewrite EL; apply in_app_iff; auto|exact Hx|].
    rewrite Forall_forall in H1. now rewrite E, (proj2 Eb (H1 m Hm)). }
  assert (GC : Forall (goes h s e false) C).
  { apply Forall_forall. intros a Ha. destruct (forall2_in _ _ _ a FC Ha) as (m & Hm & Nm). split; [specialize (Hr a ltac:(apply in_app_iff; auto)); unfold tail; lia|].
    assert (Pm : proper m) by (apply Hprop; rewrite EL; apply in_app_iff; auto).
    destruct (behind_ok h a m s e d Nm Pm Hx) as (b & E & Eb).
    rewrite Forall_forall in H2. specialize (H2 m Hm). destruct b; [|exact E]. exfalso.
    apply (precedes_irrefl m); [now apply proper_num|]. apply precedes_trans with (Member s e d); try (now apply proper_num); [now apply Eb|exact H2]. }
  assert (Hlev : z_level z = tallest L) by apply S. pose proof (tallest_pos L) as T1. pose proof (tallest_32 L (sh_proper _ _ _ _ S)) as T32.
  destruct Hx as (Hx1 & Hx2 & Hx3). cbn [m_score m_name m_height] in Hx1, Hx2, Hx3.
  assert (HlenB : List.length B <= c).
  { assert (N : NoDup as_) by apply S. rewrite Eas in N. apply NoDup_incl_length with (l' := seq 0 c) in N.
    - rewrite seq_length, app_length in N. lia.
    - intros a Ha. apply in_seq. specialize (Hr a Ha). lia. }
  assert (Hpath : forall l, l < 32 -> path h l head (List.filter (tall h l) (B ++ C))). { intros l Hl. rewrite <- Eas. now apply S. }
  destruct (descend_ok h s e B C (Datatypes.S c) GB GC ltac:(lia) (tallest L) head 0%Z) as (us & D1 & D2 & D3).
  { intros l Hl. apply Hpath. lia. } { symmetry. eapply left_of_top; [apply S|exact Eas|lia]. }
  destruct (raise_ok (d - tallest L) (tallest L) h (z_len z)) as (h1 & R1 & A1). { unfold h. rewrite (sh_head _ _ _ _ S). lia. }
  set (us' := us ++ List.repeat (head, 0%Z) (d - tallest L)).
  set (M := Nat.max (tallest L) d).
  assert (Lus : List.length us' = M). { unfold us', M. rewrite app_length, repeat_length. lia. }
  assert (Mus : map fst us' = map (left_of h B) (seq 0 (List.length us'))).
  { rewrite Lus. replace M with (tallest L + (d - tallest L)) by (unfold M; lia). rewrite seq_app, map_app. unfold us'. rewrite map_app, D2. f_equal. cbn [Nat.add].
    assert (X : forall k l, tallest L <= l -> map fst (List.repeat (head, 0%Z) k) = map (left_of h B) (seq l k)).
    { induction k as [|k IH]; intros l Hl; [reflexivity|]. cbn [List.repeat map seq]. rewrite (left_of_top h as_ L B C l (sh_nodes _ _ _ _ S) Eas Hl). f_equal. apply IH. lia. }
    apply X. lia. }
  set (h1' := upd h1 c (Node s (Some e) [] None)).
  assert (Hh1 : forall a, a <> c -> h1' a = h1 a). { intros a Ha. unfold h1'. now apply upd_ne. }
  destruct A1 as (As & Ah & An).
  assert (HU : forall k, left_of h B k <> c /\ (k < 32 -> k < ht h (left_of h B k))).
  { intros k. destruct (left_of_in h B k) as [E|E].
    - rewrite <- E. pose proof (sh_fresh _ _ _ _ S). split; [unfold head, c; lia|]. intros. unfold h. rewrite (sh_head _ _ _ _ S). lia.
    - apply filter_In in E as [E1 E2]. specialize (Hr (left_of h B k) ltac:(apply in_app_iff; auto)). split; [lia|]. intros _. now apply Nat.ltb_lt in E2. }
  destruct us' as [|u0 us''] eqn:Eus; [cbn in Lus; unfold M in Lus; lia|]. rewrite <- Eus in *.
  destruct (link_ok (left_of h B) c (snd u0) us' 0 h1' Mus) as (h2 & K1 & K2 & K3 & K4 & K5 & K6).
  { unfold ht, h1'. now rewrite upd_eq. }
  { intros k Hk. destruct (HU k) as [U1 U2]. split; [exact U1|]. unfold ht. rewrite Hh1 by exact U1. change (List.length (n_next (h1 (left_of h B k)))) with (ht h1 (left_of h B k)).
    rewrite Ah. apply U2. unfold M in Lus. lia. }
  assert (H1n : forall k a, a <> c -> nxt h1' k a = nxt h k a). { intros k a Ha. unfold nxt. rewrite Hh1 by exact Ha. apply An. }
  assert (H1h : forall a, a <> c -> ht h1' a = ht h a). { intros a Ha. unfold ht. rewrite Hh1 by exact Ha. apply Ah. }
  destruct (bump_ok (List.skipn d us') d h2) as (h3 & M1 & (M2 & M3 & M4)).
  { intros i u r Hi. rewrite nth_error_skip in Hi. assert (E : nth_error (map fst us') (d + i) = Some u) by (rewrite nth_error_map, Hi; reflexivity).
    rewrite Mus, nth_error_map in E. destruct (nth_error (seq 0 (List.length us')) (d + i)) as [k|] eqn:Ek; [|discriminate]. injection E as <-.
    assert (d + i < List.length us') by (apply nth_error_Some; rewrite Hi; discriminate).
    rewrite (nth_error_nth' _ 0) in Ek by now rewrite seq_length. injection Ek as <-. rewrite seq_nth by assumption. cbn [Nat.add].
    destruct (HU (d + i)) as [U1 U2]. rewrite K4, H1h by exact U1. apply U2. unfold M in Lus. lia. }
  assert (HM : M <= 32) by (unfold M; lia).
  (* the links of the new heap *)
  assert (N3 : forall k a, a <> c -> nxt h3 k a = if (k <? M) && (a =? left_of h B k) then Some c else nxt h k a).
  { intros k a Ha. rewrite M4, K5, H1n, Lus by exact Ha. reflexivity. }
  assert (N3c : forall k, nxt h3 k c = if k <? M then nxt h k (left_of h B k) else None).
  { intros k. rewrite M4, K6, Lus. change (0 + M) with M. change (k <? 0) with false. destruct (k <? M); [|reflexivity]. apply H1n, HU. }
  assert (T3 : forall a, a <> c -> ht h3 a = ht h a). { intros a Ha. rewrite M3, K4, H1h by exact Ha. reflexivity. }
  assert (T3c : ht h3 c = M). { rewrite M3, K3, Lus. reflexivity. }
  destruct (at_nxt (set_prev h3 c (Some (fst u0))) 0 c) as (sc & sp & Asc & Nsc). { rewrite set_prev_ht, T3c. unfold M. lia. }
  rewrite set_prev_nxt, N3c in Nsc. destruct (Nat.ltb_spec 0 M); [|unfold M in *; lia].
  set (h5 := set_prev (set_prev h3 c (Some (fst u0))) sc (Some c)).
  exists (ZSet h5 (Datatypes.S c) M ((e, c) :: z_set z)), L1, L2, (B ++ c :: C). split; [exact EL|]. split; [exact H1|]. split; [exact H2|]. split.
  - unfold insert. assert (find_key e (z_set z) = None) as ->.
    { apply find_none. intros X. apply (Permutation_in _ (Permutation_map fst (sh_set _ _ _ _ S))) in X.
      rewrite map_fst_combine in X; [contradiction|]. rewrite map_length. symmetry. eapply forall2_length. apply S. }
    rewrite Hlev. fold h c. rewrite D1. cbn [rbind]. rewrite R1. cbn [rbind]. fold us'.
    assert (match us' with [] => Panic | u :: _ => Ret u end = Ret u0) as -> by now rewrite Eus. cbn [rbind]. fold h1'. rewrite K1. cbn [rbind]. rewrite M1. cbn [rbind].
    rewrite Asc. reflexivity.
  - intros t' Ht.
    assert (N5 : forall k a, nxt h5 k a = nxt h3 k a) by (intros; unfold h5; now rewrite !set_prev_nxt).
    assert (T5 : forall a, ht h5 a = ht h3 a) by (intros; unfold h5; now rewrite !set_prev_ht).
    assert (V5 : forall a, a <> c -> n_score (h5 a) = n_score (h a) /\ n_data (h5 a) = n_data (h a)).
    { intros a Ha. unfold h5. destruct (set_prev_keeps (set_prev h3 c (Some (fst u0))) sc (Some c) a) as [-> ->]. destruct (set_prev_keeps h3 c (Some (fst u0)) a) as [-> ->].
      destruct (M2 a) as (-> & -> & _). destruct (K2 a) as (-> & -> & _). rewrite Hh1 by exact Ha. destruct (As a) as (-> & -> & _). auto. }
    assert (V5c : n_score (h5 c) = s /\ n_data (h5 c) = Some e).
    { unfold h5. destruct (set_prev_keeps (set_prev h3 c (Some (fst u0))) sc (Some c) c) as [-> ->]. destruct (set_prev_keeps h3 c (Some (fst u0)) c) as [-> ->].
      destruct (M2 c) as (-> & -> & _). destruct (K2 c) as (-> & -> & _). unfold h1'. rewrite upd_eq. auto. }
    assert (Hc : forall a, In a (B ++ C) -> a <> c) by (intros a Ha; specialize (Hr a Ha); lia).
    assert (Hk : forall a m, In a (B ++ C) -> node_is h a m -> node_is h5 a m).
    { intros a m Ha (X1 & X2 & X3). specialize (Hc a Ha). destruct (V5 a Hc) as [Y1 Y2]. repeat split; [congruence|congruence|]. now rewrite T5, T3. }
    assert (Hf : forall l B', incl B' (B ++ C) -> List.filter (tall h5 l) B' = List.filter (tall h l) B').
    { intros l B' Hi. apply filter_ext_in. intros a Ha. unfold tall. now rewrite T5, T3 by (apply Hc, Hi, Ha). }
    assert (N : NoDup as_) by apply S. rewrite Eas in N.
    constructor; cbn [z_heap z_fresh z_level z_set].
    + assert (So := sh_sorted _ _ _ _ S). rewrite EL in So. apply ss_app in So as (So1 & So2 & So3). rewrite Forall_forall in H1, H2. apply ss_app. split; [exact So1|]. split.
      * constructor; [exact So2|]. apply Forall_forall. exact H2.
      * intros x y Hxx [<-|Hy]; [now apply H1|]. now apply So3.
    + assert (P := sh_proper _ _ _ _ S). rewrite EL in P. apply Forall_app in P as [P1 P2]. apply Forall_app. split; [exact P1|]. constructor; [|exact P2].
      split; [exact Hx1|]. split; [exact Hx2|]. cbn. unfold M in HM. lia.
    + rewrite map_app. cbn [map m_name]. apply NoDup_Add with (a := e) (l := map m_name L); [|split; [apply S|exact He]]. rewrite EL, map_app. apply Add_app.
    + apply Forall2_app.
      * clear -FB Hk. assert (X : forall a m, In a B -> node_is h a m -> node_is h5 a m) by (intros; apply Hk; auto; apply in_app_iff; auto).
        clear Hk. induction FB; constructor; [apply X; [now left|assumption]|]. apply IHFB. intros; apply X; auto. now right.
      * constructor; [destruct V5c; repeat split; cbn; auto; now rewrite T5, T3c|]. clear -FC Hk. assert (X : forall a m, In a C -> node_is h a m -> node_is h5 a m) by (intros; apply Hk; auto; apply in_app_iff; auto).
        clear Hk. induction FC; constructor; [apply X; [now left|assumption]|]. apply IHFC. intros; apply X; auto. now right.
    + apply NoDup_Add with (a := c) (l := B ++ C); [apply Add_app|]. split; [exact N|]. intros X. now apply (Hc c).
    + apply Forall_forall. intros a Ha. assert (a = c \/ In a (B ++ C)) as [->|Ha'].
      { apply in_app_iff in Ha as [Ha|[->|Ha]]; auto; right; apply in_app_iff; auto. }
      * pose proof (sh_fresh _ _ _ _ S). unfold c. lia.
      * specialize (Hr a Ha'). lia.
    + rewrite T5, T3; [apply S|]. pose proof (sh_fresh _ _ _ _ S). unfold head, c. lia.
    + rewrite T5, T3; [apply S|]. pose proof (sh_fresh _ _ _ _ S). unfold tail, c. lia.
    + pose proof (sh_fresh _ _ _ _ S). unfold c. lia.
    + intros l Hl. rewrite filter_app, Hf by (apply incl_appl, incl_refl). cbn [List.filter].
      assert (tall h5 l c = (l <? M)) as -> by (unfold tall; now rewrite T5, T3c).
      specialize (Hpath l Hl). rewrite filter_app in Hpath.
      assert (ND : NoDup (head :: List.filter (tall h l) B ++ List.filter (tall h l) C)).
      { constructor; [|rewrite <- filter_app; now apply NoDup_filter]. rewrite <- filter_app. intros X. apply filter_In in X as [X _]. apply Hr in X. unfold head in X. lia. }
      assert (NI : ~ In c (head :: List.filter (tall h l) B ++ List.filter (tall h l) C)).
      { rewrite <- filter_app. intros [X|X]; [pose proof (sh_fresh _ _ _ _ S); unfold head, c in *; lia|]. apply filter_In in X as [X _]. now apply (Hc c). }
      destruct (Nat.ltb_spec l M) as [Hm|Hm].
      * rewrite Hf by (apply incl_appr, incl_refl). apply path_insert with (h := h); auto.
        -- rewrite N5, N3 by apply HU. fold (left_of h B l). destruct (Nat.ltb_spec l M); [|lia]. now rewrite Nat.eqb_refl.
        -- rewrite N5, N3c. destruct (Nat.ltb_spec l M); [reflexivity|lia].
        -- intros x Hxc Hxu. rewrite N5, N3 by exact Hxc. destruct (Nat.eqb_spec x (left_of h B l)); [contradiction|]. now rewrite andb_false_r.
      * rewrite Hf by (apply incl_appr, incl_refl). apply path_ext with (h := h); [|exact Hpath]. intros x Hxx. rewrite N5, N3; [destruct (Nat.ltb_spec l M); [lia|reflexivity]|].
        intros ->. contradiction.
    + unfold tallest. rewrite fold_right_app. cbn [fold_right m_height]. change (fold_right (fun x n => Nat.max (m_height x) n) 1 L2) with (tallest L2).
      unfold M. clear -EL. assert (X : forall n, fold_right (fun x n => Nat.max (m_height x) n) n L1 = Nat.max n (fold_right (fun x n => Nat.max (m_height x) n) 0 L1)).
      { clear EL. induction L1 as [|y L1' IH]; intros n; cbn; [lia|]. rewrite IH. lia. }
      rewrite X. rewrite EL. unfold tallest. rewrite fold_right_app, X. lia.
    + rewrite map_app. cbn [map m_name]. rewrite combine_app by (rewrite map_length; symmetry; eapply forall2_length; exact FB). cbn [combine].
      apply Permutation_cons_app. rewrite (sh_set _ _ _ _ S), EL, Eas, map_app, combine_app by (rewrite map_length; symmetry; eapply forall2_length; exact FB). reflexivity.
    + intros Et. unfold h5. rewrite set_prev_prev. destruct C as [|c1 C'].
      * assert (sc = tail) as ->. { rewrite app_nil_r in Hpath. specialize (Hpath 0 ltac:(lia)). apply path_end in Hpath. fold (left_of h B 0) in Hpath. congruence. }
        rewrite Nat.eqb_refl. now rewrite last_app.
      * assert (sc = c1) as ->.
        { specialize (Hpath 0 ltac:(lia)). rewrite filter_app in Hpath. inversion FC as [|? m ? ? Fm]; subst. cbn [List.filter] in Hpath.
          assert (tall h 0 c1 = true) as T0.
          { unfold tall. destruct Fm as (_ & _ & ->). apply Nat.ltb_lt. assert (proper m) as (_ & _ & ?) by (apply Hprop; apply in_app_iff; right; now left). lia. }
          rewrite T0 in Hpath. apply path_nxt in Hpath. fold (left_of h B 0) in Hpath. congruence. }
        destruct (Nat.eqb_spec tail c1) as [E|_]. { exfalso. specialize (Hr c1). rewrite <- E in Hr. unfold tail in Hr. assert (In 1 (B ++ 1 :: C')) by (apply in_app_iff; right; now left). unfold tail in E. subst c1. specialize (Hr H0). lia. }
        rewrite set_prev_prev. destruct (Nat.eqb_spec tail c) as [E|_]. { pose proof (sh_fresh _ _ _ _ S). unfold tail, c in E. lia. }
        destruct (M2 tail) as (_ & _ & ->). destruct (K2 tail) as (_ & _ & ->). rewrite Hh1 by (pose proof (sh_fresh _ _ _ _ S); unfold tail, c; lia).
        destruct (As tail) as (_ & _ & ->). destruct (Ht Et) as [X|X]; [inversion FC; subst; discriminate|].
        unfold h. rewrite (sh_last _ _ _ _ S X), Eas, !last_app, !last_cons. reflexivity.
Qed.
Lemma tallest_app L1 L2 : tallest (L1 ++ L2) = Nat.max (tallest L1) (tallest L2).
Proof. pose proof (tallest_pos L2) as H. unfold tallest in *. induction L1 as [|x L1 IH]; cbn [app fold_right]; lia. Qed.
Lemma lower_ok h as_ L : Forall2 (node_is h) as_ L -> ht h tail = 0 -> (forall l, l < 32 -> path h l head (List.filter (tall h l) as_)) ->
  forall level, 1 <= level <= 32 -> tallest L <= level -> lower h level = Ret (tallest L).
Proof.
  intros F H P. induction level as [|l IH]; intros Hl Ht; [lia|]. pose proof (tallest_pos L). destruct l as [|l].
  - cbn. f_equal. lia.
  - change (lower h (S (S l))) with (let! (nx, _) := at_ h head (S l) in if nx =? tail then lower h (S l) else Ret (S (S l))).
    specialize (P (S l) ltac:(lia)). destruct (List.filter (tall h (S l)) as_) as [|a q] eqn:E.
    + cbn in P. destruct (at_some _ _ _ _ P) as (sp & ->). cbn [rbind]. rewrite Nat.eqb_refl. apply IH; [lia|]. apply tallest_le; [lia|].
      intros x Hx. assert (X : exists a, In a as_ /\ node_is h a x).
      { clear -F Hx. induction F as [|a y as_ L Fa _ IH]; [contradiction|]. destruct Hx as [->|Hx]; [exists a; split; [now left|exact Fa]|]. destruct (IH Hx) as (b & ? & ?). exists b. split; [now right|assumption]. }
      destruct X as (a & Ha & (_ & _ & E1)). destruct (Nat.le_gt_cases (m_height x) (S l)); [assumption|].
      assert (In a (List.filter (tall h (S l)) as_)) as X by (apply filter_In; split; [exact Ha|]; apply Nat.ltb_lt; lia). rewrite E in X. contradiction.
    + cbn in P. destruct P as [P _]. destruct (at_some _ _ _ _ P) as (sp & ->). cbn [rbind].
      assert (In a (List.filter (tall h (S l)) as_)) as Ha by (rewrite E; now left). apply filter_In in Ha as [Ha Ta]. apply Nat.ltb_lt in Ta.
      destruct (forall2_in _ _ _ a F Ha) as (m & Hm & (_ & _ & Em)). apply tallest_ge in Hm.
      destruct (Nat.eqb_spec a tail) as [->|_]; [lia|]. f_equal. lia.
Qed.
Lemma forall2_split {A B} (R : A -> B -> Prop) l1 a l2 m1 b m2 : Forall2 R (l1 ++ a :: l2) (m1 ++ b :: m2) -> List.length l1 = List.length m1 ->
  Forall2 R l1 m1 /\ R a b /\ Forall2 R l2 m2.
Proof.
  revert m1. induction l1 as [|x l1 IH]; intros [|y m1] H E; cbn in *; try discriminate; inversion H; subst; [auto|].
  destruct (IH m1) as (? & ? & ?); auto.
Qed.
Lemma forall2_impl_in {A B} (R R' : A -> B -> Prop) l m : (forall a b, In a l -> R a b -> R' a b) -> Forall2 R l m -> Forall2 R' l m.
Proof. intros H F. induction F as [|a b l m Fa F IH]; constructor; [apply H; auto; now left|]. apply IH. intros. apply H; auto. now right. Qed.
Lemma delete_ok z L1 x L2 B nd C t : shape z (L1 ++ x :: L2) (B ++ nd :: C) t -> List.length B = List.length L1 ->
  (forall y, In y L2 -> m_height y <= m_height x) ->
  exists z', delete_node z nd = Ret z' /\ forall t', (t' = true -> t = true /\ L2 <> []) -> shape z' (L1 ++ L2) (B ++ C) t'.
Proof.
  intros S HB Hh. set (h := z_heap z).
  destruct (forall2_split _ _ _ _ _ _ _ (sh_nodes _ _ _ _ S) HB) as (FB & Fx & FC). fold h in FB, Fx, FC.
  assert (Hr : forall a, In a (B ++ nd :: C) -> 2 <= a < z_fresh z). { pose proof (sh_range _ _ _ _ S) as R. rewrite Forall_forall in R. exact R. }
  pose proof (sh_distinct _ _ _ _ S) as N.
  assert (Nnd : ~ In nd (B ++ C)) by (apply NoDup_remove_2; exact N).
  assert (Hi : forall a, In a (B ++ C) -> In a (B ++ nd :: C)). { intros a Ha. apply in_app_iff in Ha. apply in_app_iff. cbn. tauto. }
  assert (HBC : Forall (fun a => a <> tail /\ a <> nd) (B ++ C)).
  { apply Forall_forall. intros a Ha. pose proof (Hr a (Hi a Ha)). split; [unfold tail; lia|]. intros ->. contradiction. }
  assert (Hnd : 2 <= nd < z_fresh z) by (apply Hr, in_app_iff; right; now left).
  assert (HC : forall a, In a C -> ht h a <= ht h nd).
  { intros a Ha. destruct (forall2_in _ _ _ a FC Ha) as (m & Hm & (_ & _ & ->)). destruct Fx as (_ & _ & ->). auto. }
  assert (Hlen : List.length B < Datatypes.S (z_fresh z)).
  { pose proof N as N'. apply NoDup_incl_length with (l' := seq 0 (z_fresh z)) in N'.
    - rewrite seq_length, app_length in N'. lia.
    - intros a Ha. apply in_seq. specialize (Hr a Ha). lia. }
  set (M := tallest (L1 ++ x :: L2)). pose proof (tallest_pos (L1 ++ x :: L2)) as T1. pose proof (tallest_32 _ (sh_proper _ _ _ _ S)) as T32. fold M in T1, T32.
  assert (Hpath : forall l, l < 32 -> path h l head (List.filter (tall h l) (B ++ nd :: C))) by apply S.
  assert (Hfall : fall M (Datatypes.S (z_fresh z)) h nd head = Ret (map (left_of h B) (seq 0 M))).
  { apply fall_ok with (C := C); auto; [intros l Hl; apply Hpath; lia|]. symmetry. eapply left_of_top; [apply S|reflexivity|unfold M; lia]. }
  assert (HU : forall k, left_of h B k <> nd /\ (k < 32 -> k < ht h (left_of h B k))).
  { intros k. destruct (left_of_in h B k) as [E|E].
    - rewrite <- E. split; [unfold head; lia|]. intros. unfold h. rewrite (sh_head _ _ _ _ S). lia.
    - apply filter_In in E as [E1 E2]. split; [|intros _; now apply Nat.ltb_lt in E2]. intros E. apply Nnd. rewrite <- E. apply in_app_iff. auto. }
  (* what follows the place on level k *)
  assert (Hnx : forall k, k < 32 -> if tall h k nd then nxt h k (left_of h B k) = Some nd else nxt h k (left_of h B k) <> Some nd).
  { intros k Hk. specialize (Hpath k Hk). rewrite filter_app in Hpath. cbn [List.filter] in Hpath. destruct (tall h k nd) eqn:T.
    - apply path_nxt in Hpath. exact Hpath.
    - destruct (List.filter (tall h k) C) as [|y q] eqn:E.
      + rewrite app_nil_r in Hpath. apply path_end in Hpath. unfold left_of. rewrite Hpath. intros [= X]. unfold tail in X. lia.
      + apply path_nxt in Hpath. unfold left_of. rewrite Hpath. intros [= ->]. apply Nnd. assert (In nd (List.filter (tall h k) C)) as X by (rewrite E; now left).
        apply filter_In in X as [X _]. apply in_app_iff. auto. }
  destruct (unlink_ok (left_of h B) nd M 0 h) as (h1 & K1 & K2 & K3 & K4).
  { intros k Hk. destruct (HU k) as [U1 U2]. split; [exact U1|]. split; [apply U2; lia|]. intros E. specialize (Hnx k ltac:(lia)).
    destruct (tall h k nd) eqn:T; [now apply Nat.ltb_lt in T|contradiction]. }
  assert (Hf : forall l B', List.filter (tall h1 l) B' = List.filter (tall h l) B').
  { intros l B'. apply filter_ext. intros a. unfold tall. now rewrite K3. }
  assert (P1 : forall l, l < 32 -> path h1 l head (List.filter (tall h1 l) (B ++ C))).
  { intros l Hl. rewrite Hf, filter_app. pose proof (Hpath l Hl) as P. rewrite filter_app in P. cbn [List.filter] in P. specialize (Hnx l Hl).
    assert (ND : NoDup (head :: List.filter (tall h l) (B ++ nd :: C))).
    { constructor; [|now apply NoDup_filter]. intros X. apply filter_In in X as [X _]. apply Hr in X. unfold head in X. lia. }
    rewrite filter_app in ND. cbn [List.filter] in ND. destruct (tall h l nd) eqn:T.
    - assert (l < M). { apply Nat.ltb_lt in T. destruct Fx as (_ & _ & Fh). assert (m_height x <= M) by (apply tallest_ge, in_app_iff; right; now left). lia. }
      apply path_remove with (h := h) (n := nd); auto.
      + fold (left_of h B l). rewrite K4. destruct (Nat.ltb_spec l (0 + M)); [|lia]. rewrite Nat.eqb_refl. cbn [Nat.leb andb]. rewrite Hnx. now rewrite Nat.eqb_refl.
      + intros a Ha. rewrite K4. fold (left_of h B l) in Ha. destruct (Nat.eqb_spec a (left_of h B l)); [contradiction|]. now rewrite andb_false_r.
    - apply path_ext with (h := h); [|exact P]. intros a Ha. rewrite K4. destruct (_ && _ && _) eqn:E; [|reflexivity].
      apply andb_true_iff in E as [_ E]. apply Nat.eqb_eq in E as ->. destruct (nxt h l (left_of h B l)) as [b|]; [|reflexivity].
      destruct (Nat.eqb_spec b nd) as [->|]; [contradiction|reflexivity]. }
  assert (Hk1 : forall a m, node_is h a m -> node_is h1 a m).
  { intros a m (X1 & X2 & X3). destruct (K2 a) as (Y1 & Y2 & _). repeat split; [congruence|congruence|]. now rewrite K3. }
  assert (F1 : Forall2 (node_is h1) (B ++ C) (L1 ++ L2)). { apply Forall2_app; eapply forall2_impl_in; [|exact FB| |exact FC]; auto. }
  assert (Lw : lower h1 M = Ret (tallest (L1 ++ L2))).
  { eapply lower_ok; [exact F1|rewrite K3; apply S|exact P1|lia|]. unfold M. rewrite !tallest_app. change (tallest (x :: L2)) with (Nat.max (m_height x) (tallest L2)). lia. }
  unfold delete_node, delete. rewrite (sh_level _ _ _ _ S). fold h M. rewrite Hfall. cbn [rbind]. rewrite K1. cbn [rbind]. rewrite Lw. cbn [rbind].
  destruct (Hk1 nd x Fx) as (_ & -> & _). eexists. split; [reflexivity|]. intros t' Ht.
  set (h2 := release h1 nd).
  assert (R2 : forall a, a <> nd -> h2 a = h1 a) by (intros a Ha; unfold h2, release; now apply upd_ne).
  assert (N2 : forall l a, nxt h2 l a = nxt h1 l a). { intros l a. unfold h2, release, nxt, upd. destruct (Nat.eqb_spec a nd) as [->|]; reflexivity. }
  assert (T2 : forall a, ht h2 a = ht h1 a). { intros a. unfold h2, release, ht, upd. destruct (Nat.eqb_spec a nd) as [->|]; reflexivity. }
  constructor; cbn [z_heap z_fresh z_level z_set]; fold h2.
  - assert (So := sh_sorted _ _ _ _ S). apply ss_app in So as (So1 & So2 & So3). inversion So2; subst. apply ss_app. repeat split; auto. intros a b Ha Hb. apply So3; auto. now right.
  - assert (P := sh_proper _ _ _ _ S). apply Forall_app in P as [Pa Pb]. inversion Pb; subst. apply Forall_app. auto.
  - assert (Nn := sh_names _ _ _ _ S). rewrite map_app in *. cbn [map] in Nn. eapply NoDup_remove_1. exact Nn.
  - eapply forall2_impl_in; [|exact F1]. intros a m Ha (X1 & X2 & X3). assert (a <> nd) by (intros ->; contradiction). unfold node_is. rewrite R2 by assumption. split; [assumption|]. split; [assumption|]. now rewrite T2.
  - eapply NoDup_remove_1. exact N.
  - apply Forall_forall. intros a Ha. apply Hr. auto.
  - rewrite T2, K3. apply S.
  - rewrite T2, K3. apply S.
  - apply S.
  - intros l Hl. assert (List.filter (tall h2 l) (B ++ C) = List.filter (tall h1 l) (B ++ C)) as -> by (apply filter_ext; intros a; unfold tall; now rewrite T2).
    eapply path_ext; [|apply P1; exact Hl]. auto.
  - reflexivity.
  - apply drop_perm with (a := nd).
    + rewrite (sh_set _ _ _ _ S), !map_app. cbn [map]. rewrite !combine_app by (rewrite map_length; congruence). cbn [combine]. symmetry. apply Permutation_middle.
    + eapply Permutation_NoDup; [symmetry; apply Permutation_map, S|]. rewrite map_fst_combine; [apply S|]. rewrite map_length. symmetry. eapply forall2_length. apply S.
  - intros Et. destruct (Ht Et) as [Et' HL]. rewrite R2 by (unfold tail; lia). destruct (K2 tail) as (_ & _ & ->). unfold h. rewrite (sh_last _ _ _ _ S Et').
    destruct C as [|c C]; [inversion FC; subst; contradiction|]. now rewrite !last_app, !last_cons.
Qed.

(* ---- histories ---- *)
Definition rel (z : zset) (A : list member) (t : bool) : Prop := exists L as_, Permutation L A /\ shape z L as_ t.
Lemma rel_new : rel new_zset [] true.
Proof.
  exists [], []. split; [constructor|]. constructor; cbn; try constructor; try reflexivity; try lia.
  intros l Hl. do 32 (destruct l as [|l]; [reflexivity|]). lia.
Qed.
Lemma rel_key z A t : rel z A t -> NoDup (map fst (z_set z)) /\ forall e, In e (map fst (z_set z)) <-> In e (map m_name A).
Proof.
  intros (L & as_ & P & S). assert (E : Permutation (map fst (z_set z)) (map m_name L)).
  { rewrite (Permutation_map fst (sh_set _ _ _ _ S)), map_fst_combine; [reflexivity|]. rewrite map_length. symmetry. eapply forall2_length. apply S. }
  split; [eapply Permutation_NoDup; [symmetry; exact E|apply S]|]. intros e. pose proof (Permutation_map m_name P) as P'. split; intros H.
  - eapply Permutation_in; [exact P'|]. eapply Permutation_in; [exact E|exact H].
  - eapply Permutation_in; [symmetry; exact E|]. eapply Permutation_in; [symmetry; exact P'|exact H].
Qed.
Lemma rel_absent z A t e : rel z A t -> ~ In e (map m_name A) -> find_key e (z_set z) = None.
Proof. intros R H. apply find_none. now rewrite (proj2 (rel_key z A t R) e). Qed.
Lemma rel_len z A t : rel z A t -> z_len z = Z.of_nat (List.length A).
Proof.
  intros (L & as_ & P & S). unfold z_len. f_equal. rewrite (Permutation_length (sh_set _ _ _ _ S)), combine_length, map_length.
  pose proof (forall2_length _ _ _ (sh_nodes _ _ _ _ S)). rewrite <- (Permutation_length P). lia.
Qed.
(* A present member: its node, and where it stands. *)
Lemma rel_present z A t x : rel z A t -> In x A -> exists L1 L2 B nd C, Permutation (L1 ++ x :: L2) A /\ shape z (L1 ++ x :: L2) (B ++ nd :: C) t /\
  List.length B = List.length L1 /\ find_key (m_name x) (z_set z) = Some nd /\ node_is (z_heap z) nd x.
Proof.
  intros R Hx. pose proof (rel_key z A t R) as [Nk _]. destruct R as (L & as_ & P & S). apply (Permutation_in _ (Permutation_sym P)) in Hx. apply in_split in Hx as (L1 & L2 & ->).
  pose proof (sh_nodes _ _ _ _ S) as F. apply Forall2_app_inv_r in F as (B & C & FB & FC & ->). inversion FC as [|nd ? C' ? Fx FC']; subst.
  exists L1, L2, B, nd, C'. split; [exact P|]. split; [exact S|]. split; [eapply forall2_length; exact FB|]. split; [|exact Fx].
  apply find_some; [exact Nk|]. eapply Permutation_in; [symmetry; apply S|]. rewrite map_app. cbn [map]. rewrite combine_app by (rewrite map_length; symmetry; eapply forall2_length; exact FB).
  apply in_app_iff. right. now left.
Qed.
Lemma shape_after z L1 x L2 as_ t : shape z (L1 ++ x :: L2) as_ t -> forall y, In y (L1 ++ L2) -> (precedes x y <-> In y L2).
Proof.
  intros S y Hy. pose proof (sh_sorted _ _ _ _ S) as So. apply ss_app in So as (_ & S2 & S3). inversion S2 as [|? ? _ S4]; subst. rewrite Forall_forall in S4.
  pose proof (sh_proper _ _ _ _ S) as Pp. rewrite Forall_forall in Pp. split; [|auto]. intros H. apply in_app_iff in Hy as [Hy|Hy]; [exfalso|exact Hy].
  assert (num x) by (apply proper_num, Pp, in_app_iff; right; now left). assert (num y) by (apply proper_num, Pp, in_app_iff; auto).
  apply (precedes_irrefl x); [assumption|]. apply precedes_trans with y; auto. apply S3; [exact Hy|now left].
Qed.
Lemma put_ok z A t s e d A' t' : rel z A t -> put A t s e d A' t' -> exists z', insert z s e d = Ret z' /\ rel z' A' t'.
Proof.
  intros R [Hp|t2 Ha Hx Ht].
  - exists z. split; [|exact R]. apply in_map_iff in Hp as (x & <- & Hx). destruct (rel_present z A t x R Hx) as (L1 & L2 & B & nd & C & _ & _ & _ & E & _).
    unfold insert. now rewrite E.
  - destruct R as (L & as_ & P & S). assert (HL : ~ In e (map m_name L)) by (intros X; apply Ha; eapply Permutation_in; [apply Permutation_map; exact P|exact X]).
    destruct (insert_ok z L as_ t s e d S HL Hx) as (z' & L1 & L2 & as' & -> & H1 & H2 & E & Sh). exists z'. split; [exact E|].
    exists (L1 ++ Member s e (Nat.max (tallest A) d) :: L2), as'. split.
    + symmetry. apply Permutation_cons_app. now symmetry.
    + rewrite <- (tallest_perm _ _ P). apply Sh. intros Et. apply Ht in Et as [Et|Et]; [auto|]. left. destruct L2 as [|y L2]; [reflexivity|exfalso].
      assert (Hy : In y (L1 ++ y :: L2)) by (apply in_app_iff; right; now left). inversion H2 as [|? ? Hxy _]; subst.
      assert (num y) by (pose proof (sh_proper _ _ _ _ S) as Pp; rewrite Forall_forall in Pp; apply proper_num; auto).
      apply (precedes_irrefl y); [assumption|]. apply precedes_trans with (Member s e d); auto; [now apply proper_num|]. apply Et. eapply Permutation_in; [exact P|exact Hy].
Qed.
Lemma take_in x t A A' t' : take x t A A' t' -> In x A.
Proof. intros [? A1 A2 t2 -> _ _]. apply in_app_iff. right. now left. Qed.
Lemma take_ok z A t x A' t' : rel z A t -> take x t A A' t' ->
  exists nd z', find_key (m_name x) (z_set z) = Some nd /\ node_is (z_heap z) nd x /\ delete_node z nd = Ret z' /\ rel z' A' t'.
Proof.
  intros R T. pose proof (take_in _ _ _ _ _ T) as Hx. destruct (rel_present z A t x R Hx) as (L1 & L2 & B & nd & C & P & S & HB & E & Nx).
  destruct T as [A A1 A2 t2 -> Hh Ht]. apply Permutation_app_inv in P. exists nd.
  destruct (delete_ok z L1 x L2 B nd C t S HB) as (z' & D & Sh).
  { intros y Hy. apply Hh; [eapply Permutation_in; [exact P|apply in_app_iff; auto]|]. apply (shape_after _ _ _ _ _ _ S); [apply in_app_iff; auto|exact Hy]. }
  exists z'. split; [exact E|]. split; [exact Nx|]. split; [exact D|]. exists (L1 ++ L2), (B ++ C). split; [exact P|]. apply Sh. intros Et. apply Ht in Et as (-> & y & Hy & Hxy). split; [reflexivity|].
  apply (Permutation_in _ (Permutation_sym P)) in Hy. apply (shape_after _ _ _ _ _ _ S y Hy) in Hxy. destruct L2; [contradiction|discriminate].
Qed.
Lemma put_all_ok A t ss es ds A' t' : put_all A t ss es ds A' t' -> forall z, rel z A t -> exists z', add_all z ss es ds = Ret z' /\ rel z' A' t' /\ List.length ss = List.length es.
Proof.
  induction 1 as [A t ds|A t s ss e es d ds A1 t1 A2 t2 P _ IH]; intros z R.
  - exists z. auto.
  - destruct (put_ok _ _ _ _ _ _ _ _ R P) as (z1 & E1 & R1). destruct (IH z1 R1) as (z2 & E2 & R2 & El). exists z2. cbn [add_all List.hd List.tl]. rewrite E1. cbn. auto.
Qed.
Lemma take_all_ok A t es A' t' : take_all A t es A' t' -> forall z, rel z A t -> exists z', z_del z es = Ret (z', ZDone) /\ rel z' A' t'.
Proof.
  induction 1 as [A t|A t e es A1 t1 Ha _ IH|A t x es A1 t1 A2 t2 T _ IH]; intros z R.
  - exists z. auto.
  - cbn [z_del]. rewrite (rel_absent _ _ _ _ R Ha). auto.
  - destruct (take_ok _ _ _ _ _ _ R T) as (nd & z1 & F & _ & D & R1). cbn [z_del]. rewrite F, D. cbn [rbind]. auto.
Qed.
Lemma does_ok z A t o r A' t' : rel z A t -> does A t o r A' t' -> exists z', z_step z o = Ret (z', r) /\ rel z' A' t'.
Proof.
  intros R D. destruct D as [A t ss es ds A' t' P|A t ss es ds H|A t es A' t' T|A t x H|A t e H|A t x f d A' t' A'' t'' T P|A t e f d H|t|A t x A' t' Hx Hl T|t|A x A' t' Hx Hl T|A t|A t e H]; cbn [z_step].
  - destruct (put_all_ok _ _ _ _ _ _ _ P z R) as (z' & E & R' & El). exists z'. unfold z_add, float. rewrite El, Nat.eqb_refl. cbn [negb]. rewrite E. cbn [rbind]. auto.
  - exists z. split; [|exact R]. unfold z_add. rewrite (proj2 (Nat.eqb_neq _ _) H). reflexivity.
  - apply (take_all_ok _ _ _ _ _ T z R).
  - exists z. destruct (rel_present z A t x R H) as (L1 & L2 & B & nd & C & _ & _ & _ & E & (Es & _)). unfold z_score. rewrite E, Es. split; [reflexivity|exact R].
  - exists z. unfold z_score. rewrite (rel_absent _ _ _ _ R H). auto.
  - destruct (take_ok _ _ _ _ _ _ R T) as (nd & z1 & F & (Es & Ed & _) & D & R1). destruct (put_ok _ _ _ _ _ _ _ _ R1 P) as (z2 & I & R2).
    exists z2. unfold z_incr. rewrite F, Ed, Es, D. cbn [rbind]. unfold f_add. rewrite I. auto.
  - exists z. unfold z_incr. rewrite (rel_absent _ _ _ _ R H). auto.
  - exists z. unfold z_pop_min. rewrite (rel_len _ _ _ R). auto.
  - destruct (take_ok _ _ _ _ _ _ R T) as (nd & z1 & F & (Es & Ed & Eh) & D & R1). exists z1. unfold z_pop_min. rewrite (rel_len _ _ _ R).
    destruct A as [|a A]; [contradiction|]. cbn [List.length]. destruct (Z.eqb_spec (Z.of_nat (S (List.length A))) 0); [lia|].
    destruct (rel_present z _ t x R Hx) as (L1 & L2 & B & nd' & C & P & S & HB & E & Nx). assert (nd' = nd) as -> by congruence.
    assert (L1 = []) as ->.
    { destruct L1 as [|y L1]; [reflexivity|exfalso]. pose proof (sh_sorted _ _ _ _ S) as So. cbn [app] in So. inversion So as [|? ? _ So2]; subst. rewrite Forall_forall in So2.
      assert (Hyx : precedes y x) by (apply So2, in_app_iff; right; now left). pose proof (sh_proper _ _ _ _ S) as Pp. rewrite Forall_forall in Pp.
      assert (num x) by (apply proper_num, Pp; right; apply in_app_iff; right; now left). assert (num y) by (apply proper_num, Pp; now left).
      destruct (Hl y) as [->|Hxy]; [eapply Permutation_in; [exact P|now left]|now apply (precedes_irrefl x)|]. apply (precedes_irrefl x); [assumption|]. apply precedes_trans with y; auto. }
    destruct B; [|discriminate]. pose proof (sh_path _ _ _ _ S 0 ltac:(lia)) as Pa. cbn [app List.filter] in Pa.
    assert (tall (z_heap z) 0 nd = true) as T0. { unfold tall. rewrite Eh. apply Nat.ltb_lt. pose proof (sh_proper _ _ _ _ S) as Pp. inversion Pp as [|? ? (_ & _ & ?) _]; subst. lia. }
    rewrite T0 in Pa. destruct Pa as [Pa _]. destruct (at_some _ _ _ _ Pa) as (sp & ->). cbn [rbind]. rewrite D, Ed. auto.
  - exists z. unfold z_pop_max. rewrite (rel_len _ _ _ R). auto.
  - destruct (take_ok _ _ _ _ _ _ R T) as (nd & z1 & F & (Es & Ed & Eh) & D & R1). exists z1. unfold z_pop_max. rewrite (rel_len _ _ _ R).
    destruct A as [|a A]; [contradiction|]. cbn [List.length]. destruct (Z.eqb_spec (Z.of_nat (S (List.length A))) 0); [lia|].
    destruct (rel_present z _ true x R Hx) as (L1 & L2 & B & nd' & C & P & S & HB & E & Nx). assert (nd' = nd) as -> by congruence.
    assert (L2 = []) as ->.
    { destruct L2 as [|y L2]; [reflexivity|exfalso]. pose proof (sh_sorted _ _ _ _ S) as So. apply ss_app in So as (_ & So & _). inversion So as [|? ? _ So2]; subst. rewrite Forall_forall in So2.
      assert (Hxy : precedes x y) by (apply So2; now left). pose proof (sh_proper _ _ _ _ S) as Pp. rewrite Forall_forall in Pp.
      assert (num x) by (apply proper_num, Pp; apply in_app_iff; right; now left). assert (num y) by (apply proper_num, Pp, in_app_iff; right; right; now left).
      destruct (Hl y) as [->|Hyx]; [eapply Permutation_in; [exact P|apply in_app_iff; right; right; now left]|now apply (precedes_irrefl x)|]. apply (precedes_irrefl x); [assumption|]. apply precedes_trans with y; auto. }
    destruct (forall2_split _ _ _ _ _ _ _ (sh_nodes _ _ _ _ S) HB) as (_ & _ & FC). inversion FC; subst C. rewrite (sh_last _ _ _ _ S eq_refl), last_app. cbn [List.last]. rewrite D, Ed. auto.
  - exists z. now rewrite (rel_len _ _ _ R).
  - exists z. unfold z_rank. rewrite (rel_absent _ _ _ _ R H). auto.
Qed.
Lemma z_run_app os1 : forall z os2, z_run z (os1 ++ os2) = (let! (z1, rs1) := z_run z os1 in let! (z2, rs2) := z_run z1 os2 in Ret (z2, rs1 ++ rs2)).
Proof.
  induction os1 as [|o os1 IH]; intros z os2; cbn [app z_run rbind].
  - destruct (z_run z os2) as [[z2 rs2]| |]; reflexivity.
  - destruct (z_step z o) as [[z1 r]| |]; cbn [rbind]; try reflexivity. rewrite IH. destruct (z_run z1 os1) as [[z2 rs]| |]; cbn [rbind]; try reflexivity.
    destruct (z_run z2 os2) as [[z3 rs3]| |]; reflexivity.
Qed.
Theorem history_ok os rs A t : history os rs A t -> exists z, z_run new_zset os = Ret (z, rs) /\ rel z A t.
Proof.
  induction 1 as [|os rs A t o r A' t' _ (z & E & R) D].
  - exists new_zset. split; [reflexivity|apply rel_new].
  - destruct (does_ok _ _ _ _ _ _ _ R D) as (z' & E' & R'). exists z'. rewrite z_run_app, E. cbn [rbind z_run]. rewrite E'. auto.
Qed.

(* ---- Rank ---- *)
Lemma stride_panics h l nd : nd <> tail -> ht h tail = 0 -> forall p cur r fuel, path h l cur p -> S (List.length p) < fuel -> stride fuel h l nd cur r = Panic.
Proof.
  intros Hn Ht. induction p as [|x p IH]; intros cur r fuel Hp Hf; destruct fuel as [|fuel]; try lia; cbn [stride].
  - cbn in Hp. destruct (at_some _ _ _ _ Hp) as (sp & ->). cbn [rbind]. destruct (Nat.eqb_spec tail nd) as [E|_]; [congruence|]. rewrite orb_true_r.
    destruct fuel as [|fuel]; [cbn in Hf; lia|]. cbn [stride]. unfold at_. rewrite (proj2 (nth_error_None _ _)); [reflexivity|]. unfold ht in Ht. rewrite Ht. lia.
  - destruct Hp as [Hp Hp']. destruct (at_some _ _ _ _ Hp) as (sp & ->). cbn [rbind]. assert (negb (x =? tail) || negb (x =? nd) = true) as ->.
    { destruct (Nat.eqb_spec x tail) as [->|]; [|reflexivity]. destruct (Nat.eqb_spec tail nd); [congruence|reflexivity]. }
    apply IH; auto. cbn in Hf. lia.
Qed.
Theorem rank_panics os rs A t x : history os rs A t -> In x A -> z_run new_zset (os ++ [ORank (m_name x)]) = Panic.
Proof.
  intros H Hx. destruct (history_ok _ _ _ _ H) as (z & E & R). rewrite z_run_app, E. cbn [rbind z_run z_step]. unfold z_rank.
  destruct (rel_present z A t x R Hx) as (L1 & L2 & B & nd & C & P & S & HB & F & Nx). rewrite F. unfold get_rank.
  assert (Hnd : 2 <= nd). { pose proof (sh_range _ _ _ _ S) as Hr. rewrite Forall_forall in Hr. apply Hr, in_app_iff. right. now left. }
  rewrite (sh_level _ _ _ _ S). pose proof (tallest_pos (L1 ++ x :: L2)) as T1. pose proof (tallest_32 _ (sh_proper _ _ _ _ S)) as T32.
  destruct (tallest (L1 ++ x :: L2)) as [|l]; [lia|]. cbn [rank_from]. rewrite stride_panics with (p := List.filter (tall (z_heap z) l) (B ++ nd :: C)); [reflexivity|unfold tail; lia|apply S|apply S; lia|].
  pose proof (filter_le (tall (z_heap z) l) (B ++ nd :: C)). assert (List.length (B ++ nd :: C) <= z_fresh z); [|lia].
  pose proof (sh_distinct _ _ _ _ S) as N. apply NoDup_incl_length with (l' := seq 0 (z_fresh z)) in N; [now rewrite seq_length in N|].
  intros a Ha. apply in_seq. pose proof (sh_range _ _ _ _ S) as Hr. rewrite Forall_forall in Hr. specialize (Hr a Ha). lia.
Qed.

(* ---- when the specification applies ---- *)
Lemma precedes_dec x y : num x -> num y -> precedes x y \/ ~ precedes x y.
Proof.
  intros Hx Hy. rewrite precedes_key by assumption. destruct (klt_total (fkey (m_score x)) (fkey (m_score y))) as [H|[H|H]]; [auto| |].
  - destruct (lex_trichotomy (m_name x) (m_name y)) as [A|[A|A]]; [auto| |].
    + right. rewrite H, A. intros [B|[_ B]]; [now apply klt_irrefl in B|now apply lex_lt_irrefl in B].
    + right. rewrite H. intros [B|[_ B]]; [now apply klt_irrefl in B|]. apply (lex_lt_irrefl (m_name x)). eapply lex_lt_trans; eassumption.
  - right. intros [B|[B _]]; [|rewrite B in H; now apply klt_irrefl in H]. apply (klt_irrefl (fkey (m_score x))). eapply klt_trans; eassumption.
Qed.
Lemma exists_dec {A} (P : A -> Prop) l : (forall x, In x l -> P x \/ ~ P x) -> (exists x, In x l /\ P x) \/ (forall x, In x l -> ~ P x).
Proof.
  induction l as [|a l IH]; intros H; [right; contradiction|]. destruct (H a (or_introl eq_refl)) as [Ha|Ha]; [left; exists a; split; [now left|exact Ha]|].
  destruct IH as [(x & Hx & Px)|N]; [intros x Hx; apply H; now right|left; exists x; split; [now right|exact Px]|]. right. intros x [->|Hx]; auto.
Qed.
Lemma forall_dec {A} (P : A -> Prop) l : (forall x, In x l -> P x \/ ~ P x) -> (forall x, In x l -> P x) \/ ~ (forall x, In x l -> P x).
Proof.
  intros H. destruct (exists_dec (fun x => ~ P x) l) as [(x & Hx & Nx)|N].
  - intros x Hx. destruct (H x Hx); [right; tauto|now left].
  - right. intros X. apply Nx, X, Hx.
  - left. intros x Hx. destruct (H x Hx); [assumption|]. exfalso. now apply (N x).
Qed.
Lemma flag (P : Prop) : P \/ ~ P -> exists b : bool, b = true <-> P.
Proof. intros [H|H]; [exists true|exists false]; split; intros; try tauto; try discriminate; reflexivity. Qed.
Lemma in_names (e : bytes) l : In e l \/ ~ In e l.
Proof. destruct (in_dec (list_eq_dec Ascii.ascii_dec) e l); auto. Qed.
Definition sound (A : list member) : Prop := Forall proper A /\ NoDup (map m_name A).
Lemma put_total A t s e d : sound A -> proper (Member s e d) -> exists A' t', put A t s e d A' t' /\ sound A' /\
  (A' = A \/ A' = Member s e (Nat.max (tallest A) d) :: A).
Proof.
  intros [P N] Hx. destruct (in_names e (map m_name A)) as [H|H].
  - exists A, t. split; [now constructor|]. split; [split; assumption|auto].
  - destruct (flag (t = true \/ forall y, In y A -> precedes y (Member s e d))) as (t' & Ht).
    { destruct t; [auto|]. destruct (forall_dec (fun y => precedes y (Member s e d)) A) as [X|X]; [|auto|right; intros [?|?]; [discriminate|auto]].
      intros y Hy. apply precedes_dec; [|now apply proper_num]. rewrite Forall_forall in P. apply proper_num. auto. }
    eexists. exists t'. split; [constructor; eassumption|]. split; [|now right]. split.
    + constructor; [|exact P]. destruct Hx as (? & ? & ?). split; [assumption|]. split; [assumption|]. pose proof (tallest_32 A P). cbn in *. lia.
    + cbn. now constructor.
Qed.
Lemma put_all_total ss : forall A t es ds, sound A -> List.length ss = List.length es -> List.length ds = List.length es ->
  Forall (fun d => 1 <= d <= 32) ds -> Forall (fun s => s <> S754_nan) ss -> Forall (fun e => e <> []) es -> exists A' t', put_all A t ss es ds A' t' /\ sound A'.
Proof.
  induction ss as [|s ss IH]; intros A t [|e es] [|d ds] S E1 E2 F1 F2 F3; cbn in E1, E2; try discriminate.
  - exists A, t. split; [constructor|exact S].
  - inversion F1; inversion F2; inversion F3; subst. destruct (put_total A t s e d S) as (A1 & t1 & P & S1 & _); [repeat split; cbn; auto; lia|].
    destruct (IH A1 t1 es ds S1) as (A2 & t2 & P2 & S2); auto. exists A2, t2. split; [econstructor; eassumption|exact S2].
Qed.
Lemma sound_nodup A x y : sound A -> In x A -> In y A -> m_name x = m_name y -> x = y.
Proof.
  intros [_ N]. induction A as [|a A IH]; [contradiction|]. cbn in N. inversion N as [|? ? N1 N2]; subst. intros [->|Hx] [->|Hy] E; auto.
  - exfalso. apply N1. rewrite E. now apply in_map.
  - exfalso. apply N1. rewrite <- E. now apply in_map.
Qed.
Theorem adding_total os : Forall adding os -> exists rs A t, history os rs A t /\ sound A.
Proof.
  induction os as [|o os IH] using rev_ind; intros H.
  - exists [], [], true. split; [constructor|]. split; constructor.
  - apply Forall_app in H as [H1 H2]. inversion H2 as [|? ? H3 _]; subst. destruct (IH H1) as (rs & A & t & Hh & S).
    assert (exists r A' t', does A t o r A' t' /\ sound A') as (r & A' & t' & D & S').
    { destruct o as [ss es ds|es|e|e f d| | |e| |]; cbn in H3; try contradiction.
      - destruct (Nat.eq_dec (List.length ss) (List.length es)) as [E|E]; [|exists (ZFail ELength), A, t; split; [now constructor|exact S]].
        destruct (H3 E) as (E2 & F1 & F2 & F3). destruct (put_all_total ss A t es ds S E E2 F1 F2 F3) as (A' & t' & P & S'). exists ZDone, A', t'. split; [now constructor|exact S'].
      - destruct (in_names e (map m_name A)) as [X|X]; [|exists (ZFail ENotFound), A, t; split; [now constructor|exact S]].
        apply in_map_iff in X as (x & <- & Hx). exists (ZScore (m_score x)), A, t. split; [now constructor|exact S].
      - exists (ZInt (Z.of_nat (List.length A))), A, t. split; [constructor|exact S]. }
    exists (rs ++ [r]), A', t'. split; [econstructor; eassumption|exact S'].
Qed.
Lemma even_sound d A : even d A -> sound A.
Proof. intros [P N]. split; [|exact N]. rewrite Forall_forall in *. intros x Hx. now apply P. Qed.
Lemma even_tallest d A : 1 <= d -> even d A -> Nat.max (tallest A) d = d.
Proof. intros Hd [P _]. assert (tallest A <= d); [|lia]. apply tallest_le; [exact Hd|]. rewrite Forall_forall in P. intros x Hx. destruct (P x Hx). lia. Qed.
Lemma even_put d A t s e : 1 <= d <= 32 -> even d A -> s <> S754_nan -> e <> [] -> exists A' t', put A t s e d A' t' /\ even d A'.
Proof.
  intros Hd Hv Hs He. assert (Hp : proper (Member s e d)) by (repeat split; cbn; auto; lia).
  destruct (put_total A t s e d (even_sound _ _ Hv) Hp) as (A' & t' & P & [P' N'] & [->|E]); [eauto|]. exists A', t'. split; [exact P|]. split; [|exact N'].
  rewrite even_tallest in E by (auto; lia). subst A'. constructor; [split; [exact Hp|reflexivity]|apply Hv].
Qed.
Lemma even_put_all d ss : 1 <= d <= 32 -> forall A t es ds, even d A -> List.length ss = List.length es -> List.length ds = List.length es ->
  Forall (eq d) ds -> Forall (fun s => s <> S754_nan) ss -> Forall (fun e => e <> []) es -> exists A' t', put_all A t ss es ds A' t' /\ even d A'.
Proof.
  intros Hd. induction ss as [|s ss IH]; intros A t [|e es] [|d' ds] S E1 E2 F1 F2 F3; cbn in E1, E2; try discriminate.
  - exists A, t. split; [constructor|exact S].
  - inversion F1; inversion F2; inversion F3; subst. destruct (even_put d' A t s e Hd S) as (A1 & t1 & P & S1); auto.
    destruct (IH A1 t1 es ds S1) as (A2 & t2 & P2 & S2); auto. exists A2, t2. split; [econstructor; eassumption|exact S2].
Qed.
Lemma even_take d A t x : even d A -> In x A -> exists A' t', take x t A A' t' /\ even d A' /\ ~ In (m_name x) (map m_name A').
Proof.
  intros [P N] Hx. apply in_split in Hx as (A1 & A2 & ->). rewrite Forall_forall in P.
  assert (Hi : forall y, In y (A1 ++ A2) -> In y (A1 ++ x :: A2)) by (intros y Hy; apply in_app_iff in Hy; apply in_app_iff; cbn; tauto).
  assert (Hx : In x (A1 ++ x :: A2)) by (apply in_app_iff; right; now left).
  destruct (flag (t = true /\ exists y, In y (A1 ++ A2) /\ precedes x y)) as (t' & Ht).
  { destruct t; [|right; intros [? _]; discriminate]. destruct (exists_dec (precedes x) (A1 ++ A2)) as [X|X]; [|auto|right; intros (_ & y & Hy & Hxy); now apply (X y)].
    intros y Hy. apply precedes_dec; apply proper_num, P; auto. }
  exists (A1 ++ A2), t'. split; [|split].
  - econstructor; [reflexivity| |exact Ht]. intros y Hy _. destruct (P y (Hi y Hy)) as [_ ->]. destruct (P x Hx) as [_ ->]. lia.
  - split; [apply Forall_forall; intros y Hy; apply P; auto|]. rewrite map_app in *. cbn in N. eapply NoDup_remove_1; exact N.
  - rewrite map_app in *. cbn in N. now apply NoDup_remove_2 in N.
Qed.
Lemma even_take_all d es : forall A t, even d A -> exists A' t', take_all A t es A' t' /\ even d A'.
Proof.
  induction es as [|e es IH]; intros A t V; [exists A, t; split; [constructor|exact V]|].
  destruct (in_names e (map m_name A)) as [X|X].
  - apply in_map_iff in X as (x & <- & Hx). destruct (even_take d A t x V Hx) as (A1 & t1 & T & V1 & _). destruct (IH A1 t1 V1) as (A2 & t2 & T2 & V2).
    exists A2, t2. split; [econstructor; eassumption|exact V2].
  - destruct (IH A t V) as (A2 & t2 & T2 & V2). exists A2, t2. split; [now apply take_all_absent|exact V2].
Qed.
Lemma least A : sound A -> A <> [] -> exists x, In x A /\ forall y, In y A -> y = x \/ precedes x y.
Proof.
  induction A as [|a A IH]; [contradiction|]. intros [P N] _. inversion P as [|? ? Pa P']; subst. cbn in N. inversion N as [|? ? N1 N2]; subst.
  destruct A as [|b A]; [exists a; split; [now left|]; intros y [->|[]]; auto|]. destruct IH as (x & Hx & Hl); [split; assumption|discriminate|].
  assert (num a) by now apply proper_num. assert (num x) by (rewrite Forall_forall in P'; apply proper_num; auto).
  destruct (precedes_total a x) as [H1|H1]; [assumption|assumption|intros E; apply N1; rewrite E; now apply in_map|..].
  - exists a. split; [now left|]. intros y [->|Hy]; [auto|right]. destruct (Hl y Hy) as [->|H2]; [exact H1|]. apply precedes_trans with x; auto.
    rewrite Forall_forall in P'. apply proper_num. auto.
  - exists x. split; [now right|]. intros y [->|Hy]; auto.
Qed.
Theorem calm_total d A t o : 1 <= d <= 32 -> even d A -> calm d A o -> exists r A' t', does A t o r A' t' /\ even d A'.
Proof.
  intros Hd V H. destruct o as [ss es ds|es|e|e f d'| | |e| |]; cbn in H.
  - destruct (Nat.eq_dec (List.length ss) (List.length es)) as [E|E]; [|exists (ZFail ELength), A, t; split; [now constructor|exact V]].
    destruct (H E) as (E2 & F1 & F2 & F3). destruct (even_put_all d ss Hd A t es ds V E E2 F1 F2 F3) as (A' & t' & P & V'). exists ZDone, A', t'. split; [now constructor|exact V'].
  - destruct (even_take_all d es A t V) as (A' & t' & T & V'). exists ZDone, A', t'. split; [now constructor|exact V'].
  - destruct (in_names e (map m_name A)) as [X|X]; [|exists (ZFail ENotFound), A, t; split; [now constructor|exact V]].
    apply in_map_iff in X as (x & <- & Hx). exists (ZScore (m_score x)), A, t. split; [now constructor|exact V].
  - destruct H as [-> H]. destruct (in_names e (map m_name A)) as [X|X]; [|exists (ZFail ENotFound), A, t; split; [now constructor|exact V]].
    apply in_map_iff in X as (x & <- & Hx). destruct (even_take d A t x V Hx) as (A1 & t1 & T & V1 & _).
    assert (m_name x <> []). { destruct V as [P _]. rewrite Forall_forall in P. now destruct (P x Hx) as [(_ & ? & _) _]. }
    destruct (even_put d A1 t1 (SFadd 53 1024 (m_score x) f) (m_name x) Hd V1) as (A2 & t2 & P & V2); [now apply H|assumption|].
    eexists. exists A2, t2. split; [econstructor; eassumption|exact V2].
  - destruct A as [|a A]; [exists (ZFail EEmpty), [], t; split; [constructor|exact V]|].
    destruct (least (a :: A) (even_sound _ _ V) ltac:(discriminate)) as (x & Hx & Hl). destruct (even_take d _ t x V Hx) as (A1 & t1 & T & V1 & _).
    eexists. exists A1, t1. split; [econstructor; eassumption|exact V1].
  - subst A. exists (ZFail EEmpty), [], t. split; [constructor|exact V].
  - exists (ZFail ENotFound), A, t. split; [now constructor|exact V].
  - eexists. exists A, t. split; [constructor|exact V].
  - contradiction.
Qed.
Lemma random_level_is draws x rest : Forall (fun r => Z.rem r 4 = 0%Z) draws -> Z.rem x 4 <> 0%Z -> forall l, random_level l (draws ++ x :: rest) = Ret (Nat.min 32 (l + List.length draws)).
Proof.
  intros F Hx. induction F as [|r draws Hr F IH]; intros l; cbn [app random_level List.length].
  - unfold scale_factor, max_level. rewrite (proj2 (Z.eqb_neq _ _) Hx). rewrite Nat.add_0_r. destruct (Nat.ltb_spec 32 l); f_equal; lia.
  - unfold scale_factor. rewrite Hr, Z.eqb_refl, IH. f_equal. lia.
Qed.
Lemma random_level_range draws : forall l r, 1 <= l -> random_level l draws = Ret r -> 1 <= r <= 32.
Proof.
  induction draws as [|x draws IH]; intros l r Hl H; cbn [random_level] in H; [discriminate|]. destruct (_ =? _)%Z; [apply IH in H; auto|].
  injection H as <-. destruct (Nat.ltb_spec max_level l); unfold max_level in *; lia.
Qed.
Lemma history_sound os rs A t : history os rs A t -> sound A.
Proof.
  intros H. destruct (history_ok os rs A t H) as (z & _ & L & as_ & P & S). split.
  - eapply Permutation_Forall; [exact P|apply S].
  - eapply Permutation_NoDup; [apply Permutation_map; exact P|apply S].
Qed.
Lemma take_total A t x : sound A -> In x A -> (forall y, In y A -> precedes x y -> m_height y <= m_height x) -> exists A' t', take x t A A' t'.
Proof.
  intros [P N] Hx Hh. apply in_split in Hx as (A1 & A2 & ->). rewrite Forall_forall in P.
  assert (Hi : forall y, In y (A1 ++ A2) -> In y (A1 ++ x :: A2)) by (intros y Hy; apply in_app_iff in Hy; apply in_app_iff; cbn; tauto).
  assert (Hx : In x (A1 ++ x :: A2)) by (apply in_app_iff; right; now left).
  destruct (flag (t = true /\ exists y, In y (A1 ++ A2) /\ precedes x y)) as (t' & Ht).
  { destruct t; [|right; intros [? _]; discriminate]. destruct (exists_dec (precedes x) (A1 ++ A2)) as [X|X]; [|auto|right; intros (_ & y & Hy & Hxy); now apply (X y)].
    intros y Hy. apply precedes_dec; apply proper_num, P; auto. }
  exists (A1 ++ A2), t'. econstructor; [reflexivity|auto|exact Ht].
Qed.
Theorem pop_min_lowest os rs A t x : history os rs A t -> In x A -> (forall y, In y A -> y = x \/ precedes x y) ->
  (forall y, In y A -> m_height y <= m_height x) -> exists z, z_run new_zset (os ++ [OPopMin]) = Ret (z, rs ++ [ZData (Some (m_name x))]).
Proof.
  intros H Hx Hl Hh. destruct (take_total A t x (history_sound _ _ _ _ H) Hx) as (A' & t' & T); [auto|].
  destruct (history_ok _ _ _ _ (history_snoc _ _ _ _ _ _ _ _ H (does_min A t x A' t' Hx Hl T))) as (z & E & _). eauto.
Qed.
Theorem pop_max_highest os rs A x : history os rs A true -> In x A -> (forall y, In y A -> y = x \/ precedes y x) ->
  exists z, z_run new_zset (os ++ [OPopMax]) = Ret (z, rs ++ [ZData (Some (m_name x))]).
Proof.
  intros H Hx Hl. pose proof (history_sound _ _ _ _ H) as S. destruct (take_total A true x S Hx) as (A' & t' & T).
  { intros y Hy Hxy. destruct (Hl y Hy) as [->|Hyx]; [auto|exfalso]. destruct S as [P _]. rewrite Forall_forall in P.
    assert (num x) by (apply proper_num; auto). assert (num y) by (apply proper_num; auto). apply (precedes_irrefl x); [assumption|]. apply precedes_trans with y; auto. }
  destruct (history_ok _ _ _ _ (history_snoc _ _ _ _ _ _ _ _ H (does_max A x A' t' Hx Hl T))) as (z & E & _). eauto.
Qed.
