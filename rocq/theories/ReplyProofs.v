(* Every reply but an internal error can be written as one RESP message: what is stored, and
   what is replied, is no larger than what was sent. *)
From Verif Require Import Base BaseFacts IntSpec IndexSpec ListSpec IntParse IntParseProofs Resp RespSpec RespProofs Command SpecDb RequestSpec
  CommandProofs Db DbProofs Engine EngineProofs EngineFacts SpecFacts ServerSpec ReplySpec.
From Coq Require Import ZArith List Ascii String Bool Lia.
From stdpp Require Import gmap.
Open Scope Z_scope.

(* ---- sizes ---- *)
Record held (n : Z) (s : sdb) : Prop := mkHeld {
  hd_b : bounded n s;
  hd_l : forall k l x, sl s !! k = Some l -> x ∈ l -> blen x <= n;
  hd_h : forall k h, sh s !! k = Some h -> Z.of_nat (size h) <= n;
  hd_f : forall k h f v, sh s !! k = Some h -> h !! f = Some v -> blen f <= n /\ blen v <= n;
  (* all members of all sets *)
  hd_u : exists U : gset bytes, Z.of_nat (size U) <= n /\ (forall x, x ∈ U -> blen x <= n) /\ forall k (X : gset bytes), st s !! k = Some X -> X ⊆ U
}.
Lemma held_mono n m s : held n s -> n <= m -> held m s.
Proof.
  intros [A B C D E] H. constructor.
  - eapply bounded_mono; eauto.
  - intros k l x H1 H2. pose proof (B k l x H1 H2). lia.
  - intros k h H1. pose proof (C k h H1). lia.
  - intros k h f v H1 H2. destruct (D k h f v H1 H2). lia.
  - destruct E as (U & E1 & E2 & E3). exists U. split; [lia|]. split; [|exact E3]. intros x Hx. pose proof (E2 x Hx). lia.
Qed.
Lemma held_empty : held 0 empty_sdb.
Proof. constructor; [apply bounded_empty| | | |]; cbn; intros; try (rewrite lookup_empty in *; discriminate).
  exists ∅. rewrite size_empty. split; [lia|]. split; [set_solver|]. intros k X. rewrite lookup_empty. discriminate. Qed.

(* All that a command carries. *)
Definition whole (c : cmd) : Z :=
  match c with
  | CSet k v | CAppend k v => blen v
  | CMset ks vs => sum_len ks + sum_len vs
  | CMget l | CExists l | CSdiff l | CSinter l | CSunion l => sum_len l
  | CIncr _ _ | CDecr _ _ => 20
  | CLpush _ vs | CRpush _ vs | CSadd _ vs | CSrem _ vs | CHmget _ vs | CHdel _ vs => sum_len vs
  | CHset _ fs vs => sum_len fs + sum_len vs
  | CLinsert _ _ _ v => 1 + blen v
  | CLset _ _ v => blen v
  | _ => 0
  end.
Lemma whole_size c : cmd_size c <= whole c.
Proof.
  destruct c; cbn [cmd_size whole]; try lia.
  - pose proof (sum_len_nonneg ks). lia.
  - apply sum_len_nonneg.
  - apply sum_len_nonneg.
  - apply blen_nonneg.
  - pose proof (blen_nonneg v). lia.
  - pose proof (sum_len_nonneg fs). pose proof (sum_len_nonneg vs). lia.
  - apply sum_len_nonneg.
  - apply sum_len_nonneg.
  - apply sum_len_nonneg.
  - apply sum_len_nonneg.
  - apply sum_len_nonneg.
  - apply sum_len_nonneg.
Qed.
Lemma whole_nonneg c : 0 <= whole c.
Proof. pose proof (whole_size c). pose proof (cmd_size_nonneg c). lia. Qed.
Lemma pairs_whole l ks vs : are_pairs l ks vs -> sum_len ks + sum_len vs = args_size l.
Proof.
  induction 1 as [|a b k v l ks vs Ha Hb _ IH]; cbn [sum_len args_size]; [lia|].
  apply str_size_is in Ha, Hb. lia.
Qed.
Lemma call_whole w args c : call w args c -> whole c <= 20 + args_size args.
Proof.
  intros H. destruct H;
    repeat match goal with
    | H : takes1 _ _ |- _ => destruct H | H : takes2 _ _ |- _ => destruct H | H : takes_many _ _ |- _ => destruct H
    | H : takes_key_many _ _ |- _ => destruct H | H : takes_range _ _ |- _ => destruct H
    | H : takes_int_str _ _ |- _ => destruct H | H : takes_count _ _ |- _ => destruct H
    | H : is_str _ _ |- _ => apply str_size_is in H
    | H : are_strs _ _ |- _ => apply strs_size in H
    | H : are_pairs _ _ _ |- _ => apply pairs_whole in H
    end; cbn [whole args_size];
    repeat match goal with |- context [str_size ?o] => lazymatch goal with H : 0 <= str_size o |- _ => fail | _ =>
      assert (0 <= str_size o) by (destruct o; cbn; try lia; apply blen_nonneg) end end;
    repeat match goal with |- context [args_size ?o] => lazymatch goal with H : 0 <= args_size o |- _ => fail | _ =>
      pose proof (args_size_nonneg o) end end; try lia.
Qed.
Lemma asks_whole q c : asks q c -> whole c <= request_size q.
Proof.
  intros (o & name & w & args & He & Hs & _ & Hc). apply call_whole in Hc. inversion He; subst. cbn [request_size args_size].
  assert (0 <= str_size o) by (destruct o; cbn; try lia; apply blen_nonneg). lia.
Qed.

(* ---- what is stored stays small ---- *)
Lemma held_with_ss n s x : held n s -> bounded n (with_ss s x) -> held n (with_ss s x).
Proof. intros [A B C D E] H. constructor; auto. Qed.
Lemma held_with_sl n s k l : held n s -> bounded n (with_sl s (<[k := l]> (sl s))) -> (forall x, x ∈ l -> blen x <= n) -> held n (with_sl s (<[k := l]> (sl s))).
Proof.
  intros [A B C D E] H HL. constructor; auto. cbn. intros j l' x. destruct (decide (j = k)) as [->|].
  - rewrite lookup_insert. intros [= <-]. apply HL.
  - rewrite lookup_insert_ne by congruence. apply B.
Qed.
Lemma held_with_sh (n : Z) (s : sdb) (k : bytes) (h : gmap bytes bytes) : held n s -> Z.of_nat (size h) <= n -> (forall f v, h !! f = Some v -> blen f <= n /\ blen v <= n) ->
  held n (with_sh s (<[k := h]> (sh s))).
Proof.
  intros [A B C D E] H HL. constructor; auto; cbn.
  - now apply bounded_sh.
  - intros j h'. destruct (decide (j = k)) as [->|].
    + rewrite lookup_insert. now intros [= <-].
    + rewrite lookup_insert_ne by congruence. apply C.
  - intros j h' f v. destruct (decide (j = k)) as [->|].
    + rewrite lookup_insert. intros [= <-]. apply HL.
    + rewrite lookup_insert_ne by congruence. apply D.
Qed.
Lemma held_with_st (n : Z) (s : sdb) (k : bytes) (X U : gset bytes) : held n s -> bounded n (with_st s (<[k := X]> (st s))) ->
  Z.of_nat (size U) <= n -> (forall x, x ∈ U -> blen x <= n) -> (forall j (Y : gset bytes), st s !! j = Some Y -> Y ⊆ U) -> X ⊆ U ->
  held n (with_st s (<[k := X]> (st s))).
Proof.
  intros [A B C D _] H H1 H2 H3 H4. constructor; auto. exists U. split; [exact H1|]. split; [exact H2|].
  cbn. intros j Y. destruct (decide (j = k)) as [->|].
  - rewrite lookup_insert. intros [= <-]. exact H4.
  - rewrite lookup_insert_ne by congruence. apply H3.
Qed.

Lemma in_remove_first v x l : forall n, x ∈ remove_first n v l -> x ∈ l.
Proof.
  induction l as [|y l IH]; intros [|n] H; cbn [remove_first] in H; auto.
  destruct (bytes_eqb y v); [right; eauto|]. apply elem_of_cons in H as [->|H]; [left|right; eauto].
Qed.
Lemma in_lrem n v l x : x ∈ lrem_spec n v l -> x ∈ l.
Proof.
  unfold lrem_spec, remove_last. destruct (n =? 0); [apply in_remove_first|]. destruct (0 <? n); [apply in_remove_first|].
  intros H. apply elem_of_list_In, in_rev, elem_of_list_In in H. apply in_remove_first in H.
  apply elem_of_list_In, in_rev, elem_of_list_In. exact H.
Qed.
Lemma in_firstn {A} n (l : list A) x : x ∈ firstn n l -> x ∈ l.
Proof. intros H. rewrite <- (firstn_skipn n l). apply elem_of_app. auto. Qed.
Lemma in_skipn {A} n (l : list A) x : x ∈ skipn n l -> x ∈ l.
Proof. intros H. rewrite <- (firstn_skipn n l). apply elem_of_app. auto. Qed.
Lemma in_seg a b l r x : seg_sel a b l = Some r -> x ∈ r -> x ∈ l.
Proof. unfold seg_sel. destruct (_ && _); [|discriminate]. intros [= <-] H. apply in_firstn, in_skipn in H. exact H. Qed.
Lemma in_insert_near after p v l x : forall r, insert_near after p v l = Some r -> x ∈ r -> x = v \/ x ∈ l.
Proof.
  induction l as [|y l IH]; intros r; cbn [insert_near]; [discriminate|].
  destruct (bytes_eqb y p).
  - intros [= <-]. destruct after; rewrite !elem_of_cons; tauto.
  - destruct (insert_near after p v l) as [r'|]; [|discriminate]. intros [= <-]. rewrite !elem_of_cons.
    intros [->|H]; [tauto|]. destruct (IH r' eq_refl H); tauto.
Qed.
Lemma in_put_pairs l : forall m f v, put_pairs m l !! f = Some v -> m !! f = Some v \/ (f, v) ∈ l.
Proof.
  induction l as [|[a b] l IH]; intros m f v H; cbn [put_pairs] in H; [auto|].
  apply IH in H as [H|H]; [|right; now right].
  destruct (decide (f = a)) as [->|].
  - rewrite lookup_insert in H. injection H as ->. right. left.
  - rewrite lookup_insert_ne in H by congruence. auto.
Qed.
Lemma put_pairs_size l : forall m, (size (put_pairs m l) <= size m + length l)%nat.
Proof.
  induction l as [|[a b] l IH]; intros m; cbn [put_pairs length]; [lia|]. specialize (IH (<[a := b]> m)).
  assert (size (<[a := b]> m) <= S (size m))%nat; [|lia].
  destruct (m !! a) eqn:E; [rewrite map_size_insert_Some by eauto; lia|rewrite map_size_insert_None by auto; lia].
Qed.
Lemma in_zip (f v : bytes) fs vs : (f, v) ∈ zip fs vs -> blen f <= sum_len fs /\ blen v <= sum_len vs.
Proof.
  intros H. split; apply sum_len_in.
  - eapply elem_of_zip_l; eauto.
  - eapply elem_of_zip_r; eauto.
Qed.
Lemma held_value n s k v : held n s -> 0 <= n -> ss s !! k = Some v -> blen v <= n.
Proof. intros H _ E. exact (b_s _ _ (hd_b _ _ H) _ _ E). Qed.
Lemma held_element n s k x : held n s -> x ∈ list_or_nil s k -> blen x <= n.
Proof. intros H. unfold list_or_nil. destruct (sl s !! k) eqn:E; cbn; [apply (hd_l _ _ H _ _ _ E)|now intros ?%elem_of_nil]. Qed.
Lemma held_hash n s k : held n s -> 0 <= n -> Z.of_nat (size (default ∅ (sh s !! k))) <= n.
Proof. intros H Hn. destruct (sh s !! k) eqn:E; cbn; [apply (hd_h _ _ H _ _ E)|rewrite map_size_empty; lia]. Qed.
Lemma held_field n s k f v : held n s -> default ∅ (sh s !! k) !! f = Some v -> blen f <= n /\ blen v <= n.
Proof. intros H. destruct (sh s !! k) eqn:E; cbn; [apply (hd_f _ _ H _ _ _ _ E)|rewrite lookup_empty; discriminate]. Qed.

Lemma spec_held n s c s' r : held n s -> 0 <= n -> spec s c (Some (s', r)) -> held (n + whole c) s'.
Proof.
  intros Hb Hn Hs. pose proof (whole_nonneg c) as Hc0.
  assert (HS : held (n + whole c) s) by (eapply held_mono; [eauto|lia]).
  assert (HB : bounded (n + whole c) s').
  { eapply bounded_mono; [exact (spec_bounded n _ _ _ _ (hd_b _ _ Hb) Hn Hs)|]. pose proof (whole_size c). lia. }
  assert (Hsets : forall op ks, spec_sets op s ks (Some (s', r)) -> s' = s).
  { intros op ks H. unfold spec_sets in H. destruct (map (set_or_empty s) ks); [now injection H as -> ->|].
    destruct H as [(_ & H)|(_ & l' & _ & H)]; now injection H as -> ->. }
  assert (Harith : forall f k a, spec_arith f s k a (Some (s', r)) -> s' = s \/ exists x, s' = with_ss s x).
  { intros f k a H. destruct H as [(m & _ & H)|(_ & H)]; [|injection H as -> ->; auto].
    destruct (ss s !! k) eqn:E; [|injection H as -> ->; auto].
    destruct H as [(v & t' & _ & Hcan & H)|(_ & H)]; [|injection H as -> ->; auto]. injection H as -> ->. eauto. }
  destruct c; cbn [spec] in Hs; cbn [whole] in *;
    try (apply Harith in Hs as [->|(x & ->)]; [exact HS|now apply held_with_ss]); try (apply Hsets in Hs as ->; exact HS);
    try (injection Hs as -> ->; first [exact HS | now apply held_with_ss]).
  - destruct (bool_decide (ks = [])); injection Hs as -> ->; auto. now apply held_with_ss.
  - destruct (sl s !! k) as [[|v vs]|] eqn:E; injection Hs as -> ->; auto. apply held_with_sl; auto.
    intros x Hx. apply (hd_l _ _ HS _ _ _ E). now right.
  - destruct (list_or_nil s k); [now injection Hs as -> ->|]. destruct Hs as (vs & v & E & Hs). injection Hs as -> ->.
    apply held_with_sl; auto. intros x Hx. apply (hd_l _ _ HS _ _ _ E). apply elem_of_app. auto.
  - destruct (bool_decide (k = [])); injection Hs as -> ->; auto. apply held_with_sl; auto.
    intros x Hx. apply elem_of_app in Hx as [Hx|Hx]; [|now apply (held_element _ _ _ _ HS Hx)].
    apply elem_of_list_In, in_rev, elem_of_list_In, sum_len_in in Hx. lia.
  - destruct (bool_decide (k = [])); injection Hs as -> ->; auto. apply held_with_sl; auto.
    intros x Hx. apply elem_of_app in Hx as [Hx|Hx]; [now apply (held_element _ _ _ _ HS Hx)|].
    apply sum_len_in in Hx. lia.
  - destruct (seg_sel _ _ _); now injection Hs as -> ->.
  - destruct (sl s !! k) as [l|] eqn:E; [|now injection Hs as -> ->]. destruct (_ && _); injection Hs as -> ->; auto.
    apply held_with_sl; auto. intros x Hx. apply elem_of_list_lookup in Hx as (j & Hx).
    apply list_lookup_insert_Some in Hx as [(_ & <- & _)|(_ & Hx)]; [lia|]. apply (hd_l _ _ HS _ _ _ E). eapply elem_of_list_lookup_2; eauto.
  - destruct (sl s !! k) as [l|] eqn:E; [|now injection Hs as -> ->]. destruct (count =? - 2 ^ 63); [now injection Hs as -> ->|].
    destruct (bool_decide (v = reserved)).
    + destruct (_ && _); [now injection Hs as -> ->|discriminate].
    + injection Hs as -> ->. apply held_with_sl; auto. intros x Hx. apply in_lrem in Hx. apply (hd_l _ _ HS _ _ _ E Hx).
  - destruct (sl s !! k) as [l|] eqn:E; [|now injection Hs as -> ->]. destruct (seg_sel a b l) eqn:E2; injection Hs as -> ->; auto.
    apply held_with_sl; auto. intros x Hx. apply (hd_l _ _ HS _ _ _ E). eapply in_seg; eauto.
  - destruct (sl s !! k) as [l|] eqn:E; [|now injection Hs as -> ->]. pose proof (blen_nonneg v) as Hv. destruct (bool_decide (pivot = reserved)).
    + destruct after; [injection Hs as -> ->|discriminate]. apply held_with_sl; auto. intros x Hx.
      apply elem_of_cons in Hx as [->|Hx]; [lia|]. apply (hd_l _ _ HS _ _ _ E Hx).
    + destruct (insert_near after pivot v l) eqn:E2; injection Hs as -> ->; auto. apply held_with_sl; auto. intros x Hx.
      destruct (in_insert_near _ _ _ _ _ _ E2 Hx) as [->|Hx']; [lia|]. apply (hd_l _ _ HS _ _ _ E Hx').
  - destruct (bool_decide (k = [])); [discriminate|]. pose proof (sum_len_nonneg fs). pose proof (sum_len_nonneg vs).
    destruct (bool_decide (fs = [])); injection Hs as -> ->; apply held_with_sh; auto.
    + pose proof (held_hash _ _ k Hb Hn). lia.
    + intros f v E. destruct (held_field _ _ _ _ _ HS E). lia.
    + pose proof (put_pairs_size (zip fs vs) (default ∅ (sh s !! k))) as P. rewrite zip_with_length in P.
      pose proof (held_hash _ _ k Hb Hn). pose proof (sum_len_length fs). lia.
    + intros f v E. apply in_put_pairs in E as [E|E]; [destruct (held_field _ _ _ _ _ HS E); lia|]. apply in_zip in E. lia.
  - destruct (sh s !! k); [|now injection Hs as -> ->]. destruct (bool_decide _); now injection Hs as -> ->.
  - destruct (sh s !! k); [|now injection Hs as -> ->]. destruct (bool_decide _); now injection Hs as -> ->.
  - destruct (sh s !! k); [|now injection Hs as -> ->]. destruct Hs as (l & _ & Hs). now injection Hs as -> ->.
  - destruct (sh s !! k); [|now injection Hs as -> ->]. destruct Hs as (l & _ & Hs). now injection Hs as -> ->.
  - destruct (sh s !! k); [|now injection Hs as -> ->]. destruct Hs as (l & _ & Hs). now injection Hs as -> ->.
  - destruct (sh s !! k); [|now injection Hs as -> ->]. destruct (bool_decide _); now injection Hs as -> ->.
  - destruct (sh s !! k) as [h|] eqn:E; [|now injection Hs as -> ->]. destruct Hs as (h' & Hh & Hs). injection Hs as -> ->.
    assert (Sub : h' ⊆ h).
    { apply map_subseteq_spec. intros f v. rewrite Hh. destruct (bool_decide (f ∈ fs)); [discriminate|auto]. }
    apply held_with_sh; auto.
    + pose proof (subseteq_dom (D := gset bytes) _ _ Sub) as Sd. apply subseteq_size in Sd. rewrite !size_dom in Sd. pose proof (hd_h _ _ HS _ _ E). lia.
    + intros f v Ev. apply (hd_f _ _ HS _ _ _ _ E). eapply lookup_weaken; eauto.
  - destruct (bool_decide (k = [])); [discriminate|]. injection Hs as -> ->. destruct (hd_u _ _ Hb) as (U & U1 & U2 & U3).
    pose proof (sum_len_length vs) as Lv. pose proof (size_list vs) as Lz.
    apply (held_with_st _ _ _ _ (U ∪ list_to_set vs)); auto.
    + rewrite size_union_alt. assert (size (list_to_set vs ∖ U : gset bytes) <= size (list_to_set vs : gset bytes))%nat by (apply subseteq_size; set_solver). lia.
    + intros x Hx. apply elem_of_union in Hx as [Hx|Hx]; [pose proof (U2 x Hx); lia|]. apply elem_of_list_to_set, sum_len_in in Hx. lia.
    + intros j Y E. pose proof (U3 j Y E). set_solver.
    + unfold set_or_empty. destruct (st s !! k) eqn:E; cbn [default]; [pose proof (U3 _ _ E); set_solver|set_solver].
  - destruct (st s !! k); [|now injection Hs as -> ->]. destruct Hs as (l & _ & Hs). now injection Hs as -> ->.
  - destruct (st s !! k); [|now injection Hs as -> ->]. destruct (bool_decide _); now injection Hs as -> ->.
  - destruct (bool_decide (k = [])); [discriminate|]. injection Hs as -> ->. destruct (hd_u _ _ HS) as (U & U1 & U2 & U3).
    apply (held_with_st _ _ _ _ U); auto. unfold set_or_empty. destruct (st s !! k) eqn:E; cbn [default]; [pose proof (U3 _ _ E); set_solver|set_solver].
  - destruct (st s !! k) as [X|] eqn:E; [|now injection Hs as -> ->]. destruct Hs as (l & _ & Hs). destruct (pick_reply l count_set); [|discriminate].
    injection Hs as -> ->. destruct (hd_u _ _ HS) as (U & U1 & U2 & U3). apply (held_with_st _ _ _ _ U); auto. pose proof (U3 _ _ E). set_solver.
  - destruct (st s !! k) as [X|] eqn:E; [|now injection Hs as -> ->]. destruct Hs as (l & _ & Hs). destruct (pick_reply l count_set); [|discriminate].
    now injection Hs as -> ->.
Qed.
Lemma answer_held n s q s' r : held n s -> 0 <= n -> answer s q (Some (s', r)) -> held (n + request_size q) s'.
Proof.
  intros Hb Hn Ha. pose proof (request_size_nonneg q) as Hq.
  assert (HS : held (n + request_size q) s) by (eapply held_mono; [eauto|lia]).
  inversion Ha as [| | | | | |c s1 r1 Hasks Hsp|c s1 e r1 Hasks Hsp Het]; subst; auto.
  - apply asks_whole in Hasks. eapply held_mono; [exact (spec_held n _ _ _ _ Hb Hn Hsp)|lia].
  - apply asks_whole in Hasks. eapply held_mono; [exact (spec_held n _ _ _ _ Hb Hn Hsp)|lia].
Qed.

(* ---- what is replied ---- *)
Definition leaf (n : Z) (r : robj) : Prop := match r with RBulk d => blen d <= n | RNullBulk => True | _ => False end.
Lemma leaf_ok n r : leaf n r -> n < 2 ^ 62 -> obj_ok r.
Proof. destruct r; cbn; intros H Hn; try contradiction; constructor. lia. Qed.
Lemma array_ok n (l : list robj) : n < 2 ^ 62 -> Z.of_nat (length l) < 2 ^ 63 -> (forall r, r ∈ l -> leaf n r) -> obj_ok (RArr l).
Proof.
  intros Hn Hl H. constructor; [exact Hl|]. apply List.Forall_forall. intros r Hr. apply elem_of_list_In in Hr. exact (leaf_ok n r (H r Hr) Hn).
Qed.
Lemma bulks_ok n (l : list bytes) : n < 2 ^ 62 -> Z.of_nat (length l) < 2 ^ 63 -> (forall x, x ∈ l -> blen x <= n) -> obj_ok (RArr (map RBulk l)).
Proof.
  intros Hn Hl H. apply (array_ok n); [exact Hn|now rewrite map_length|]. intros r Hr. apply elem_of_list_In, in_map_iff in Hr as (x & <- & Hx).
  cbn. apply H. now apply elem_of_list_In.
Qed.
Lemma opt_ok n v : n < 2 ^ 62 -> (forall x, v = Some x -> blen x <= n) -> obj_ok (r_opt v).
Proof. intros Hn H. destruct v; cbn; constructor. pose proof (H _ eq_refl). lia. Qed.
Lemma opt_leaf n v : (forall x, v = Some x -> blen x <= n) -> leaf n (r_opt v).
Proof. intros H. destruct v; cbn; auto. Qed.
Lemma nat_ok n m : n < 2 ^ 62 -> Z.of_nat m <= n -> obj_ok (r_nat m).
Proof. intros Hn H. constructor. unfold int64_ok. lia. Qed.
Lemma set_length (l : list bytes) (X : gset bytes) : lists_set l X -> length l = size X.
Proof.
  intros [Nd H]. rewrite <- (size_list_to_set (C := gset bytes) l Nd). f_equal. apply set_eq. intros x. rewrite elem_of_list_to_set. apply H.
Qed.
Lemma str_range_length a b t : blen (str_range a b t) <= blen t.
Proof.
  unfold str_range. destruct (_ && _); [|apply blen_nonneg]. unfold sub_list, blen. rewrite firstn_length, skipn_length. lia.
Qed.

Lemma spec_reply n s c s' r : held n s -> 0 <= n -> n + whole c < 2 ^ 62 -> spec s c (Some (s', inl r)) -> obj_ok r.
Proof.
  intros Hb Hn Hw Hs. pose proof (whole_nonneg c) as Hc0.
  assert (OK : obj_ok r_ok).
  { constructor. intros a b. split; intros E; apply (f_equal (fun l => existsb (fun c => (byteZ c =? 10)) l)) in E; rewrite existsb_app in E; cbn in E; rewrite orb_true_r in E; discriminate. }
  assert (I0 : obj_ok (RInt 0)) by (constructor; unfold int64_ok; lia).
  assert (I1 : obj_ok (RInt 1)) by (constructor; unfold int64_ok; lia).
  assert (Im : obj_ok (RInt (-1))) by (constructor; unfold int64_ok; lia).
  assert (NB : obj_ok RNullBulk) by constructor. assert (NA : obj_ok RNullArr) by constructor.
  assert (N1 : n < 2 ^ 62) by lia.
  assert (Harith : forall f k a, spec_arith f s k a (Some (s', inl r)) -> obj_ok r).
  { intros f k a H. destruct H as [(m & _ & H)|(_ & H)]; [|discriminate].
    destruct (ss s !! k) eqn:E; [|discriminate].
    destruct H as [(v & t' & _ & Hcan & H)|(_ & H)]; [|discriminate]. injection H as _ ->. constructor. apply wrap64_ok. }
  destruct (hd_u _ _ Hb) as (U & U1 & U2 & U3).
  assert (Each : forall k, set_or_empty s k ⊆ U) by (intros k; unfold set_or_empty; destruct (st s !! k) eqn:E; cbn [default]; [exact (U3 _ _ E)|set_solver]).
  assert (Hset : forall l (X : gset bytes), X ⊆ U -> lists_set l X -> obj_ok (RArr (map RBulk l))).
  { intros l X HX Hl. apply (bulks_ok n); [exact N1| |].
    - rewrite (set_length _ _ Hl). apply subseteq_size in HX. lia.
    - intros x Hx. apply U2, HX. now apply Hl. }
  assert (Hsets : forall op ks, (forall X Xs, X ⊆ U -> Forall (fun Y => Y ⊆ U) Xs -> op X Xs ⊆ U) ->
    spec_sets op s ks (Some (s', inl r)) -> obj_ok r).
  { intros op ks Hop H. unfold spec_sets in H. destruct (map (set_or_empty s) ks) as [|X Xs] eqn:E; [injection H as _ ->; exact NA|].
    destruct H as [(_ & H)|(_ & l' & Hl & H)]; [injection H as _ ->; exact NA|]. injection H as _ ->. refine (Hset l' _ _ Hl).
    assert (F : Forall (fun Y => Y ⊆ U) (map (set_or_empty s) ks)).
    { apply List.Forall_forall. intros Y HY. apply in_map_iff in HY as (k & <- & _). apply Each. }
    rewrite E in F. inversion F; subst. auto. }
  assert (Hpick : forall l cs X, (X ⊆ U) -> forall m, picks l m X -> pick_reply l cs = Some r -> obj_ok r).
  { intros l cs X HX m (Nd & Hin & Hl) E. assert (L : Z.of_nat (length l) < 2 ^ 63) by (apply subseteq_size in HX; lia).
    assert (B : obj_ok (RArr (map RBulk l))) by (apply (bulks_ok n); auto; intros x Hx; apply U2, HX, Hin, Hx).
    destruct cs; cbn in E.
    - destruct l; injection E as <-; auto.
    - destruct l; [discriminate|]. injection E as <-. constructor. assert (blen b <= n) by (apply U2, HX, Hin; left). lia. }
  destruct c; cbn [spec] in Hs; cbn [whole] in *; try (eapply Harith; exact Hs); try (injection Hs as _ ->; exact OK).
  - injection Hs as _ ->. apply (opt_ok n); auto. intros x Hx. exact (b_s _ _ (hd_b _ _ Hb) _ _ Hx).
  - destruct (bool_decide (ks = [])); [discriminate|]. injection Hs as _ ->. exact OK.
  - injection Hs as _ ->. apply (array_ok n); auto.
    + rewrite map_length. pose proof (sum_len_length ks). lia.
    + intros r Hr. apply elem_of_list_In, in_map_iff in Hr as (k & <- & _). apply opt_leaf. intros x Hx. exact (b_s _ _ (hd_b _ _ Hb) _ _ Hx).
  - injection Hs as _ ->. apply (nat_ok (n + sum_len ks)); [lia|]. pose proof (sum_len_length ks).
    pose proof (filter_length (fun k => is_Some (ss s !! k)) ks). lia.
  - injection Hs as _ ->. constructor. pose proof (bounded_text n s k (hd_b _ _ Hb) Hn). pose proof (blen_nonneg (text (ss s !! k))). unfold int64_ok. lia.
  - injection Hs as _ ->. constructor. rewrite blen_app. pose proof (bounded_text n s k (hd_b _ _ Hb) Hn). pose proof (blen_nonneg (text (ss s !! k))). unfold int64_ok. lia.
  - injection Hs as _ ->. constructor. pose proof (str_range_length a b (text (ss s !! k))). pose proof (bounded_text n s k (hd_b _ _ Hb) Hn). lia.
  - destruct (sl s !! k) as [[|v vs]|] eqn:E; injection Hs as _ ->; auto. constructor. pose proof (hd_l _ _ Hb _ _ v E ltac:(left)). lia.
  - destruct (list_or_nil s k); [injection Hs as _ ->; auto|]. destruct Hs as (vs & v & E & Hs). injection Hs as _ ->. constructor.
    assert (blen v <= n); [|lia]. apply (hd_l _ _ Hb _ _ _ E), elem_of_app. right. left.
  - destruct (bool_decide (k = [])); [discriminate|]. injection Hs as _ ->. apply (nat_ok (n + sum_len vs)); [lia|].
    rewrite app_length, rev_length. pose proof (bounded_list n s k (hd_b _ _ Hb) Hn). pose proof (sum_len_length vs). lia.
  - destruct (bool_decide (k = [])); [discriminate|]. injection Hs as _ ->. apply (nat_ok (n + sum_len vs)); [lia|].
    rewrite app_length. pose proof (bounded_list n s k (hd_b _ _ Hb) Hn). pose proof (sum_len_length vs). lia.
  - destruct (seg_sel _ _ _) eqn:E; injection Hs as _ ->; auto. apply (bulks_ok n); auto.
    + pose proof (bounded_list n s k (hd_b _ _ Hb) Hn). apply seg_length in E. lia.
    + intros x Hx. eapply held_element; eauto. eapply in_seg; eauto.
  - injection Hs as _ ->. apply (opt_ok n); auto. intros x Hx. destruct (0 <=? _); [|discriminate]. eapply held_element; eauto. eapply elem_of_list_lookup_2; eauto.
  - injection Hs as _ ->. apply (nat_ok n); auto. exact (bounded_list n s k (hd_b _ _ Hb) Hn).
  - destruct (sl s !! k); [|discriminate]. destruct (_ && _); [|discriminate]. injection Hs as _ ->. exact OK.
  - destruct (sl s !! k) as [l|] eqn:E; [|injection Hs as _ ->; auto]. destruct (count =? - 2 ^ 63); [injection Hs as _ ->; auto|].
    destruct (bool_decide (v = reserved)).
    + destruct (_ && _); [injection Hs as _ ->; auto|discriminate].
    + injection Hs as _ ->. constructor. pose proof (b_l _ _ (hd_b _ _ Hb) _ _ E). pose proof (lrem_length count v l). unfold int64_ok. lia.
  - destruct (sl s !! k) as [l|]; [|injection Hs as _ ->; auto]. destruct (seg_sel a b l); injection Hs as _ ->; auto.
  - destruct (sl s !! k) as [l|] eqn:E; [|injection Hs as _ ->; auto]. pose proof (b_l _ _ (hd_b _ _ Hb) _ _ E) as HL. pose proof (blen_nonneg v). destruct (bool_decide (pivot = reserved)).
    + destruct after; [injection Hs as _ ->|discriminate]. apply (nat_ok (n + 1)); lia.
    + destruct (insert_near after pivot v l) eqn:E2; injection Hs as _ ->; auto. apply insert_near_length in E2. apply (nat_ok (n + 1)); lia.
  - destruct (bool_decide (k = [])); [discriminate|]. destruct (bool_decide (fs = [])); [discriminate|]. injection Hs as _ ->.
    pose proof (sum_len_length fs). pose proof (size_list fs). pose proof (sum_len_nonneg vs).
    apply (nat_ok (n + sum_len fs)); [lia|]. assert (size (list_to_set fs ∖ dom (default ∅ (sh s !! k)) : gset bytes) <= size (list_to_set fs : gset bytes))%nat by (apply subseteq_size; set_solver). lia.
  - destruct (sh s !! k) eqn:E; [|injection Hs as _ ->; auto]. destruct (bool_decide _); [discriminate|]. injection Hs as _ ->.
    apply (opt_ok n); auto. intros x Hx. apply (hd_f _ _ Hb _ _ _ _ E Hx).
  - injection Hs as _ ->. apply (array_ok n); auto.
    + rewrite map_length. pose proof (sum_len_length fs). lia.
    + intros r Hr. apply elem_of_list_In, in_map_iff in Hr as (f & <- & _). apply opt_leaf. intros x Hx. apply (held_field _ _ _ _ _ Hb Hx).
  - destruct (sh s !! k) eqn:E; [|injection Hs as _ ->; auto]. destruct (bool_decide _); [discriminate|]. injection Hs as _ ->. now destruct (bool_decide _).
  - injection Hs as _ ->. apply (nat_ok n); auto. now apply held_hash.
  - destruct (sh s !! k) as [h|] eqn:E; [|injection Hs as _ ->; auto]. destruct Hs as (l & Hl & Hs). injection Hs as _ ->.
    pose proof (set_length _ _ Hl) as L. rewrite size_dom in L. pose proof (hd_h _ _ Hb _ _ E).
    apply (array_ok n); auto.
    + assert (L2 : length (flat_map (fun f => [RBulk f; r_opt (h !! f)]) l) = (2 * length l)%nat) by (clear; induction l; cbn in *; lia). lia.
    + intros r Hr. apply elem_of_list_In, in_flat_map in Hr as (f & Hf & Hr). apply elem_of_list_In in Hf. apply Hl, elem_of_dom in Hf as [v Hv].
      destruct (hd_f _ _ Hb _ _ _ _ E Hv). cbn in Hr. destruct Hr as [<-|[<-|[]]]; [assumption|]. rewrite Hv. assumption.
  - destruct (sh s !! k) as [h|] eqn:E; [|injection Hs as _ ->; auto]. destruct Hs as (l & Hl & Hs). injection Hs as _ ->.
    pose proof (set_length _ _ Hl) as L. rewrite size_dom in L. pose proof (hd_h _ _ Hb _ _ E).
    apply (bulks_ok n); auto; [lia|]. intros f Hf. apply Hl, elem_of_dom in Hf as [v Hv]. apply (hd_f _ _ Hb _ _ _ _ E Hv).
  - destruct (sh s !! k) as [h|] eqn:E; [|injection Hs as _ ->; auto]. destruct Hs as (l & Hl & Hs). injection Hs as _ ->.
    pose proof (set_length _ _ Hl) as L. rewrite size_dom in L. pose proof (hd_h _ _ Hb _ _ E).
    apply (array_ok n); auto; [rewrite map_length; lia|].
    intros r Hr. apply elem_of_list_In, in_map_iff in Hr as (f & <- & _). apply opt_leaf. intros v Hv. apply (hd_f _ _ Hb _ _ _ _ E Hv).
  - destruct (sh s !! k) as [h|] eqn:E; [|injection Hs as _ ->; auto]. destruct (bool_decide _); [discriminate|]. injection Hs as _ ->. constructor.
    assert (0 <= blen (text (h !! f)) <= n); [|unfold int64_ok; lia]. split; [apply blen_nonneg|]. destruct (h !! f) eqn:Ef; cbn [text]; [apply (hd_f _ _ Hb _ _ _ _ E Ef)|exact Hn].
  - destruct (sh s !! k) as [h|] eqn:E; [|injection Hs as _ ->; auto]. destruct Hs as (h' & _ & Hs). injection Hs as _ ->.
    pose proof (sum_len_length fs). pose proof (size_list fs).
    apply (nat_ok (n + sum_len fs)); [lia|]. assert (size (list_to_set fs ∩ dom h : gset bytes) <= size (list_to_set fs : gset bytes))%nat by (apply subseteq_size; set_solver). lia.
  - injection Hs as _ ->. apply (nat_ok n); auto. pose proof (Each k) as S1. apply subseteq_size in S1. lia.
  - destruct (bool_decide (k = [])); [discriminate|]. injection Hs as _ ->. pose proof (sum_len_length vs). pose proof (size_list vs).
    apply (nat_ok (n + sum_len vs)); [lia|]. assert (size (list_to_set vs ∖ set_or_empty s k : gset bytes) <= size (list_to_set vs : gset bytes))%nat by (apply subseteq_size; set_solver). lia.
  - destruct (st s !! k) as [X|] eqn:E; [|injection Hs as _ ->; auto]. destruct Hs as (l & Hl & Hs). injection Hs as _ ->. exact (Hset l X (U3 _ _ E) Hl).
  - destruct (st s !! k) as [X|] eqn:E; [|injection Hs as _ ->; auto]. destruct (bool_decide (v = [])); [discriminate|]. injection Hs as _ ->. now destruct (bool_decide _).
  - destruct (bool_decide (k = [])); [discriminate|]. injection Hs as _ ->. apply (nat_ok n); [exact N1|].
    pose proof (Each k) as S1. apply subseteq_size in S1. assert (size (set_or_empty s k ∩ list_to_set vs) <= size (set_or_empty s k))%nat by (apply subseteq_size; set_solver). lia.
  - destruct (st s !! k) as [X|] eqn:E; [|injection Hs as _ ->; destruct count_set; auto]. destruct Hs as (l & Hl & Hs).
    destruct (pick_reply l count_set) eqn:P; [|discriminate]. injection Hs as _ ->. eapply Hpick; [exact (U3 _ _ E)|exact Hl|exact P].
  - destruct (st s !! k) as [X|] eqn:E; [|injection Hs as _ ->; destruct count_set; auto]. destruct Hs as (l & Hl & Hs).
    destruct (pick_reply l count_set) eqn:P; [|discriminate]. injection Hs as _ ->. eapply Hpick; [exact (U3 _ _ E)|exact Hl|exact P].
  - revert Hs. apply Hsets. intros X Xs HX HXs. set_solver.
  - revert Hs. apply Hsets. intros X Xs HX HXs. revert X HX. induction Xs as [|Y Xs IH]; intros X HX; cbn; [exact HX|]. inversion HXs; subst. apply IH; auto. set_solver.
  - revert Hs. apply Hsets. intros X Xs HX HXs. apply union_subseteq. split; [exact HX|]. induction Xs as [|Y Xs IH]; cbn; [set_solver|]. inversion HXs; subst.
    apply union_subseteq. auto.
Qed.

(* An internal error whose text is not a line breaks the framing. *)
Definition has_break (l : bytes) : bool := existsb (fun c => (byteZ c =? 10) || (byteZ c =? 13)) l.
Lemma no_break_line l : has_break l = false -> line_ok l.
Proof.
  intros H a b. split; intros ->; unfold has_break in H; rewrite existsb_app in H; cbn in H; rewrite orb_true_r in H; discriminate.
Qed.
Lemma after_clean p t : has_break p = false -> line_ok t -> line_ok (p ++ t).
Proof.
  induction p as [|c p IH]; [auto|]. cbn. intros H Ht. apply orb_false_iff in H as [Hc Hp]. specialize (IH Hp Ht).
  intros a b. destruct (IH (tl a) b) as [A B]. split; (destruct a as [|c' a]; intros E; injection E as -> E; [vm_compute in Hc; discriminate|]); [apply A|apply B]; exact E.
Qed.
Lemma fixed_error (w : string) : has_break (bs w) = false -> obj_ok (err w).
Proof. intros H. constructor. now apply no_break_line. Qed.
Lemma internal_ok r : is_internal_error r -> clean_text r -> obj_ok r.
Proof. intros [t ->] H. constructor. apply after_clean; [reflexivity|]. now apply H. Qed.
Lemma answer_reply n s q s' r : held n s -> 0 <= n -> n + request_size q < 2 ^ 62 -> answer s q (Some (s', Some r)) -> clean_text r -> obj_ok r.
Proof.
  intros Hb Hn Hq Ha Hc.
  inversion Ha as [|r1 P I|o a r1 P I I2|o a nm P I N|o a nm w P I I2 I3 I4| |c s1 r1 Hasks Hsp|c s1 e r1 Hasks Hsp Het]; subst.
  - now apply internal_ok.
  - now apply internal_ok.
  - apply fixed_error. reflexivity.
  - apply fixed_error. reflexivity.
  - apply asks_whole in Hasks. eapply spec_reply; eauto. lia.
  - destruct e; cbn [error_text] in Het; try (subst r; apply fixed_error; reflexivity). now apply internal_ok.
Qed.
Lemma answers_replies l : forall n s s' rs r, held n s -> 0 <= n -> n + requests_size l < 2 ^ 62 -> answers s l (Some (s', rs)) -> In (Some r) rs -> clean_text r -> obj_ok r.
Proof.
  induction l as [|q l IH]; intros n s s' rs r Hh Hn Hl Ha Hin Hc; inversion Ha as [|? ? ? ?|? ? ? s1 r1 ? rs1 A1 A2|]; subst; [contradiction|].
  cbn [requests_size] in Hl. pose proof (request_size_nonneg q). pose proof (requests_size_nonneg l). destruct Hin as [->|Hin].
  - eapply answer_reply; eauto. lia.
  - eapply (IH (n + request_size q)); eauto; [eapply answer_held; eauto|lia|lia].
Qed.
Theorem replies_ok h d rs r : Forall (fun x => env_ok (fst x)) h -> requests_size (map snd h) < 2 ^ 62 -> run new_db h = Ret (d, rs) ->
  In (Some r) rs -> clean_text r -> obj_ok r.
Proof.
  intros He Hs Hr Hin Hc. pose proof (runs_refine h He Hs) as H. rewrite Hr in H. destruct H as (s & _ & _ & Ha).
  eapply (answers_replies _ 0 _ _ _ _ held_empty); eauto. lia.
Qed.
Theorem replies_framed h d rs r rest : Forall (fun x => env_ok (fst x)) h -> requests_size (map snd h) < 2 ^ 62 -> run new_db h = Ret (d, rs) ->
  In (Some r) rs -> clean_text r -> parse (Resp.encode r ++ rest) = POk r rest.
Proof. intros. apply parse_encode. eapply replies_ok; eauto. Qed.

(* The replies one after the other, as the client reads them. *)
Lemma objects_all os rest : Forall obj_ok os -> objects (flat_map Resp.encode os ++ rest) os rest.
Proof.
  intros H. revert rest. induction os as [|o os IH] using rev_ind; intros rest; [constructor|].
  apply Forall_app in H as [H1 H2]. inversion H2; subst. rewrite flat_map_app, <- app_assoc. cbn [flat_map]. rewrite app_nil_r.
  eapply objects_more; [apply IH; auto|]. now apply parse_encode.
Qed.
Theorem replies_stream h d rs rest : Forall (fun x => env_ok (fst x)) h -> requests_size (map snd h) < 2 ^ 62 -> run new_db h = Ret (d, rs) ->
  (forall r, In (Some r) rs -> clean_text r) -> objects (flat_map Resp.encode (given rs) ++ rest) (given rs) rest.
Proof.
  intros He Hs Hr Hc. apply objects_all. apply List.Forall_forall. intros r Hin. unfold given in Hin. apply in_flat_map in Hin as ([r1|] & Hin & H1); [|contradiction].
  destruct H1 as [->|[]]. eapply replies_ok; eauto.
Qed.

(* Every encoding ends its first line somewhere. *)
Lemma encode_break o : exists a b, Resp.encode o = a ++ CR :: LF :: b.
Proof.
  destruct o as [d|d| |d|z|l|]; cbn [Resp.encode]; unfold CRLF.
  - exists ("+"%char :: d), []. now rewrite <- ?app_assoc.
  - exists ("$"%char :: format_int (blen d)), (d ++ [CR; LF]). now rewrite <- ?app_assoc.
  - eexists (bs "$-1"), []. reflexivity.
  - exists ("-"%char :: d), []. now rewrite <- ?app_assoc.
  - exists (":"%char :: format_int z), []. now rewrite <- ?app_assoc.
  - eexists ("*"%char :: format_int (Z.of_nat (List.length l))), _. rewrite <- ?app_assoc. reflexivity.
  - eexists (bs "*-1"), []. reflexivity.
Qed.
Theorem nameless_broken e d o args rest : str_arg o = None -> blen (Resp.encode o) + blen rest < 2 ^ 62 ->
  exists t, handle e d (RArr (o :: args)) = Ret (d, Some (RErr t)) /\ parse (Resp.encode (RErr t) ++ rest) <> POk (RErr t) rest.
Proof.
  intros Ho Hl. eexists. split. { cbn [handle handle_objects]. rewrite Ho. reflexivity. }
  intros Hp. apply parse_obj_ok in Hp.
  - inversion Hp as [| | |d' Hd| | |]; subst. destruct (encode_break o) as (a & b & E). unfold internal_prefix in Hd. rewrite E in Hd.
    apply (proj1 (Hd (bs "ERR vertex server internal error, err=" ++ bs "invalid command name, raw=" ++ a) b)). now rewrite <- !app_assoc.
  - cbn [error_reply Resp.encode]. unfold blen in Hl. cbn [app List.length]. rewrite ?app_length. unfold CRLF, internal_prefix.
    rewrite ?app_length. cbn [List.length]. change (List.length (bs "ERR vertex server internal error, err=")) with 38%nat.
    change (List.length (bs "invalid command name, raw=")) with 26%nat. lia.
Qed.
