From Verif Require Import Base BaseFacts IntSpec IndexSpec ListSpec IntParse IntParseProofs Resp RespSpec RespProofs Command SpecDb RequestSpec
  CommandProofs Db DbProofs Engine EngineProofs EngineFacts SpecFacts ServerSpec ReplySpec ReplyProofs SizeSpec.
From Coq Require Import ZArith List Ascii String Bool Lia.
From stdpp Require Import gmap.
Open Scope Z_scope.

Lemma item_pos b : 1 <= item b.
Proof. unfold item. pose proof (blen_nonneg b). lia. Qed.
Lemma sum_nonneg {A} (f : A -> Z) l : (forall x, 0 <= f x) -> 0 <= sum f l.
Proof. intros H. induction l as [|x l IH]; cbn; [lia|]. specialize (H x). lia. Qed.
Lemma sum_app {A} (f : A -> Z) l l' : sum f (l ++ l') = sum f l + sum f l'.
Proof. induction l as [|x l IH]; cbn; lia. Qed.
Lemma sum_perm {A} (f : A -> Z) l l' : l ≡ₚ l' -> sum f l = sum f l'.
Proof. induction 1; cbn; lia. Qed.
Lemma sum_sub {A} (f : A -> Z) l l' : (forall x, 0 <= f x) -> l ⊆+ l' -> sum f l <= sum f l'.
Proof. intros H S. apply submseteq_Permutation in S as (k & P). rewrite (sum_perm _ _ _ P), sum_app. pose proof (sum_nonneg f k H). lia. Qed.
Lemma sum_item_len l : sum item l = sum_len l.
Proof. induction l as [|x l IH]; cbn; [reflexivity|]. rewrite IH. reflexivity. Qed.

Section Maps.
  Context {A : Type} (f : A -> Z) (Hf : forall x, 0 <= f x).
  Implicit Types (m : gmap bytes A).
  Lemma entry_nonneg (kv : bytes * A) : 0 <= item (fst kv) + f (snd kv).
  Proof. pose proof (item_pos (fst kv)). pose proof (Hf (snd kv)). lia. Qed.
  Lemma map_sum_nonneg m : 0 <= map_sum f m.
  Proof. apply sum_nonneg. apply entry_nonneg. Qed.
  Lemma map_sum_empty : map_sum f (∅ : gmap bytes A) = 0.
  Proof. unfold map_sum. now rewrite map_to_list_empty. Qed.
  Lemma map_sum_new m k v : m !! k = None -> map_sum f (<[k := v]> m) = item k + f v + map_sum f m.
  Proof. intros H. unfold map_sum. rewrite (sum_perm _ _ _ (map_to_list_insert m k v H)). cbn. lia. Qed.
  Lemma map_sum_insert m k v : map_sum f (<[k := v]> m) = map_sum f m + match m !! k with Some w => f v - f w | None => item k + f v end.
  Proof.
    destruct (m !! k) as [w|] eqn:E; [|rewrite map_sum_new by exact E; lia].
    rewrite <- (insert_delete m k w E) at 2. rewrite <- (insert_delete_insert m k v).
    rewrite !map_sum_new by apply lookup_delete. lia.
  Qed.
  Lemma map_sum_insert_le m k v : map_sum f (<[k := v]> m) <= map_sum f m + item k + f v.
  Proof. rewrite map_sum_insert. pose proof (item_pos k). destruct (m !! k) as [w|]; [pose proof (Hf w)|]; lia. Qed.
  Lemma map_sum_set m k v w d : m !! k = Some w -> f v <= f w + d -> map_sum f (<[k := v]> m) <= map_sum f m + d.
  Proof. intros E H. rewrite map_sum_insert, E. lia. Qed.
  Lemma map_sum_sub m m' : m ⊆ m' -> map_sum f m <= map_sum f m'.
  Proof. intros H. apply sum_sub; [apply entry_nonneg|]. now apply map_to_list_submseteq. Qed.
End Maps.
Lemma item_nonneg b : 0 <= item b.
Proof. pose proof (item_pos b). lia. Qed.
Lemma put_sum l : forall m, map_sum item (put_pairs m l) <= map_sum item m + sum (fun kv => item (fst kv) + item (snd kv)) l.
Proof.
  induction l as [|[k v] l IH]; intros m; cbn [put_pairs sum fst snd]; [lia|]. etransitivity; [apply IH|].
  pose proof (map_sum_insert_le item item_nonneg m k v). lia.
Qed.
Lemma zip_sum ks vs : sum (fun kv => item (fst kv) + item (snd kv)) (zip ks vs) <= sum_len ks + sum_len vs.
Proof.
  revert vs. induction ks as [|k ks IH]; intros [|v vs]; cbn [zip_with sum sum_len fst snd]; try lia.
  - pose proof (sum_len_nonneg vs). pose proof (blen_nonneg v). lia.
  - pose proof (sum_len_nonneg ks). pose proof (blen_nonneg k). lia.
  - specialize (IH vs). change (zip_with pair ks vs) with (zip ks vs). unfold item at 1 2. lia.
Qed.

Definition set_sum (X : gset bytes) : Z := sum item (elements X).
Lemma set_sum_nonneg X : 0 <= set_sum X.
Proof. apply sum_nonneg. apply item_nonneg. Qed.
Lemma set_sum_sub (X Y : gset bytes) : X ⊆ Y -> set_sum X <= set_sum Y.
Proof. intros H. apply sum_sub; [apply item_nonneg|]. now apply elements_submseteq. Qed.
Lemma set_sum_union (X Y : gset bytes) : set_sum (X ∪ Y) <= set_sum X + set_sum Y.
Proof.
  rewrite (union_difference_L X (X ∪ Y)) by set_solver. unfold set_sum at 1. rewrite (sum_perm _ _ _ (elements_disj_union X ((X ∪ Y) ∖ X) ltac:(set_solver))), sum_app.
  fold (set_sum X). fold (set_sum ((X ∪ Y) ∖ X)). pose proof (set_sum_sub ((X ∪ Y) ∖ X) Y ltac:(set_solver)). lia.
Qed.
Lemma set_sum_list (l : list bytes) : set_sum (list_to_set l) <= sum_len l.
Proof.
  induction l as [|x l IH]; cbn [list_to_set sum_len]; [unfold set_sum; rewrite elements_empty; cbn; lia|].
  pose proof (set_sum_union {[x]} (list_to_set l)) as H. unfold set_sum at 2 in H. rewrite elements_singleton in H. cbn in H. unfold item in H. lia.
Qed.

Lemma remove_first_sum v l : forall n, sum item (remove_first n v l) <= sum item l.
Proof.
  induction l as [|y l IH]; intros [|n]; cbn [remove_first sum]; try lia. pose proof (item_nonneg y).
  destruct (bytes_eqb y v); cbn [sum]; [specialize (IH n)|specialize (IH (S n))]; lia.
Qed.
Lemma rev_sum (l : list bytes) : sum item (rev l) = sum item l.
Proof. induction l as [|x l IH]; cbn [rev sum]; [reflexivity|]. rewrite sum_app. cbn. lia. Qed.
Lemma lrem_sum n v l : sum item (lrem_spec n v l) <= sum item l.
Proof.
  unfold lrem_spec, remove_last. destruct (n =? 0); [apply remove_first_sum|]. destruct (0 <? n); [apply remove_first_sum|].
  rewrite rev_sum, <- (rev_sum l). apply remove_first_sum.
Qed.
Lemma firstn_sum n (l : list bytes) : sum item (firstn n l) <= sum item l.
Proof. rewrite <- (firstn_skipn n l) at 2. rewrite sum_app. pose proof (sum_nonneg item (skipn n l) item_nonneg). lia. Qed.
Lemma skipn_sum n (l : list bytes) : sum item (skipn n l) <= sum item l.
Proof. rewrite <- (firstn_skipn n l) at 2. rewrite sum_app. pose proof (sum_nonneg item (firstn n l) item_nonneg). lia. Qed.
Lemma seg_sum a b l r : seg_sel a b l = Some r -> sum item r <= sum item l.
Proof. unfold seg_sel. destruct (_ && _); [|discriminate]. intros [= <-]. etransitivity; [apply firstn_sum|apply skipn_sum]. Qed.
Lemma near_sum after p v l : forall r, insert_near after p v l = Some r -> sum item r = item v + sum item l.
Proof.
  induction l as [|y l IH]; intros r; cbn [insert_near]; [discriminate|]. destruct (bytes_eqb y p).
  - intros [= <-]. destruct after; cbn [sum]; lia.
  - destruct (insert_near after p v l) as [r'|]; [|discriminate]. intros [= <-]. cbn [sum]. rewrite (IH _ eq_refl). lia.
Qed.
Lemma update_sum v l : forall n, sum item (<[n := v]> l) <= sum item l + item v.
Proof.
  pose proof (item_nonneg v) as Hv. induction l as [|y l IH]; intros [|n]; cbn [insert list_insert sum]; [lia|lia| |].
  - pose proof (item_nonneg y). lia.
  - specialize (IH n). unfold insert in IH |- *. lia.
Qed.

(* What a command can add. *)
Definition adds (c : cmd) : Z :=
  match c with
  | CSet k v | CAppend k v => item k + item v
  | CMset ks vs => sum_len ks + sum_len vs
  | CIncr _ _ | CDecr _ _ => 20
  | CLpush k vs | CRpush k vs | CSadd k vs | CSrem k vs => item k + sum_len vs
  | CHset k fs vs => item k + (sum_len fs + sum_len vs)
  | CLinsert _ _ _ v | CLset _ _ v => item v
  | _ => 0
  end.
Lemma adds_nonneg c : 0 <= adds c.
Proof.
  destruct c; cbn [adds]; try lia; repeat match goal with |- context [item ?x] => lazymatch goal with H : 0 <= item x |- _ => fail | _ => pose proof (item_nonneg x) end end;
    repeat match goal with |- context [sum_len ?x] => lazymatch goal with H : 0 <= sum_len x |- _ => fail | _ => pose proof (sum_len_nonneg x) end end; lia.
Qed.
Lemma call_adds w args c : call w args c -> adds c <= 20 + args_size args.
Proof.
  intros H. destruct H;
    repeat match goal with
    | H : takes1 _ _ |- _ => destruct H | H : takes2 _ _ |- _ => destruct H | H : takes_many _ _ |- _ => destruct H
    | H : takes_key_many _ _ |- _ => destruct H | H : takes_range _ _ |- _ => destruct H
    | H : takes_int_str _ _ |- _ => destruct H | H : takes_count _ _ |- _ => destruct H
    | H : is_str _ _ |- _ => apply str_size_is in H
    | H : are_strs _ _ |- _ => apply strs_size in H
    | H : are_pairs _ _ _ |- _ => apply pairs_whole in H
    end; cbn [adds args_size]; unfold item;
    repeat match goal with |- context [str_size ?o] => lazymatch goal with H : 0 <= str_size o |- _ => fail | _ =>
      assert (0 <= str_size o) by (destruct o; cbn; try lia; apply blen_nonneg) end end;
    repeat match goal with |- context [args_size ?o] => lazymatch goal with H : 0 <= args_size o |- _ => fail | _ =>
      pose proof (args_size_nonneg o) end end; try lia.
Qed.
Lemma asks_adds q c : asks q c -> adds c <= request_size q.
Proof.
  intros (o & name & w & args & He & Hs & _ & Hc). apply call_adds in Hc. inversion He; subst. cbn [request_size args_size].
  assert (0 <= str_size o) by (destruct o; cbn; try lia; apply blen_nonneg). lia.
Qed.

Lemma list_nonneg (l : list bytes) : 0 <= sum item l.
Proof. apply sum_nonneg, item_nonneg. Qed.
Lemma hash_nonneg (h : gmap bytes bytes) : 0 <= map_sum item h.
Proof. apply map_sum_nonneg, item_nonneg. Qed.
Lemma size_ss s x d : map_sum item x <= map_sum item (ss s) + d -> data_size (with_ss s x) <= data_size s + d.
Proof. unfold data_size. cbn. lia. Qed.
Lemma size_sl s x d : map_sum (sum item) x <= map_sum (sum item) (sl s) + d -> data_size (with_sl s x) <= data_size s + d.
Proof. unfold data_size. cbn. lia. Qed.
Lemma size_sh s x d : map_sum (map_sum item) x <= map_sum (map_sum item) (sh s) + d -> data_size (with_sh s x) <= data_size s + d.
Proof. unfold data_size. cbn. lia. Qed.
Lemma size_st s x d : map_sum set_sum x <= map_sum set_sum (st s) + d -> data_size (with_st s x) <= data_size s + d.
Proof. unfold data_size. change (fun X : gset bytes => sum item (elements X)) with set_sum. cbn. lia. Qed.
(* [add] on top of what is there, if anything *)
Lemma put_or {A} (f : A -> Z) (Hf : forall x, 0 <= f x) (z : A) (m : gmap bytes A) k v d : f z = 0 -> f v <= f (default z (m !! k)) + d ->
  0 <= d -> map_sum f (<[k := v]> m) <= map_sum f m + (item k + d).
Proof. intros Z H D. rewrite map_sum_insert. pose proof (item_pos k). destruct (m !! k) as [w|]; cbn in H; lia. Qed.

Lemma spec_size s c s' r : spec s c (Some (s', r)) -> data_size s' <= data_size s + adds c.
Proof.
  intros Hs. pose proof (adds_nonneg c) as Hc0.
  assert (HS : data_size s <= data_size s + adds c) by lia.
  assert (Hsets : forall op ks, spec_sets op s ks (Some (s', r)) -> s' = s).
  { intros op ks H. unfold spec_sets in H. destruct (map (set_or_empty s) ks); [now injection H as -> ->|].
    destruct H as [(_ & H)|(_ & l' & _ & H)]; now injection H as -> ->. }
  assert (Harith : forall f k a, spec_arith f s k a (Some (s', r)) -> data_size s' <= data_size s + 20).
  { intros f k a H. destruct H as [(m & _ & H)|(_ & H)]; [|injection H as -> ->; lia].
    destruct (ss s !! k) eqn:E; [|injection H as -> ->; lia].
    destruct H as [(v & t' & _ & Hcan & H)|(_ & H)]; [|injection H as -> ->; lia]. injection H as -> ->.
    apply size_ss. eapply map_sum_set; [exact E|]. apply canonical_format in Hcan as ->.
    pose proof (format_int_length _ (wrap64_ok (f v m))). unfold item. pose proof (blen_nonneg b). unfold blen at 1. lia. }
  destruct c; cbn [spec] in Hs; cbn [adds] in *;
    try (apply Harith in Hs; exact Hs); try (apply Hsets in Hs as ->; exact HS);
    try (injection Hs as -> ->; exact HS).
  - injection Hs as -> ->. apply size_ss. pose proof (map_sum_insert_le item item_nonneg (ss s) k v). lia.
  - destruct (bool_decide (ks = [])); injection Hs as -> ->; auto. apply size_ss.
    pose proof (put_sum (zip ks vs) (ss s)). pose proof (zip_sum ks vs). lia.
  - injection Hs as -> ->. apply size_ss. rewrite map_sum_insert. destruct (ss s !! k) as [w|]; cbn [text app]; unfold item; rewrite ?blen_app; pose proof (blen_nonneg k); lia.
  - destruct (sl s !! k) as [[|v vs]|] eqn:E; injection Hs as -> ->; auto. apply size_sl. eapply map_sum_set; [exact E|]. cbn [sum]. pose proof (item_nonneg v). lia.
  - destruct (list_or_nil s k); [now injection Hs as -> ->|]. destruct Hs as (vs & v & E & Hs). injection Hs as -> ->.
    apply size_sl. eapply map_sum_set; [exact E|]. rewrite sum_app. cbn [sum]. pose proof (item_nonneg v). lia.
  - destruct (bool_decide (k = [])); injection Hs as -> ->; auto. apply size_sl. apply (put_or _ list_nonneg []); [reflexivity| |apply sum_len_nonneg].
    unfold list_or_nil. rewrite sum_app, rev_sum, sum_item_len. lia.
  - destruct (bool_decide (k = [])); injection Hs as -> ->; auto. apply size_sl. apply (put_or _ list_nonneg []); [reflexivity| |apply sum_len_nonneg].
    unfold list_or_nil. rewrite sum_app, (sum_item_len vs). lia.
  - destruct (seg_sel _ _ _); injection Hs as -> ->; exact HS.
  - destruct (sl s !! k) as [l|] eqn:E; [|injection Hs as -> ->; exact HS]. destruct (_ && _); injection Hs as -> ->; auto.
    apply size_sl. eapply map_sum_set; [exact E|]. apply update_sum.
  - destruct (sl s !! k) as [l|] eqn:E; [|injection Hs as -> ->; exact HS]. destruct (count =? - 2 ^ 63); [injection Hs as -> ->; exact HS|].
    destruct (bool_decide (v = reserved)).
    + destruct (_ && _); [injection Hs as -> ->; exact HS|discriminate].
    + injection Hs as -> ->. apply size_sl. eapply map_sum_set; [exact E|]. pose proof (lrem_sum count v l). lia.
  - destruct (sl s !! k) as [l|] eqn:E; [|injection Hs as -> ->; exact HS]. destruct (seg_sel a b l) eqn:E2; injection Hs as -> ->; auto.
    apply size_sl. eapply map_sum_set; [exact E|]. apply seg_sum in E2. lia.
  - destruct (sl s !! k) as [l|] eqn:E; [|injection Hs as -> ->; exact HS]. destruct (bool_decide (pivot = reserved)).
    + destruct after; [injection Hs as -> ->|discriminate]. apply size_sl. eapply map_sum_set; [exact E|]. cbn [sum]. lia.
    + destruct (insert_near after pivot v l) eqn:E2; injection Hs as -> ->; auto. apply size_sl. eapply map_sum_set; [exact E|]. apply near_sum in E2. lia.
  - destruct (bool_decide (k = [])); [discriminate|]. pose proof (sum_len_nonneg fs). pose proof (sum_len_nonneg vs).
    destruct (bool_decide (fs = [])); injection Hs as -> ->; apply size_sh; (apply (put_or _ hash_nonneg ∅); [apply map_sum_empty| |lia]); [lia|].
    pose proof (put_sum (zip fs vs) (default ∅ (sh s !! k))). pose proof (zip_sum fs vs). lia.
  - destruct (sh s !! k); [|injection Hs as -> ->; exact HS]. destruct (bool_decide _); injection Hs as -> ->; exact HS.
  - destruct (sh s !! k); [|injection Hs as -> ->; exact HS]. destruct (bool_decide _); injection Hs as -> ->; exact HS.
  - destruct (sh s !! k); [|injection Hs as -> ->; exact HS]. destruct Hs as (l & _ & Hs). injection Hs as -> ->; exact HS.
  - destruct (sh s !! k); [|injection Hs as -> ->; exact HS]. destruct Hs as (l & _ & Hs). injection Hs as -> ->; exact HS.
  - destruct (sh s !! k); [|injection Hs as -> ->; exact HS]. destruct Hs as (l & _ & Hs). injection Hs as -> ->; exact HS.
  - destruct (sh s !! k); [|injection Hs as -> ->; exact HS]. destruct (bool_decide _); injection Hs as -> ->; exact HS.
  - destruct (sh s !! k) as [h|] eqn:E; [|injection Hs as -> ->; exact HS]. destruct Hs as (h' & Hh & Hs). injection Hs as -> ->.
    assert (Sub : h' ⊆ h).
    { apply map_subseteq_spec. intros f v. rewrite Hh. destruct (bool_decide (f ∈ fs)); [discriminate|auto]. }
    apply size_sh. eapply map_sum_set; [exact E|]. pose proof (map_sum_sub item item_nonneg _ _ Sub). lia.
  - destruct (bool_decide (k = [])); [discriminate|]. injection Hs as -> ->. apply size_st. apply (put_or _ set_sum_nonneg ∅); [reflexivity| |apply sum_len_nonneg].
    pose proof (set_sum_union (set_or_empty s k) (list_to_set vs)). pose proof (set_sum_list vs). unfold set_or_empty in *. lia.
  - destruct (st s !! k); [|injection Hs as -> ->; exact HS]. destruct Hs as (l & _ & Hs). injection Hs as -> ->; exact HS.
  - destruct (st s !! k); [|injection Hs as -> ->; exact HS]. destruct (bool_decide _); injection Hs as -> ->; exact HS.
  - destruct (bool_decide (k = [])); [discriminate|]. injection Hs as -> ->. pose proof (sum_len_nonneg vs). apply size_st. apply (put_or _ set_sum_nonneg ∅); [reflexivity| |lia].
    pose proof (set_sum_sub (set_or_empty s k ∖ list_to_set vs) (set_or_empty s k) ltac:(set_solver)). unfold set_or_empty in *. lia.
  - destruct (st s !! k) as [X|] eqn:E; [|injection Hs as -> ->; exact HS]. destruct Hs as (l & _ & Hs). destruct (pick_reply l count_set); [|discriminate].
    injection Hs as -> ->. apply size_st. eapply map_sum_set; [exact E|]. pose proof (set_sum_sub (X ∖ list_to_set l) X ltac:(set_solver)). lia.
  - destruct (st s !! k) as [X|] eqn:E; [|injection Hs as -> ->; exact HS]. destruct Hs as (l & _ & Hs). destruct (pick_reply l count_set); [|discriminate].
    injection Hs as -> ->; exact HS.
Qed.
Lemma answer_data s q s' r : answer s q (Some (s', r)) -> data_size s' <= data_size s + request_size q.
Proof.
  intros Ha. pose proof (request_size_nonneg q) as Hq.
  inversion Ha as [| | | | | |c s1 r1 Hasks Hsp|c s1 e r1 Hasks Hsp Het]; subst; try lia; apply asks_adds in Hasks; apply spec_size in Hsp; lia.
Qed.
Lemma answers_data l : forall s s' rs, answers s l (Some (s', rs)) -> data_size s' <= data_size s + requests_size l.
Proof.
  induction l as [|q l IH]; intros s s' rs H; inversion H as [|?|? ? ? s1 r s2 rs' Ha Hl|]; subst; cbn [requests_size]; [lia|].
  apply answer_data in Ha. apply IH in Hl. lia.
Qed.
Lemma data_nonneg s : 0 <= data_size s.
Proof.
  unfold data_size. change (fun X : gset bytes => sum item (elements X)) with set_sum.
  pose proof (map_sum_nonneg item item_nonneg (ss s)). pose proof (map_sum_nonneg _ list_nonneg (sl s)). pose proof (map_sum_nonneg _ hash_nonneg (sh s)).
  pose proof (map_sum_nonneg _ set_sum_nonneg (st s)). lia.
Qed.
Lemma data_empty : data_size empty_sdb = 0.
Proof. reflexivity. Qed.
Theorem data_bound h d rs s : Forall (fun x => env_ok (fst x)) h -> requests_size (map snd h) < 2 ^ 62 -> run new_db h = Ret (d, rs) -> db_rel d s ->
  data_size s <= requests_size (map snd h).
Proof.
  intros He Hs E R. pose proof (run_refines h He Hs) as H. rewrite E in H. destruct H as (s1 & R1 & A). rewrite (contents_unique _ _ _ R R1).
  apply answers_data in A. rewrite data_empty in A. lia.
Qed.
Theorem data_step e d s q d' r s' : good e d s -> handle e d q = Ret (d', r) -> db_rel d' s' -> data_size s' <= data_size s + request_size q.
Proof.
  intros (He & Hr & Hf) E R. pose proof (handle_refines e d s q He Hr Hf) as H. rewrite E in H. destruct H as (s1 & R1 & A). rewrite (contents_unique _ _ _ R R1).
  now apply answer_data in A.
Qed.
Lemma args_wire l : args_size l <= blen (List.concat (map Resp.encode l)).
Proof.
  induction l as [|o l IH]; cbn [args_size map List.concat]; [unfold blen; cbn [List.length]; lia|]. rewrite blen_app.
  assert (1 + str_size o <= blen (Resp.encode o)); [|lia].
  assert (A : forall z, 0 <= blen (format_int z)) by (intros; apply blen_nonneg).
  destruct o as [d|d| |d|z|x|]; cbn [str_size Resp.encode]; rewrite ?blen_cons, ?blen_app; change (blen CRLF) with 2; try (vm_compute; discriminate);
    try (pose proof (blen_nonneg d)); try lia.
  - pose proof (A (blen d)). lia.
  - pose proof (A z). lia.
  - pose proof (A (Z.of_nat (List.length x))). pose proof (blen_nonneg (List.concat (List.map Resp.encode x))). lia.
Qed.
Lemma request_wire q : request_size q <= 20 + blen (Resp.encode q).
Proof.
  destruct q as [d|d| |d|z|x|]; cbn [request_size]; try (match goal with |- context [Resp.encode ?o] => pose proof (blen_nonneg (Resp.encode o)) end; lia).
  cbn [Resp.encode]. rewrite blen_cons, !blen_app. change (blen CRLF) with 2. pose proof (args_wire x) as A. pose proof (blen_nonneg (format_int (Z.of_nat (List.length x)))).
  change (List.map Resp.encode x) with (map Resp.encode x). lia.
Qed.
Theorem data_wire h d rs s : Forall (fun x => env_ok (fst x)) h -> requests_size (map snd h) < 2 ^ 62 -> run new_db h = Ret (d, rs) -> db_rel d s ->
  data_size s <= sum (fun x => 20 + blen (Resp.encode (snd x))) h.
Proof.
  intros He Hs E R. pose proof (data_bound h d rs s He Hs E R) as B. enough (requests_size (map snd h) <= sum (fun x => 20 + blen (Resp.encode (snd x))) h) by lia.
  clear. induction h as [|x h IH]; cbn [map requests_size sum]; [lia|]. pose proof (request_wire (snd x)). lia.
Qed.
Theorem data_step_wire e d s q d' r s' : good e d s -> handle e d q = Ret (d', r) -> db_rel d' s' -> data_size s' <= data_size s + 20 + blen (Resp.encode q).
Proof. intros G E R. pose proof (data_step e d s q d' r s' G E R). pose proof (request_wire q). lia. Qed.
