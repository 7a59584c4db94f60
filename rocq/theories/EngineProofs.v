(* Requests refine the reference answers; sizes grow by at most the request's size. *)
From Verif Require Import Base BaseFacts IntSpec IndexSpec ListSpec IntParse IntParseProofs Resp StringC HashC HashProofs
  LinkedListProofs Command SpecDb RequestSpec CommandProofs Db DbProofs Engine.
From Coq Require Import ZArith List Ascii String Bool Lia.
From stdpp Require Import gmap.
Open Scope Z_scope.

Lemma num_ok x i : is_num x i -> int64_ok i.
Proof. intros (t & _ & _ & H). exact H. Qed.
Lemma pairs_length l ks vs : are_pairs l ks vs -> length ks = length vs.
Proof. induction 1; cbn; congruence. Qed.

Lemma call_wf w args c : call w args c -> cmd_wf c /\ cmd_nonempty c.
Proof.
  intros H. assert (N : forall (l : list robj) (ks : list bytes), are_strs l ks -> l <> [] -> ks <> []).
  { intros l ks HF Hl ->. inversion HF. congruence. }
  assert (I1 : int64_ok 1) by (unfold int64_ok; lia).
  destruct H;
    repeat match goal with
    | H : takes1 _ _ |- _ => destruct H | H : takes2 _ _ |- _ => destruct H | H : takes_many _ _ |- _ => destruct H
    | H : takes_key_many _ _ |- _ => destruct H | H : takes_range _ _ |- _ => destruct H
    | H : takes_int_str _ _ |- _ => destruct H | H : takes_count _ _ |- _ => destruct H
    | H : is_num _ _ |- _ => apply num_ok in H | H : are_pairs _ _ _ |- _ => apply pairs_length in H
    end; cbn [cmd_wf cmd_nonempty]; eauto 10.
  all: split; [split|]; eauto; discriminate.
Qed.

Definition env_ok (e : env) : Prop := orders_ok (e_ord e).

Lemma error_text_ok t e : error_text e (error_reply t e).
Proof. destruct e; cbn; try reflexivity. eexists. reflexivity. Qed.

Definition result_ok (s : sdb) (q : robj) (r : res (db * option robj)) : Prop :=
  match r with
  | Ret (d', rep) => exists s', db_rel d' s' /\ answer s q (Some (s', rep))
  | Panic => answer s q None
  | NoFuel => False
  end.

Lemma handle_objects_refines e d s q objs : env_ok e -> db_rel d s -> fits s -> parts q objs ->
  result_ok s q (let! r := handle_objects e d objs in Ret (fst r, Some (snd r))).
Proof.
  intros He Hr Hf Hq. destruct objs as [|o args]; cbn [handle_objects].
  { exists s. split; auto. apply a_empty; auto. eexists. reflexivity. }
  destruct (str_arg o) as [name|] eqn:En.
  2: { exists s. split; auto. eapply a_nameless; eauto; [now apply str_arg_none|]. eexists. reflexivity. }
  apply str_arg_spec in En. pose proof (new_command_spec name args) as Hc.
  destruct (new_command name args) as [c|er].
  - destruct Hc as (w & Hs & Hcall). destruct (call_wf _ _ _ Hcall) as [Hw Hn].
    assert (Ha : asks q c) by (exists o, name, w, args; auto).
    pose proof (exec_refines (e_ord e) d s c He Hr Hf Hw Hn) as HR. unfold refines in HR.
    destruct (execute_command (e_ord e) d c) as [[d' [r|er]]| |]; cbn [rbind].
    + destruct HR as (s' & H1 & H2). exists s'. split; auto. eapply a_reply; eauto.
    + destruct HR as (s' & H1 & H2). exists s'. split; auto. eapply a_error; eauto. apply error_text_ok.
    + eapply a_crash; eauto.
    + contradiction.
  - destruct er; try contradiction; cbn [rbind]; exists s; (split; [exact Hr|]).
    + eapply a_unknown; eauto.
    + destruct Hc as (w & Hw & Hs & Hno). eapply a_invalid; eauto.
Qed.

Theorem handle_refines e d s q : env_ok e -> db_rel d s -> fits s -> result_ok s q (handle e d q).
Proof.
  intros He Hr Hf. destruct q as [x|x| |x|x|l|]; cbn [handle];
    try (exists s; split; [exact Hr|]; apply a_ignored; intros l' Hl'; inversion Hl').
  - apply handle_objects_refines; auto. constructor.
  - apply handle_objects_refines; auto. constructor.
Qed.

(* ---- growth ---- *)
Record bounded (n : Z) (s : sdb) : Prop := mkBounded {
  b_s : forall k t, ss s !! k = Some t -> blen t <= n;
  b_l : forall k l, sl s !! k = Some l -> Z.of_nat (length l) <= n;
  b_t : forall k (X : gset bytes), st s !! k = Some X -> Z.of_nat (size X) <= n
}.
Lemma bounded_fits n s : bounded n s -> n < 2 ^ 62 -> fits s.
Proof.
  intros [A B C] H. constructor; intros k x E; [pose proof (A _ _ E)|pose proof (B _ _ E)|pose proof (C _ _ E)]; lia.
Qed.
Lemma bounded_mono n m s : bounded n s -> n <= m -> bounded m s.
Proof.
  intros [A B C] H. constructor; intros k x E; [pose proof (A _ _ E)|pose proof (B _ _ E)|pose proof (C _ _ E)]; lia.
Qed.
Lemma bounded_empty : bounded 0 empty_sdb.
Proof. constructor; cbn; intros k x; rewrite lookup_empty; discriminate. Qed.

Fixpoint sum_len (l : list bytes) : Z := match l with [] => 0 | x :: l' => 1 + blen x + sum_len l' end.
Lemma sum_len_nonneg l : 0 <= sum_len l.
Proof. induction l as [|x l IH]; cbn [sum_len]; [lia|]. pose proof (blen_nonneg x). lia. Qed.
Lemma sum_len_length l : Z.of_nat (length l) <= sum_len l.
Proof. induction l as [|x l IH]; cbn [sum_len length]; [lia|]. pose proof (blen_nonneg x). lia. Qed.
Lemma sum_len_in l x : x ∈ l -> blen x <= sum_len l.
Proof.
  induction 1 as [x l|x y l _ IH]; cbn [sum_len].
  - pose proof (sum_len_nonneg l). lia.
  - pose proof (blen_nonneg y). lia.
Qed.
Definition cmd_size (c : cmd) : Z :=
  match c with
  | CSet k v | CAppend k v => blen v
  | CMset ks vs => sum_len vs
  | CIncr _ _ | CDecr _ _ => 20
  | CLpush _ vs | CRpush _ vs | CSadd _ vs => sum_len vs
  | CLinsert _ _ _ _ => 1
  | _ => 0
  end.
Lemma cmd_size_nonneg c : 0 <= cmd_size c.
Proof. destruct c; cbn; try lia; try apply blen_nonneg; apply sum_len_nonneg. Qed.

Lemma args_size_nonneg l : 0 <= args_size l.
Proof. induction l as [|o l IH]; cbn [args_size]; [lia|]. assert (0 <= str_size o) by (destruct o; cbn; try lia; apply blen_nonneg). lia. Qed.
Lemma str_size_is o d : is_str o d -> blen d = str_size o.
Proof. now intros []. Qed.
Lemma strs_size l ds : are_strs l ds -> sum_len ds = args_size l.
Proof. induction 1 as [|o d l ds H _ IH]; cbn [sum_len args_size]; [lia|]. apply str_size_is in H. lia. Qed.
Lemma pairs_size l ks vs : are_pairs l ks vs -> sum_len vs <= args_size l.
Proof.
  induction 1 as [|a b k v l ks vs Ha Hb _ IH]; cbn [sum_len args_size]; [lia|].
  apply str_size_is in Ha, Hb. pose proof (blen_nonneg k). lia.
Qed.
Lemma call_size w args c : call w args c -> cmd_size c <= 20 + args_size args.
Proof.
  intros H. destruct H;
    repeat match goal with
    | H : takes1 _ _ |- _ => destruct H | H : takes2 _ _ |- _ => destruct H | H : takes_many _ _ |- _ => destruct H
    | H : takes_key_many _ _ |- _ => destruct H | H : takes_range _ _ |- _ => destruct H
    | H : takes_int_str _ _ |- _ => destruct H | H : takes_count _ _ |- _ => destruct H
    | H : is_str _ _ |- _ => apply str_size_is in H
    | H : are_strs _ _ |- _ => apply strs_size in H
    | H : are_pairs _ _ _ |- _ => apply pairs_size in H
    end; cbn [cmd_size args_size]; 
    repeat match goal with |- context [str_size ?o] => lazymatch goal with H : 0 <= str_size o |- _ => fail | _ =>
      assert (0 <= str_size o) by (destruct o; cbn; try lia; apply blen_nonneg) end end;
    repeat match goal with |- context [args_size ?o] => lazymatch goal with H : 0 <= args_size o |- _ => fail | _ =>
      pose proof (args_size_nonneg o) end end; try lia.
Qed.
Lemma asks_size q c : asks q c -> cmd_size c <= request_size q.
Proof.
  intros (o & name & w & args & He & Hs & _ & Hc). apply call_size in Hc. inversion He; subst. cbn [request_size args_size].
  assert (0 <= str_size o) by (destruct o; cbn; try lia; apply blen_nonneg). lia.
Qed.
Lemma request_size_nonneg q : 0 <= request_size q.
Proof. destruct q; cbn; try lia. pose proof (args_size_nonneg l). lia. Qed.

Lemma put_pairs_values l : forall m k t, put_pairs m l !! k = Some t -> m !! k = Some t \/ t ∈ l.*2.
Proof.
  induction l as [|[a b] l IH]; intros m k t H; cbn [put_pairs] in H; [auto|].
  apply IH in H as [H|H]; [|right; rewrite fmap_cons; now right].
  destruct (decide (k = a)) as [->|].
  - rewrite lookup_insert in H. injection H as ->. right. rewrite fmap_cons. left.
  - rewrite lookup_insert_ne in H by congruence. auto.
Qed.

Lemma bounded_ss n s k t : bounded n s -> blen t <= n -> bounded n (with_ss s (<[k := t]> (ss s))).
Proof.
  intros [A B C] H. constructor; cbn; eauto. intros j x. destruct (decide (j = k)) as [->|].
  - rewrite lookup_insert. now intros [= <-].
  - rewrite lookup_insert_ne by congruence. eauto.
Qed.
Lemma bounded_sl n s k l : bounded n s -> Z.of_nat (length l) <= n -> bounded n (with_sl s (<[k := l]> (sl s))).
Proof.
  intros [A B C] H. constructor; cbn; eauto. intros j x. destruct (decide (j = k)) as [->|].
  - rewrite lookup_insert. now intros [= <-].
  - rewrite lookup_insert_ne by congruence. eauto.
Qed.
Lemma bounded_st (n : Z) (s : sdb) (k : bytes) (X : gset bytes) : bounded n s -> Z.of_nat (size X) <= n -> bounded n (with_st s (<[k := X]> (st s))).
Proof.
  intros [A B C] H. constructor; cbn; eauto. intros j x. destruct (decide (j = k)) as [->|].
  - rewrite lookup_insert. now intros [= <-].
  - rewrite lookup_insert_ne by congruence. eauto.
Qed.
Lemma bounded_sh n s x : bounded n s -> bounded n (with_sh s x).
Proof. intros [A B C]. constructor; cbn; eauto. Qed.
Lemma bounded_list n s k : bounded n s -> 0 <= n -> Z.of_nat (length (list_or_nil s k)) <= n.
Proof. intros [A B C] H. unfold list_or_nil. destruct (sl s !! k) eqn:E; cbn; [eauto|lia]. Qed.
Lemma bounded_set n s k : bounded n s -> 0 <= n -> Z.of_nat (size (set_or_empty s k)) <= n.
Proof. intros [A B C] H. unfold set_or_empty. destruct (st s !! k) eqn:E; cbn; [eauto|rewrite size_empty; lia]. Qed.
Lemma bounded_text n s k : bounded n s -> 0 <= n -> blen (text (ss s !! k)) <= n.
Proof. intros [A B C] H. destruct (ss s !! k) eqn:E; cbn [text]; [eauto|exact H]. Qed.

Lemma remove_first_length v l : forall n, (length (remove_first n v l) <= length l)%nat.
Proof.
  induction l as [|x l IH]; intros [|n]; cbn [remove_first length]; try lia.
  destruct (bytes_eqb x v); [specialize (IH n)|specialize (IH (S n))]; cbn [length]; lia.
Qed.
Lemma lrem_length n v l : (length (lrem_spec n v l) <= length l)%nat.
Proof.
  unfold lrem_spec, remove_last. destruct (n =? 0); [apply remove_first_length|]. destruct (0 <? n); [apply remove_first_length|].
  rewrite rev_length. etransitivity; [apply remove_first_length|]. now rewrite rev_length.
Qed.
Lemma seg_length a b l r : seg_sel a b l = Some r -> (length r <= length l)%nat.
Proof.
  unfold seg_sel. destruct (_ && _); [|discriminate]. intros [= <-]. rewrite firstn_length, skipn_length. lia.
Qed.
Lemma insert_near_length after p v l : forall r, insert_near after p v l = Some r -> length r = S (length l).
Proof.
  induction l as [|y l IH]; intros r; cbn [insert_near]; [discriminate|].
  destruct (bytes_eqb y p).
  - intros [= <-]. now destruct after.
  - destruct (insert_near after p v l); [|discriminate]. intros [= <-]. cbn. f_equal. auto.
Qed.
Lemma size_sub (X Y : gset bytes) : X ⊆ Y -> Z.of_nat (size X) <= Z.of_nat (size Y).
Proof. intros H. apply subseteq_size in H. lia. Qed.
Lemma size_list (l : list bytes) : Z.of_nat (size (list_to_set l : gset bytes)) <= Z.of_nat (length l).
Proof.
  induction l as [|x l IH]; cbn [list_to_set length]; [rewrite size_empty; lia|].
  pose proof (size_union_alt ({[x]} : gset bytes) (list_to_set l)) as E. rewrite size_singleton in E.
  assert (size (list_to_set l ∖ {[x]} : gset bytes) <= size (list_to_set l : gset bytes))%nat by (apply subseteq_size; set_solver). lia.
Qed.

Lemma spec_bounded n s c s' r : bounded n s -> 0 <= n -> spec s c (Some (s', r)) -> bounded (n + cmd_size c) s'.
Proof.
  intros Hb Hn Hs. pose proof (cmd_size_nonneg c) as Hc0.
  assert (HS : bounded (n + cmd_size c) s) by (eapply bounded_mono; [eauto|lia]).
  assert (Harith : forall f k a, spec_arith f s k a (Some (s', r)) -> cmd_size c = 20 -> bounded (n + cmd_size c) s').
  { intros f k a H Ec. destruct H as [(m & _ & H)|(_ & H)]; [|injection H as -> ->; auto].
    destruct (ss s !! k) eqn:E; [|injection H as -> ->; auto].
    destruct H as [(v & t' & _ & Hcan & H)|(_ & H)]; [|injection H as -> ->; auto]. injection H as -> ->.
    apply bounded_ss; auto. apply canonical_format in Hcan as ->.
    pose proof (format_int_length _ (wrap64_ok (f v m))). unfold blen. lia. }
  assert (Hsets : forall op ks, spec_sets op s ks (Some (s', r)) -> bounded (n + cmd_size c) s').
  { intros op ks H. unfold spec_sets in H. destruct (map (set_or_empty s) ks); [now injection H as -> ->|].
    destruct H as [(_ & H)|(_ & l' & _ & H)]; now injection H as -> ->. }
  destruct c; cbn [spec] in Hs; cbn [cmd_size] in *;
    try (apply Harith in Hs; [exact Hs|reflexivity]); try (eapply Hsets; exact Hs);
    try (injection Hs as -> ->; exact HS).
  - injection Hs as -> ->. apply bounded_ss; auto. lia.
  - destruct (bool_decide (ks = [])); injection Hs as -> ->; auto. destruct HS as [A B C]. constructor; cbn; auto.
    intros k t H. apply put_pairs_values in H as [H|H]; [eauto|].
    assert (blen t <= sum_len vs); [|lia]. apply sum_len_in. apply elem_of_list_fmap in H as ([a b] & -> & H).
    eapply elem_of_zip_r; eauto.
  - injection Hs as -> ->. apply bounded_ss; auto. rewrite blen_app. pose proof (bounded_text n s k Hb Hn). lia.
  - destruct (sl s !! k) as [[|v vs]|] eqn:E; injection Hs as -> ->; auto. apply bounded_sl; auto.
    pose proof (b_l _ _ Hb _ _ E). cbn [length] in *. lia.
  - destruct (list_or_nil s k); [now injection Hs as -> ->|]. destruct Hs as (vs & v & E & Hs). injection Hs as -> ->.
    apply bounded_sl; auto. pose proof (b_l _ _ Hb _ _ E) as H. rewrite app_length in H. lia.
  - destruct (bool_decide (k = [])); injection Hs as -> ->; auto. apply bounded_sl; auto.
    rewrite app_length, rev_length. pose proof (bounded_list n s k Hb Hn). pose proof (sum_len_length vs). lia.
  - destruct (bool_decide (k = [])); injection Hs as -> ->; auto. apply bounded_sl; auto.
    rewrite app_length. pose proof (bounded_list n s k Hb Hn). pose proof (sum_len_length vs). lia.
  - destruct (seg_sel _ _ _); now injection Hs as -> ->.
  - destruct (sl s !! k) as [l|] eqn:E; [|now injection Hs as -> ->]. destruct (_ && _); injection Hs as -> ->; auto.
    apply bounded_sl; auto. rewrite insert_length. pose proof (b_l _ _ Hb _ _ E). lia.
  - destruct (sl s !! k) as [l|] eqn:E; [|now injection Hs as -> ->]. destruct (count =? - 2 ^ 63); [now injection Hs as -> ->|].
    destruct (bool_decide (v = reserved)).
    + destruct (_ && _); [now injection Hs as -> ->|discriminate].
    + injection Hs as -> ->. apply bounded_sl; auto. pose proof (b_l _ _ Hb _ _ E). pose proof (lrem_length count v l). lia.
  - destruct (sl s !! k) as [l|] eqn:E; [|now injection Hs as -> ->]. destruct (seg_sel a b l) eqn:E2; injection Hs as -> ->; auto.
    apply bounded_sl; auto. pose proof (b_l _ _ Hb _ _ E). apply seg_length in E2. lia.
  - destruct (sl s !! k) as [l|] eqn:E; [|now injection Hs as -> ->]. pose proof (b_l _ _ Hb _ _ E) as HL. destruct (bool_decide (pivot = reserved)).
    + destruct after; [injection Hs as -> ->|discriminate]. apply bounded_sl; auto. cbn [length]. lia.
    + destruct (insert_near after pivot v l) eqn:E2; injection Hs as -> ->; auto. apply insert_near_length in E2.
      apply bounded_sl; auto. lia.
  - destruct (bool_decide (k = [])); [discriminate|]. destruct (bool_decide (fs = [])); injection Hs as -> ->; now apply bounded_sh.
  - destruct (sh s !! k); [|now injection Hs as -> ->]. destruct (bool_decide _); now injection Hs as -> ->.
  - destruct (sh s !! k); [|now injection Hs as -> ->]. destruct (bool_decide _); now injection Hs as -> ->.
  - destruct (sh s !! k); [|now injection Hs as -> ->]. destruct Hs as (l & _ & Hs). now injection Hs as -> ->.
  - destruct (sh s !! k); [|now injection Hs as -> ->]. destruct Hs as (l & _ & Hs). now injection Hs as -> ->.
  - destruct (sh s !! k); [|now injection Hs as -> ->]. destruct Hs as (l & _ & Hs). now injection Hs as -> ->.
  - destruct (sh s !! k); [|now injection Hs as -> ->]. destruct (bool_decide _); now injection Hs as -> ->.
  - destruct (sh s !! k); [|now injection Hs as -> ->]. destruct Hs as (h' & _ & Hs). injection Hs as -> ->. now apply bounded_sh.
  - destruct (bool_decide (k = [])); [discriminate|]. injection Hs as -> ->. apply bounded_st; auto.
    pose proof (bounded_set n s k Hb Hn) as H1. pose proof (size_list vs) as H2. pose proof (sum_len_length vs) as H3.
    rewrite size_union_alt.
    assert (size (list_to_set vs ∖ set_or_empty s k : gset bytes) <= size (list_to_set vs : gset bytes))%nat by (apply subseteq_size; set_solver). lia.
  - destruct (st s !! k); [|now injection Hs as -> ->]. destruct Hs as (l & _ & Hs). now injection Hs as -> ->.
  - destruct (st s !! k); [|now injection Hs as -> ->]. destruct (bool_decide _); now injection Hs as -> ->.
  - destruct (bool_decide (k = [])); [discriminate|]. injection Hs as -> ->. apply bounded_st; auto.
    pose proof (bounded_set n s k Hb Hn) as H1. assert (size (set_or_empty s k ∖ list_to_set vs) <= size (set_or_empty s k))%nat by (apply subseteq_size; set_solver). lia.
  - destruct (st s !! k) as [X|] eqn:E; [|now injection Hs as -> ->]. destruct Hs as (l & _ & Hs). destruct (pick_reply l count_set); [|discriminate].
    injection Hs as -> ->. apply bounded_st; auto. pose proof (b_t _ _ Hb _ _ E).
    assert (size (X ∖ list_to_set l) <= size X)%nat by (apply subseteq_size; set_solver). lia.
  - destruct (st s !! k) as [X|] eqn:E; [|now injection Hs as -> ->]. destruct Hs as (l & _ & Hs). destruct (pick_reply l count_set); [|discriminate].
    now injection Hs as -> ->.
Qed.

Lemma answer_bounded n s q s' r : bounded n s -> 0 <= n -> answer s q (Some (s', r)) -> bounded (n + request_size q) s'.
Proof.
  intros Hb Hn Ha. pose proof (request_size_nonneg q) as Hq.
  assert (HS : bounded (n + request_size q) s) by (eapply bounded_mono; [eauto|lia]).
  inversion Ha as [| | | | | |c s1 r1 Hasks Hsp|c s1 e r1 Hasks Hsp Het]; subst; auto.
  - apply asks_size in Hasks. eapply bounded_mono; [exact (spec_bounded n _ _ _ _ Hb Hn Hsp)|lia].
  - apply asks_size in Hasks. eapply bounded_mono; [exact (spec_bounded n _ _ _ _ Hb Hn Hsp)|lia].
Qed.

(* ---- sequences of requests ---- *)
Definition run_ok (s : sdb) (h : list (env * robj)) (r : res (db * list (option robj))) : Prop :=
  match r with
  | Ret (d', rs) => exists s', db_rel d' s' /\ answers s (map snd h) (Some (s', rs))
  | Panic => answers s (map snd h) None
  | NoFuel => False
  end.

Lemma run_refines_n h : forall n d s, Forall (fun x => env_ok (fst x)) h -> db_rel d s -> bounded n s -> 0 <= n ->
  n + requests_size (map snd h) < 2 ^ 62 -> run_ok s h (run d h).
Proof.
  induction h as [|[e q] h IH]; intros n d s He Hr Hb Hn Hw.
  - exists s. split; auto. constructor.
  - inversion He as [|? ? He1 He2]; subst. cbn [map snd requests_size] in Hw. pose proof (request_size_nonneg q) as Hq.
    assert (Hrs : 0 <= requests_size (map snd h)).
    { clear. induction (map snd h) as [|q l IHl]; cbn [requests_size]; [lia|]. pose proof (request_size_nonneg q). lia. }
    assert (Hf : fits s) by (eapply bounded_fits; eauto; lia).
    pose proof (handle_refines e d s q He1 Hr Hf) as H. cbn [run]. unfold result_ok in H.
    destruct (handle e d q) as [[d1 r]| |]; cbn [rbind fst snd]; [|now apply as_crash|contradiction].
    destruct H as (s1 & Hr1 & Ha).
    specialize (IH (n + request_size q) d1 s1 He2 Hr1 (answer_bounded _ _ _ _ _ Hb Hn Ha) ltac:(lia) ltac:(lia)).
    unfold run_ok in *. destruct (run d1 h) as [[d2 rs]| |]; cbn [rbind fst snd map]; auto.
    + destruct IH as (s2 & Hr2 & Has). exists s2. split; auto. eapply as_cons; eauto.
    + eapply as_later; eauto.
Qed.

Theorem run_refines h : Forall (fun x => env_ok (fst x)) h -> requests_size (map snd h) < 2 ^ 62 ->
  run_ok empty_sdb h (run new_db h).
Proof. intros. eapply (run_refines_n h 0); eauto; [apply new_db_rel|apply bounded_empty|lia]. Qed.
