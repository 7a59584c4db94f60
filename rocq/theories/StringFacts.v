(* Proofs for Props_Strings. *)
From Verif Require Import Base BaseFacts IntSpec IndexSpec ListSpec IntParse IntParseProofs Resp StringC HashC HashProofs Command SpecDb
  RequestSpec IdealSpec Db DbProofs Engine EngineProofs SpecFacts.
From Coq Require Import ZArith List Ascii String Bool Lia.
From stdpp Require Import gmap.
Open Scope Z_scope.

(* Requests made of bulk strings, and an environment, for examples. *)
Definition str_req (l : list bytes) : robj := RArr (map RBulk l).
Definition some_env : env := mkEnv (fun _ l => l) [].
Definition replies (l : list robj) : option (list (option robj)) :=
  match run new_db (map (fun q => (some_env, q)) l) with Ret (_, rs) => Some rs | _ => None end.
Lemma some_env_ok : env_ok some_env.
Proof. intros n l. reflexivity. Qed.
Lemma some_good : good some_env new_db empty_sdb.
Proof.
  split; [exact some_env_ok|]. split; [apply new_db_rel|]. apply (bounded_fits 0); [apply bounded_empty|lia].
Qed.

Lemma are_strs_bulk l : are_strs (map RBulk l) l.
Proof. induction l; constructor; auto. constructor. Qed.
Lemma str_req_request name w args : spells name (bs w) -> request (str_req (name :: args)) w args.
Proof. intros H. exists (RBulk name), name, (map RBulk args). repeat split; auto; constructor || apply are_strs_bulk. Qed.

Lemma set_ok e d s q k v : good e d s -> request q "set" [k; v] ->
  exists d', handle e d q = Ret (d', Some (RSimple (bs "OK"))) /\ db_rel d' (with_ss s (<[k := v]> (ss s))).
Proof. intros G Q. eapply good_gives; [exact G|eapply req2; [apply t_set|exact Q]|]. now apply ideal_str_gives. Qed.
Lemma r_opt_match (o : option bytes) : r_opt o = match o with Some v => RBulk v | None => RNullBulk end.
Proof. now destruct o. Qed.
Lemma get_ok e d s q k : good e d s -> request q "get" [k] ->
  exists d', handle e d q = Ret (d', Some (match ss s !! k with Some v => RBulk v | None => RNullBulk end)) /\ db_rel d' s.
Proof.
  intros G Q. eapply good_gives; [exact G|eapply req1; [apply t_get|exact Q]|]. apply spec_gives.
  intros out H. exact H.
Qed.
Lemma mset_ok e d s q l : good e d s -> l <> [] -> request q "mset" (alternate l) ->
  exists d' m, handle e d q = Ret (d', Some (RSimple (bs "OK"))) /\ db_rel d' (with_ss s m) /\
    (forall k v l1 l2, l = l1 ++ (k, v) :: l2 -> k ∉ l2.*1 -> m !! k = Some v) /\
    (forall k, k ∉ l.*1 -> m !! k = ss s !! k).
Proof.
  intros G N Q.
  destruct (good_gives e d s q _ (with_ss s (put_pairs (ss s) l)) r_ok G (req_mset q l Q)) as (d' & H1 & H2).
  { apply spec_gives. intros out H. cbn [spec] in H. rewrite zip_fst_snd in H.
    rewrite bool_decide_eq_false_2 in H by (destruct l; [congruence|discriminate]). exact H. }
  exists d', (put_pairs (ss s) l). repeat (split; [assumption|]). split.
  - intros k v l1 l2 -> Hn. clear -Hn. revert Hn. generalize (ss s) as m. induction l1 as [|[a b] l1 IH]; intros m Hn; cbn [app put_pairs].
    + rewrite put_pairs_other by auto. apply lookup_insert.
    + now apply IH.
  - intros k Hk. now apply put_pairs_other.
Qed.
Lemma mget_ok e d s q ks : good e d s -> ks <> [] -> request q "mget" ks ->
  exists d', handle e d q = Ret (d', Some (RArr (map (fun k => match ss s !! k with Some v => RBulk v | None => RNullBulk end) ks)))
    /\ db_rel d' s.
Proof.
  intros G N Q. eapply good_gives; [exact G|eapply req_many; [apply t_mget|exact N|exact Q]|]. apply spec_gives.
  intros out H. exact H.
Qed.
Lemma exists_ok e d s q ks : good e d s -> ks <> [] -> request q "exists" ks ->
  exists d', handle e d q = Ret (d', Some (RInt (Z.of_nat (length (filter (fun k => is_Some (ss s !! k)) ks))))) /\ db_rel d' s.
Proof.
  intros G N Q. eapply good_gives; [exact G|eapply req_many; [apply t_exists|exact N|exact Q]|]. apply spec_gives.
  intros out H. exact H.
Qed.
Lemma strlen_ok e d s q k : good e d s -> request q "strlen" [k] ->
  exists d', handle e d q = Ret (d', Some (RInt (match ss s !! k with Some v => blen v | None => 0 end))) /\ db_rel d' s.
Proof.
  intros G Q. eapply good_gives; [exact G|eapply req1; [apply t_strlen|exact Q]|]. apply spec_gives.
  intros out H. cbn [spec] in H. rewrite H. destruct (ss s !! k); reflexivity.
Qed.
Lemma append_ok e d s q k v : good e d s -> request q "append" [k; v] ->
  let t := match ss s !! k with Some t => t ++ v | None => v end in
  exists d', handle e d q = Ret (d', Some (RInt (blen t))) /\ db_rel d' (with_ss s (<[k := t]> (ss s))).
Proof.
  intros G Q t. eapply good_gives; [exact G|eapply req2; [apply t_append|exact Q]|]. apply spec_gives.
  intros out H. cbn [spec] in H. rewrite H. unfold t. destruct (ss s !! k); reflexivity.
Qed.

(* ---- arithmetic ---- *)
Lemma is_int_fun t a b : is_int t a -> is_int t b -> a = b.
Proof. intros H H'. apply parse_int_spec in H, H'. congruence. Qed.
Lemma arith_gives f s k ta n t v : is_int ta n -> ss s !! k = Some t -> is_int t v ->
  forall out, spec_arith f s k ta out ->
  out = says (with_ss s (<[k := format_int (wrap64 (f v n))]> (ss s))) (RInt (wrap64 (f v n))).
Proof.
  intros Ia E It out [(m & Im & H)|(Hn & _)]; [|destruct (Hn _ Ia)].
  rewrite (is_int_fun _ _ _ Im Ia) in *. rewrite E in H. destruct H as [(v' & t' & Iv & Hc & H)|(Hn & _)]; [|destruct (Hn _ It)].
  rewrite (is_int_fun _ _ _ Iv It) in *. apply canonical_format in Hc as ->. exact H.
Qed.
Lemma incr_cmd_wraps e d s q k ta n t v : good e d s -> asks q (CIncr k ta) -> is_int ta n ->
  ss s !! k = Some t -> is_int t v ->
  exists d' t', handle e d q = Ret (d', Some (RInt (wrap64 (v + n)))) /\ canonical t' (wrap64 (v + n)) /\
    db_rel d' (with_ss s (<[k := t']> (ss s))).
Proof.
  intros G Q Ia E It.
  destruct (good_gives e d s q _ _ _ G Q (spec_gives s (CIncr k ta) _ _ (arith_gives Z.add s k ta n t v Ia E It))) as (d' & H1 & H2).
  exists d', (format_int (wrap64 (v + n))). split; [exact H1|]. split; [apply format_int_canonical|exact H2].
Qed.
Lemma decr_cmd_wraps e d s q k ta n t v : good e d s -> asks q (CDecr k ta) -> is_int ta n ->
  ss s !! k = Some t -> is_int t v ->
  exists d' t', handle e d q = Ret (d', Some (RInt (wrap64 (v - n)))) /\ canonical t' (wrap64 (v - n)) /\
    db_rel d' (with_ss s (<[k := t']> (ss s))).
Proof.
  intros G Q Ia E It.
  destruct (good_gives e d s q _ _ _ G Q (spec_gives s (CDecr k ta) _ _ (arith_gives Z.sub s k ta n t v Ia E It))) as (d' & H1 & H2).
  exists d', (format_int (wrap64 (v - n))). split; [exact H1|]. split; [apply format_int_canonical|exact H2].
Qed.
Lemma incrby_wraps e d s q k ta n t v : good e d s -> request q "incrby" [k; ta] -> is_int ta n ->
  ss s !! k = Some t -> is_int t v ->
  exists d' t', handle e d q = Ret (d', Some (RInt (wrap64 (v + n)))) /\ canonical t' (wrap64 (v + n)) /\
    db_rel d' (with_ss s (<[k := t']> (ss s))).
Proof. intros G Q. apply incr_cmd_wraps; auto. now apply req_incrby. Qed.
Lemma incrby_ok e d s q k ta n t v : good e d s -> request q "incrby" [k; ta] -> is_int ta n ->
  ss s !! k = Some t -> is_int t v -> int64_ok (v + n) ->
  exists d' t', handle e d q = Ret (d', Some (RInt (v + n))) /\ canonical t' (v + n) /\
    db_rel d' (with_ss s (<[k := t']> (ss s))).
Proof. intros G Q Ia E It Ho. rewrite <- (wrap64_id (v + n)) by exact Ho. eapply incrby_wraps; eauto. Qed.
Lemma decrby_ok e d s q k ta n t v : good e d s -> request q "decrby" [k; ta] -> is_int ta n ->
  ss s !! k = Some t -> is_int t v -> int64_ok (v - n) ->
  exists d' t', handle e d q = Ret (d', Some (RInt (v - n))) /\ canonical t' (v - n) /\
    db_rel d' (with_ss s (<[k := t']> (ss s))).
Proof.
  intros G Q Ia E It Ho. rewrite <- (wrap64_id (v - n)) by exact Ho. eapply decr_cmd_wraps; eauto. now apply req_decrby.
Qed.
Lemma one_int : is_int (bs "1") 1.
Proof. split; [|unfold int64_ok; lia]. apply (canonical_denotes _ _ (format_int_canonical 1)). Qed.
Lemma incr_ok e d s q k rest t v : good e d s -> request q "incr" (k :: rest) ->
  ss s !! k = Some t -> is_int t v -> v <> 2 ^ 63 - 1 ->
  exists d' t', handle e d q = Ret (d', Some (RInt (v + 1))) /\ canonical t' (v + 1) /\
    db_rel d' (with_ss s (<[k := t']> (ss s))).
Proof.
  intros G Q E It Hv. pose proof It as [_ Ho]. rewrite <- (wrap64_id (v + 1)) by (unfold int64_ok in *; lia).
  eapply incr_cmd_wraps; eauto; [eapply req_incr; eauto|apply one_int].
Qed.
Lemma decr_ok e d s q k rest t v : good e d s -> request q "decr" (k :: rest) ->
  ss s !! k = Some t -> is_int t v -> v <> - 2 ^ 63 ->
  exists d' t', handle e d q = Ret (d', Some (RInt (v - 1))) /\ canonical t' (v - 1) /\
    db_rel d' (with_ss s (<[k := t']> (ss s))).
Proof.
  intros G Q E It Hv. pose proof It as [_ Ho]. rewrite <- (wrap64_id (v - 1)) by (unfold int64_ok in *; lia).
  eapply decr_cmd_wraps; eauto; [eapply req_decr; eauto|apply one_int].
Qed.
Lemma arith_cmd_errors e d s q c f k ta : good e d s -> asks q c -> (forall out, spec s c out -> spec_arith f s k ta out) ->
  (ss s !! k = None \/ (forall n, ~ is_int ta n) \/ exists t, ss s !! k = Some t /\ forall n, ~ is_int t n) ->
  exists d' t, handle e d q = Ret (d', Some (RErr t)) /\ db_rel d' s.
Proof.
  intros (He & Hr & Hf) Hc Hsp Hbad.
  assert (HS : forall out, spec_arith f s k ta out -> exists er, out = errs s er).
  { intros out [(n & In & H)|(_ & ->)]; [|eauto]. destruct (ss s !! k) as [t|] eqn:E; [|eauto].
    destruct H as [(v & t' & It & _ & _)|(_ & ->)]; [|eauto].
    destruct Hbad as [?|[Hb|(t1 & E1 & Hb)]]; [discriminate|destruct (Hb _ In)|]. injection E1 as <-. destruct (Hb _ It). }
  assert (HT : forall er r, error_text er r -> exists t, r = RErr t).
  { intros er r Ht. destruct er; cbn in Ht; [..|destruct Ht]; subst; eexists; reflexivity. }
  pose proof (handle_asks e d s q c He Hr Hf Hc) as H.
  destruct (handle e d q) as [[d' [r|]]| |]; try contradiction.
  - destruct H as (s' & Hr' & [H|(er & H & Ht)]); apply Hsp, HS in H as (er' & H); [discriminate|].
    injection H as -> ->. apply HT in Ht as (t & ->). exists d', t. auto.
  - apply Hsp, HS in H as (er' & H). discriminate.
Qed.
Lemma arith_errors e d s q w k ta : good e d s -> (w = "incrby" \/ w = "decrby")%string -> request q w [k; ta] ->
  (ss s !! k = None \/ (forall n, ~ is_int ta n) \/ exists t, ss s !! k = Some t /\ forall n, ~ is_int t n) ->
  exists d' t, handle e d q = Ret (d', Some (RErr t)) /\ db_rel d' s.
Proof.
  intros G Hw Q. destruct Hw as [->| ->].
  - apply (arith_cmd_errors e d s q (CIncr k ta) Z.add k ta); auto. now apply req_incrby.
  - apply (arith_cmd_errors e d s q (CDecr k ta) Z.sub k ta); auto. now apply req_decrby.
Qed.
Lemma one_errors e d s q w k rest : good e d s -> (w = "incr" \/ w = "decr")%string -> request q w (k :: rest) ->
  (ss s !! k = None \/ exists t, ss s !! k = Some t /\ forall n, ~ is_int t n) ->
  exists d' t, handle e d q = Ret (d', Some (RErr t)) /\ db_rel d' s.
Proof.
  intros G Hw Q Hb. assert (Hb' : ss s !! k = None \/ (forall n, ~ is_int (bs "1") n) \/ exists t, ss s !! k = Some t /\ forall n, ~ is_int t n) by tauto.
  destruct Hw as [->| ->].
  - apply (arith_cmd_errors e d s q (CIncr k (bs "1")) Z.add k (bs "1")); auto. eapply req_incr; eauto.
  - apply (arith_cmd_errors e d s q (CDecr k (bs "1")) Z.sub k (bs "1")); auto. eapply req_decr; eauto.
Qed.
Lemma decrby_wraps e d s q k ta n t v : good e d s -> request q "decrby" [k; ta] -> is_int ta n ->
  ss s !! k = Some t -> is_int t v ->
  exists d' t', handle e d q = Ret (d', Some (RInt (wrap64 (v - n)))) /\ canonical t' (wrap64 (v - n)) /\
    db_rel d' (with_ss s (<[k := t']> (ss s))).
Proof. intros G Q. apply decr_cmd_wraps; auto. now apply req_decrby. Qed.
Lemma incr_wraps e d s q k rest t : good e d s -> request q "incr" (k :: rest) ->
  ss s !! k = Some t -> is_int t (2 ^ 63 - 1) ->
  exists d' t', handle e d q = Ret (d', Some (RInt (- 2 ^ 63))) /\ canonical t' (- 2 ^ 63) /\
    db_rel d' (with_ss s (<[k := t']> (ss s))).
Proof.
  intros G Q E It. destruct (incr_cmd_wraps e d s q k (bs "1") 1 t _ G (req_incr _ _ _ Q) one_int E It) as (d' & t' & H).
  exists d', t'. exact H.
Qed.
Lemma decr_wraps e d s q k rest t : good e d s -> request q "decr" (k :: rest) ->
  ss s !! k = Some t -> is_int t (- 2 ^ 63) ->
  exists d' t', handle e d q = Ret (d', Some (RInt (2 ^ 63 - 1))) /\ canonical t' (2 ^ 63 - 1) /\
    db_rel d' (with_ss s (<[k := t']> (ss s))).
Proof.
  intros G Q E It. destruct (decr_cmd_wraps e d s q k (bs "1") 1 t _ G (req_decr _ _ _ Q) one_int E It) as (d' & t' & H).
  exists d', t'. exact H.
Qed.
Lemma overflow_wraps : exists h d v, Forall (fun x => env_ok (fst x)) h /\
  map snd h = [str_req [bs "SET"; bs "n"; bs "9223372036854775807"]; str_req [bs "INCR"; bs "n"]] /\
  run new_db h = Ret (d, [Some (RSimple (bs "OK")); Some (RInt v)]) /\ v <> 9223372036854775807 + 1.
Proof.
  exists [(some_env, str_req [bs "SET"; bs "n"; bs "9223372036854775807"]); (some_env, str_req [bs "INCR"; bs "n"])].
  eexists. exists (-9223372036854775808). split; [|split; [reflexivity|split; [vm_compute; reflexivity|discriminate]]].
  repeat constructor; exact some_env_ok.
Qed.

(* ---- ranges ---- *)
Lemma sub_list_spec {A} (a b : Z) (t : list A) : 0 <= a -> a <= b -> b < Z.of_nat (length t) ->
  Z.of_nat (length (sub_list a b t)) = b - a + 1 /\
  forall i, 0 <= i < Z.of_nat (length (sub_list a b t)) -> sub_list a b t !! Z.to_nat i = t !! Z.to_nat (a + i).
Proof.
  intros H1 H2 H3. unfold sub_list.
  assert (HL : Z.of_nat (length (firstn (Z.to_nat (b - a + 1)) (skipn (Z.to_nat a) t))) = b - a + 1).
  { rewrite firstn_length, skipn_length. lia. }
  split; [exact HL|]. rewrite HL. intros i Hi.
  change (firstn ?n ?l) with (take n l). change (skipn ?n ?l) with (drop n l).
  rewrite lookup_take by lia. rewrite lookup_drop. f_equal. lia.
Qed.
Lemma getrange_ok e d s q k ta tb a b : good e d s -> request q "getrange" [k; ta; tb] ->
  is_int ta a -> is_int tb b ->
  let t := match ss s !! k with Some t => t | None => [] end in
  let pa := position a (blen t) in let pb := position b (blen t) in
  exists d' r, handle e d q = Ret (d', Some (RBulk r)) /\ db_rel d' s /\
    (0 <= pa < blen t /\ pa <= pb ->
       blen r = Z.min pb (blen t - 1) - pa + 1 /\
       forall i, 0 <= i < blen r -> r !! Z.to_nat i = t !! Z.to_nat (pa + i)) /\
    (~ (0 <= pa < blen t /\ pa <= pb) -> r = []).
Proof.
  intros G Q Ia Ib t pa pb.
  destruct (good_gives e d s q (CGetrange k a b) s (RBulk (str_range a b t)) G) as (d' & H1 & H2).
  - apply (req_range q "getrange" CGetrange k ta tb a b); auto. apply t_getrange.
  - apply spec_gives. intros out H. exact H.
  - exists d', (str_range a b t). split; [exact H1|]. split; [exact H2|].
    unfold str_range. fold pa pb.
    destruct (0 <=? pa) eqn:E1; destruct (pa <? blen t) eqn:E2; destruct (pa <=? pb) eqn:E3; cbn [andb];
      (split; [intros Hc|intros Hc; try reflexivity]); try lia.
    apply sub_list_spec; unfold blen in *; lia.
Qed.

(* ---- histories ---- *)
Lemma last_write_ok h1 e1 q1 h2 e2 q2 k v d rs :
  Forall (fun x => env_ok (fst x)) (h1 ++ (e1, q1) :: h2 ++ [(e2, q2)]) ->
  requests_size (map snd (h1 ++ (e1, q1) :: h2 ++ [(e2, q2)])) < 2 ^ 62 ->
  (request q1 "set" [k; v] \/
   exists l1 l2, request q1 "mset" (alternate (l1 ++ (k, v) :: l2)) /\ k ∉ l2.*1) ->
  (forall q, q ∈ map snd h2 -> ~ writes q KStr k) -> request q2 "get" [k] ->
  run new_db (h1 ++ (e1, q1) :: h2 ++ [(e2, q2)]) = Ret (d, rs) -> last rs = Some (Some (RBulk v)).
Proof.
  intros He Hw H1 H2 H3 E. destruct (run_answers _ _ _ He Hw E) as (s' & _ & Ha).
  rewrite map_app in Ha. cbn [map snd] in Ha. rewrite map_app in Ha. cbn [map snd] in Ha.
  apply answers_app in Ha as (s1 & rs1 & rs2 & -> & _ & Ha).
  change (q1 :: map snd h2 ++ [q2]) with ([q1] ++ (map snd h2 ++ [q2])) in Ha.
  apply answers_app in Ha as (s2 & rs3 & rs4 & -> & Hq1 & Ha).
  apply answers_app in Ha as (s3 & rs5 & rs6 & -> & Hq2 & Ha).
  apply answers_one in Ha as (r & -> & Ha). apply answers_one in Hq1 as (r1 & -> & Hq1).
  assert (Ev : ss s2 !! k = Some v).
  { destruct H1 as [H1|(l1 & l2 & H1 & Hl)].
    - eapply (req2 q1 "set" CSet) in H1; [|apply t_set]. apply (asks_answer _ _ _ _ H1) in Hq1.
      destruct r1 as [r1|]; [|contradiction]. destruct Hq1 as [Hq1|(er & Hq1 & _)]; [|discriminate Hq1].
      injection Hq1 as -> _. cbn [with_ss ss]. apply lookup_insert.
    - apply req_mset in H1. apply (asks_answer _ _ _ _ H1) in Hq1.
      destruct r1 as [r1|]; [|contradiction]. cbn [spec] in Hq1.
      rewrite bool_decide_eq_false_2 in Hq1 by (destruct l1; discriminate). rewrite zip_fst_snd in Hq1.
      destruct Hq1 as [Hq1|(er & Hq1 & _)]; [|discriminate Hq1]. injection Hq1 as -> _. cbn [with_ss ss].
      clear -Hl. generalize (ss s1) as m. induction l1 as [|[a b] l1 IH]; intros m; cbn [app put_pairs]; [|apply IH].
      rewrite put_pairs_other by auto. apply lookup_insert. }
  apply (answers_frame KStr k) in Hq2; [|exact H2]. cbn in Hq2. rewrite Ev in Hq2.
  eapply (req1 q2 "get" CGet) in H3; [|apply t_get]. apply (asks_answer _ _ _ _ H3) in Ha.
  destruct r as [r|]; [|contradiction]. destruct Ha as [Ha|(er & Ha & _)]; [|discriminate Ha].
  injection Ha as _ ->. rewrite <- Hq2. rewrite !last_app. reflexivity.
Qed.
Lemma never_written_ok h e2 q2 k d rs :
  Forall (fun x => env_ok (fst x)) (h ++ [(e2, q2)]) -> requests_size (map snd (h ++ [(e2, q2)])) < 2 ^ 62 ->
  (forall q, q ∈ map snd h -> ~ writes q KStr k) -> request q2 "get" [k] ->
  run new_db (h ++ [(e2, q2)]) = Ret (d, rs) -> last rs = Some (Some RNullBulk).
Proof.
  intros He Hw H1 H3 E. destruct (run_answers _ _ _ He Hw E) as (s' & _ & Ha).
  rewrite map_app in Ha. cbn [map snd] in Ha.
  apply answers_app in Ha as (s1 & rs1 & rs2 & -> & H & Ha). apply answers_one in Ha as (r & -> & Ha).
  apply (answers_frame KStr k) in H; [|exact H1]. cbn in H. rewrite lookup_empty in H.
  eapply (req1 q2 "get" CGet) in H3; [|apply t_get]. apply (asks_answer _ _ _ _ H3) in Ha.
  destruct r as [r|]; [|contradiction]. destruct Ha as [Ha|(er & Ha & _)]; [|discriminate Ha].
  injection Ha as _ ->. rewrite <- H. rewrite !last_app. reflexivity.
Qed.
Lemma str_history h ocs m xs : Forall (fun x => env_ok (fst x)) h -> requests_size (map snd h) < 2 ^ 62 ->
  Forall2 (fun q oc => match oc with
                       | Some c => asks q c /\ True
                       | None => forall c, asks q c -> kind_of c = KStr -> written c = []
                       end) (map snd h) ocs ->
  ideal_run ideal_str ∅ ocs = Some (m, xs) ->
  match run new_db h with
  | Ret (d, rs) => Forall2 agrees xs rs /\ exists s, db_rel d s /\ fits s /\ ss s = m
  | Panic => None ∈ ocs
  | NoFuel => False
  end.
Proof.
  intros He Hw Hq Hi.
  apply (history ss with_ss ideal_str (fun _ => True) (fun s v => eq_refl)
    (fun s c v r _ H => ideal_str_gives s c v r H) (fun q => forall c, asks q c -> kind_of c = KStr -> written c = [])); auto.
  intros s q s' r Ho Ha. apply map_eq. intros k. symmetry. apply (answer_frame s q s' r KStr k Ha).
  intros (c & Hc & Hk & Hin). rewrite (Ho c Hc Hk) in Hin. now apply elem_of_nil in Hin.
Qed.
