From Verif Require Import Base BaseFacts IntSpec IntParse IntParseProofs Resp RespSpec RespProofs StringC HashC HashProofs Command SpecDb RequestSpec CommandProofs
  IdealSpec Db DbProofs Engine EngineProofs SpecFacts EngineFacts Utf8 Utf8Spec Utf8Proofs Log LogSpec LogProofs Persist PersistSpec PersistProofs
  Replication ReplicationProofs Recovery RecoverySpec RecoveryProofs Node NodeSpec.
From Coq Require Import ZArith List Ascii String Bool Lia.
From stdpp Require Import gmap.
Open Scope Z_scope.

Definition plain (x : entry) : Prop := ~ trims (h_req x) /\ ~ pops (h_req x).
Lemma requests_size_nonneg l : 0 <= requests_size l.
Proof. induction l as [|q l IH]; cbn [requests_size]; [lia|]. pose proof (request_size_nonneg q). lia. Qed.
Lemma requests_size_app l1 l2 : requests_size (l1 ++ l2) = requests_size l1 + requests_size l2.
Proof. induction l1 as [|q l IH]; cbn [app requests_size]; lia. Qed.

(* Two databases with the same contents go the same way. *)
Lemma same_step x d1 d2 s d1' r1 : env_ok (h_env x) -> plain x -> db_rel d1 s -> db_rel d2 s -> fits s ->
  handle (h_env x) d1 (h_req x) = Ret (d1', r1) ->
  exists d2' r2 s', handle (h_env x) d2 (h_req x) = Ret (d2', r2) /\ db_rel d1' s' /\ db_rel d2' s' /\ answer s (h_req x) (Some (s', r1)).
Proof.
  intros He (Ht & Hp) R1 R2 Hf E. destruct (handle_total (h_env x) d2 s (h_req x) He R2 Hf) as (d2' & r2 & E2).
  { intros c Hc Hcr. pose proof (proj2 (crash_iff (h_env x) d1 s (h_req x) He R1 Hf) (ex_intro _ c (conj Hc Hcr))). congruence. }
  pose proof (handle_refines _ _ _ (h_req x) He R1 Hf) as A1. rewrite E in A1. destruct A1 as (s1 & S1 & A1).
  pose proof (handle_refines _ _ _ (h_req x) He R2 Hf) as A2. rewrite E2 in A2. destruct A2 as (s2 & S2 & A2).
  exists d2', r2, s1. assert (s1 = s2) as <-; [|auto]. destruct (log_of (h_stamp x) (h_req x)) as [v|] eqn:EL.
  - apply log_of_spec in EL as (o & name & args & w & c & Hq & Hn & Hs & Hc & M & _).
    assert (Ha : asks (h_req x) c) by (rewrite Hq; exists o, name, w, args; repeat split; auto; constructor).
    assert (HP : forall k n cs, c <> CSpop k n cs) by (intros k n cs ->; apply Hp; exists k, n, cs; exact Ha).
    assert (K : forall s' r, answer s (h_req x) (Some (s', r)) -> exists o, spec s c (Some (s', o))).
    { intros s' r H. apply (asks_answer _ _ _ _ Ha) in H. destruct r as [r|]; [|contradiction]. destruct H as [H|(er & H & _)]; eauto. }
    apply K in A1 as [o1 A1]. apply K in A2 as [o2 A2]. pose proof (spec_det _ _ _ _ M HP A1 A2) as EQ. now injection EQ.
  - pose proof (skip_step _ _ _ _ _ _ _ (conj He (conj R1 Hf)) Ht E EL) as B1. pose proof (skip_step _ _ _ _ _ _ _ (conj He (conj R2 Hf)) Ht E2 EL) as B2.
    rewrite (db_rel_fun _ _ _ S1 B1). exact (db_rel_fun _ _ _ B2 S2).
Qed.
Lemma same_run h : forall n d1 d2 s d1' rs, Forall (fun x => env_ok (h_env x)) h -> Forall plain h -> db_rel d1 s -> db_rel d2 s -> bounded n s -> 0 <= n ->
  n + requests_size (map h_req h) < 2 ^ 62 -> run d1 (requests h) = Ret (d1', rs) ->
  exists d2' rs2 s', run d2 (requests h) = Ret (d2', rs2) /\ db_rel d1' s' /\ db_rel d2' s' /\ bounded (n + requests_size (map h_req h)) s'.
Proof.
  induction h as [|x h IH]; intros n d1 d2 s d1' rs He Hk R1 R2 Hb Hn Hs E.
  { cbn in E. injection E as <- _. exists d2, [], s. cbn [map requests_size]. rewrite Z.add_0_r. auto. }
  apply Forall_cons in He as [He1 He]. apply Forall_cons in Hk as [Hk1 Hk]. cbn [map requests_size] in *.
  pose proof (request_size_nonneg (h_req x)) as Q0. pose proof (requests_size_nonneg (map h_req h)) as Q1.
  pose proof (bounded_fits n s Hb ltac:(lia)) as Hf.
  unfold requests in E |- *. cbn [map run] in E |- *. fold (requests h) in E |- *.
  destruct (handle (h_env x) d1 (h_req x)) as [[d3 r3]| |] eqn:E1; cbn [rbind fst snd] in E; try discriminate.
  destruct (run d3 (requests h)) as [[d4 rs4]| |] eqn:E2; cbn [rbind fst snd] in E; try discriminate. injection E as -> _.
  destruct (same_step x d1 d2 s d3 r3 He1 Hk1 R1 R2 Hf E1) as (d5 & r5 & s5 & E5 & S3 & S5 & A). rewrite E5. cbn [rbind fst snd].
  pose proof (answer_bounded _ _ _ _ _ Hb Hn A) as Hb5.
  destruct (IH (n + request_size (h_req x)) d3 d5 s5 d1' rs4 He Hk S3 S5 Hb5 ltac:(lia) ltac:(lia) E2) as (d6 & rs6 & s6 & E6 & S6 & S7 & B).
  rewrite E6. cbn [rbind fst snd]. rewrite Z.add_assoc. eauto 10.
Qed.
Lemma run_app h1 : forall h2 d, run d (h1 ++ h2) = let! r := run d h1 in let! r2 := run (fst r) h2 in Ret (fst r2, snd r ++ snd r2).
Proof.
  induction h1 as [|[e q] h1 IH]; intros h2 d; cbn [app run rbind fst snd].
  - destruct (run d h2) as [[d' rs]| |]; reflexivity.
  - destruct (handle e d q) as [[d' r]| |]; cbn [rbind fst snd]; auto. rewrite IH. destruct (run d' h1) as [[d1 rs1]| |]; cbn [rbind fst snd]; auto.
    destruct (run d1 h2) as [[d2 rs2]| |]; reflexivity.
Qed.
Lemma requests_app h1 h2 : requests (h1 ++ h2) = requests h1 ++ requests h2.
Proof. apply map_app. Qed.
Lemma run_firstn m d h d' rs : run d (requests h) = Ret (d', rs) -> exists d1 rs1, run d (requests (firstn m h)) = Ret (d1, rs1).
Proof.
  intros H. rewrite <- (firstn_skipn m h), requests_app, run_app in H. destruct (run d (requests (firstn m h))) as [[d1 rs1]| |]; cbn [rbind] in H; try discriminate. eauto.
Qed.
Lemma loggable_env h : Forall loggable h -> Forall (fun x => env_ok (h_env x)) h.
Proof. intros H. eapply List.Forall_impl; [|exact H]. now intros x (He & _). Qed.

(* ---- many sessions ---- *)
Theorem life_contents h f : life h f -> Forall loggable h -> Forall plain h -> requests_size (map h_req h) < 2 ^ 62 ->
  exists d rs bss, run new_db (requests h) = Ret (d, rs) /\ Forall2 packed (records h) bss /\ f = List.concat bss.
Proof.
  induction 1 as [|h f ords ds h2 d rs l ws p oks m bss Hlife IH HO Hrec Hrun Hpk Hst Hpm Hf]; intros Hl Hk Hs.
  { exists new_db, [], []. repeat split; constructor. }
  apply Forall_app in Hl as [Hl1 Hl2]. apply Forall_app in Hk as [Hk1 Hk2]. rewrite map_app, requests_size_app in Hs.
  pose proof (requests_size_nonneg (map h_req (firstn m h2))). destruct (IH Hl1 Hk1 ltac:(lia)) as (d0 & rs0 & bss0 & E0 & P0 & F0).
  destruct (rebuilt ords h bss0 d0 rs0 HO Hl1 Hk1 ltac:(lia) E0 P0) as (ds' & s & R & D1 & D2). rewrite <- F0, Hrec in R. injection R as <-.
  destruct (run_firstn m _ _ _ _ Hrun) as (d3 & rs3 & E3).
  destruct (same_run h 0 new_db new_db empty_sdb d0 rs0 (loggable_env _ Hl1) Hk1 new_db_rel new_db_rel bounded_empty ltac:(lia) ltac:(lia) E0) as (d0' & rs0' & s' & E0' & D1' & _ & B).
  rewrite (db_rel_fun _ _ _ D1' D1) in B. pose proof (requests_size_nonneg (map h_req h)).
  destruct (same_run (firstn m h2) _ (ds 1) d0 s d3 rs3 (loggable_env _ Hl2) Hk2 D2 D1 B ltac:(lia) ltac:(lia) E3) as (d4 & rs4 & s4 & E4 & _).
  exists d4, (rs0 ++ rs4), (bss0 ++ bss). rewrite requests_app, run_app, E0. cbn [rbind fst snd]. rewrite E4. cbn [rbind fst snd].
  split; [reflexivity|]. split; [rewrite records_app; now apply Forall2_app|]. rewrite concat_app, <- F0. exact Hf.
Qed.
Theorem life_rebuilt h f ords : life h f -> Forall loggable h -> Forall plain h -> requests_size (map h_req h) < 2 ^ 62 -> (forall i, orders_ok (ords i)) ->
  exists d rs ds s, run new_db (requests h) = Ret (d, rs) /\ recover ords f = Ret ds /\ db_rel d s /\ db_rel (ds 1) s.
Proof.
  intros H Hl Hk Hs HO. destruct (life_contents h f H Hl Hk Hs) as (d & rs & bss & E & P & ->).
  destruct (rebuilt ords h bss d rs HO Hl Hk Hs E P) as (ds & s & R & D1 & D2). eauto 10.
Qed.

(* ---- one session ended anywhere ---- *)
Lemma records_firstn h : forall n, exists m, firstn n (records h) = records (firstn m h) /\ ((n <= length (records h))%nat -> length (records (firstn m h)) = n).
Proof.
  induction h as [|x h IH]; intros n; cbn [records].
  - exists O. destruct n; cbn [firstn records length]; split; auto; lia.
  - destruct (log_of (h_stamp x) (h_req x)) as [v|] eqn:E.
    + destruct n as [|n]; [exists O; split; [reflexivity|cbn; auto]|]. destruct (IH n) as (m & H1 & H2). exists (S m). cbn [firstn records]. rewrite E.
      split; [now f_equal|]. cbn [length]. intros. rewrite H2; lia.
    + destruct (IH n) as (m & H1 & H2). exists (S m). cbn [firstn records]. rewrite E. auto.
Qed.
Theorem after_any_end ords h l ws p oks d rs :
  (forall i, orders_ok (ords i)) -> Forall loggable h -> Forall plain h -> requests_size (map h_req h) < 2 ^ 62 -> run new_db (requests h) = Ret (d, rs) ->
  Forall2 packed (records h) (written_by l) -> steps (open_file []) l ws = (p, oks) ->
  exists m d' rs' ds s, run new_db (requests (firstn m h)) = Ret (d', rs') /\ recover ords (p_file p) = Ret ds /\ db_rel d' s /\ db_rel (ds 1) s /\
    (forall l1 l2, l = l1 ++ PFlush :: l2 -> nth (length l1) oks false = true -> (length (written_by l1) <= length (records (firstn m h)))%nat).
Proof.
  intros HO Hl Hk Hs E Hp Hst. destruct (recovered [] [] _ _ _ _ _ (List.Forall2_nil _) Hp Hst) as (n & e & P & Hn & Hfl). cbn [app length] in *.
  destruct (records_firstn h n) as (m & F & L). specialize (L ltac:(lia)). destruct (run_firstn m _ _ _ _ E) as (d' & rs' & E').
  exists m, d', rs'. rewrite F in P.
  assert (Hl' : Forall loggable (firstn m h)) by now apply Forall_take. assert (Hk' : Forall plain (firstn m h)) by now apply Forall_take.
  assert (Hs' : requests_size (map h_req (firstn m h)) < 2 ^ 62).
  { rewrite <- (firstn_skipn m h), map_app, requests_size_app in Hs. pose proof (requests_size_nonneg (map h_req (skipn m h))). lia. }
  destruct (replay_n ords HO (firstn m h) 0 0 new_db empty_sdb no_dbs d' rs' Hl' Hk' new_db_rel bounded_empty ltac:(lia) ltac:(lia) new_db_rel E') as (ds & s & B & D1 & D2).
  exists ds, s. unfold recover, from_file. rewrite P. cbn [fst]. split; [exact E'|]. split; [exact B|]. split; [exact D1|]. split; [exact D2|]. intros l1 l2 El Hok. rewrite L. eauto.
Qed.

(* ---- a replica ---- *)
Theorem copied o1 o2 h d rs l ws p oks p' st : (forall i, orders_ok (o2 i)) -> Forall loggable h -> Forall plain h -> requests_size (map h_req h) < 2 ^ 62 ->
  run new_db (requests h) = Ret (d, rs) -> Forall2 packed (records h) (written_by l) -> blen (List.concat (written_by l)) < 2 ^ 32 ->
  steps (open_file []) l ws = (p, oks) -> serve_replica p [] = (p', Some st) ->
  exists ds s, sync_external o1 o2 (Opened []) (Some st) = Ret ds /\ db_rel d s /\ db_rel (ds 1) s.
Proof.
  intros HO Hl Hk Hs E Hp Hb Hst Hsv. unfold sync_external, recover, from_file, from_master.
  rewrite (flushed_and_sent _ _ _ _ _ _ _ Hp Hb Hst Hsv). change (fst (parse_log [])) with (@nil vlog). cbn [length seq map zip zip_with build rbind].
  refine (replay_n o2 HO h 0 0 new_db empty_sdb no_dbs d rs Hl Hk new_db_rel bounded_empty _ _ new_db_rel E); lia.
Qed.
(* A replica without writes of its own starts again as it was. *)
Lemma reads_keep h : forall n d s d' rs, Forall (fun x => env_ok (h_env x)) h -> Forall plain h -> db_rel d s -> bounded n s -> n < 2 ^ 62 -> records h = [] ->
  run d (requests h) = Ret (d', rs) -> db_rel d' s.
Proof.
  induction h as [|x h IH]; intros n d s d' rs He Hk R Hb Hn Hrec E.
  { cbn in E. injection E as <- _. exact R. }
  apply Forall_cons in He as [He1 He]. apply Forall_cons in Hk as [[Hk1 _] Hk]. cbn [records] in Hrec.
  destruct (log_of (h_stamp x) (h_req x)) as [v|] eqn:EL; [discriminate|].
  unfold requests in E. cbn [map run] in E. fold (requests h) in E.
  destruct (handle (h_env x) d (h_req x)) as [[d3 r3]| |] eqn:E1; cbn [rbind fst snd] in E; try discriminate.
  destruct (run d3 (requests h)) as [[d4 rs4]| |] eqn:E2; cbn [rbind fst snd] in E; try discriminate. injection E as -> _.
  refine (IH n d3 s d' rs4 He Hk _ Hb Hn Hrec E2). eapply skip_step; eauto. split; [exact He1|]. split; [exact R|]. eapply bounded_fits; eauto.
Qed.
Theorem copied_again o1 o2 o3 o4 h d rs l ws p oks p' st ds h2 d2 rs2 l2 ws2 p2 oks2 : (forall i, orders_ok (o2 i)) -> (forall i, orders_ok (o4 i)) ->
  Forall loggable h -> Forall plain h -> requests_size (map h_req h) < 2 ^ 62 ->
  run new_db (requests h) = Ret (d, rs) -> Forall2 packed (records h) (written_by l) -> blen (List.concat (written_by l)) < 2 ^ 32 ->
  steps (open_file []) l ws = (p, oks) -> serve_replica p [] = (p', Some st) ->
  sync_external o1 o2 (Opened []) (Some st) = Ret ds ->
  Forall loggable h2 -> Forall plain h2 -> records h2 = [] -> run (ds 1) (requests h2) = Ret (d2, rs2) ->
  Forall2 packed (records h2) (written_by l2) -> steps (open_file []) l2 ws2 = (p2, oks2) ->
  exists ds2 s, sync_external o3 o4 (Opened (p_file p2)) (Some st) = Ret ds2 /\ db_rel d2 s /\ db_rel (ds2 1) s.
Proof.
  intros HO2 HO4 Hl Hk Hs E Hp Hb Hst Hsv Hsy Hl2 Hk2 Hr2 E2 Hp2 Hst2.
  destruct (copied o1 o2 _ _ _ _ _ _ _ _ _ HO2 Hl Hk Hs E Hp Hb Hst Hsv) as (ds' & s & Y & D1 & D2). rewrite Hsy in Y. injection Y as <-.
  destruct (copied o3 o4 _ _ _ _ _ _ _ _ _ HO4 Hl Hk Hs E Hp Hb Hst Hsv) as (ds4 & s4 & Y4 & D3 & D4).
  rewrite (db_rel_fun _ _ _ D3 D1) in D4. exists ds4, s.
  assert (p_file p2 = []) as ->.
  { rewrite Hr2 in Hp2. apply Forall2_length in Hp2. destruct (written_by l2) as [|b0 w0] eqn:W; [|discriminate]. clear Hp2. pose proof (steps_ok l2 (open_file []) ws2 [] (inv_open [])) as I. rewrite Hst2 in I. destruct I as ((_ & I) & _).
    cbn in I. rewrite ?W in I. cbn in I. destruct I as [t I]. symmetry in I. now apply app_eq_nil in I as [-> _]. }
  split; [exact Y4|]. split; [|exact D4].
  destruct (same_run h 0 new_db new_db empty_sdb d rs (loggable_env _ Hl) Hk new_db_rel new_db_rel bounded_empty ltac:(lia) ltac:(lia) E) as (d0' & rs0' & s' & E0' & D1' & _ & B).
  rewrite (db_rel_fun _ _ _ D1' D1) in B. refine (reads_keep h2 _ (ds 1) s d2 rs2 (loggable_env _ Hl2) Hk2 D2 B _ Hr2 E2). lia.
Qed.

(* ---- without a flush a short log stays in the buffer ---- *)
Lemma short_stays l : forall f b ws p oks, Forall (fun o => o <> PFlush) l -> (length b + length (List.concat (written_by l)) <= buf_size)%nat ->
  steps (mkPfile f b false false) l ws = (p, oks) -> p_file p = f /\ oks = map (fun _ => true) l.
Proof.
  induction l as [|o l IH]; intros f b ws p oks Hn Hs E; cbn [steps] in E; [injection E as <- <-; auto|].
  apply Forall_cons in Hn as [Ho Hn]. destruct o as [d0|]; [|contradiction]. cbn [written_by List.concat] in Hs. rewrite app_length in Hs.
  unfold step in E. cbn [p_dead] in E. unfold write in E. cbn [p_err p_buf p_file p_dead] in E.
  destruct (Nat.leb_spec (length d0) (buf_size - length b)) as [L|L]; [|lia].
  cbn [p_err negb] in E. destruct (steps (mkPfile f (b ++ d0) false false) l ws) as [p2 oks2] eqn:E2. injection E as <- <-.
  destruct (IH f (b ++ d0) ws p2 oks2 Hn) as [-> ->]; [rewrite app_length; lia|exact E2|]. split; reflexivity.
Qed.
