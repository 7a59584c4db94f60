(* C71, C72: requests that may be exchanged, and logs in another order than the execution. *)
From Verif Require Import Base BaseFacts IntSpec IntParse Resp RespSpec StringC HashC HashProofs Command SpecDb RequestSpec CommandProofs IdealSpec
  Db DbProofs Engine EngineProofs SpecFacts EngineFacts StringFacts Utf8 Utf8Spec Utf8Proofs Log LogSpec LogProofs Persist PersistSpec PersistProofs
  Recovery RecoverySpec RecoveryProofs Props_Recovery NodeProofs OrderSpec OrderProofs.
From Coq Require Import ZArith List Permutation Ascii String Bool Lia.
From stdpp Require Import gmap.
Open Scope Z_scope.

(* C71: the replies of a run, put in another order together with their requests such that no two
   that clash change places, are right answers in that order too, with the same contents in the
   end. *)
Theorem C71_replies_explained : forall h d rs p,
  Forall (fun x => env_ok (h_env x)) h -> requests_size (map h_req h) < 2 ^ 62 -> run new_db (requests h) = Ret (d, rs) ->
  reordered (fun x y => free_entries (fst x) (fst y)) (zip h rs) p ->
  exists s, db_rel d s /\ answers empty_sdb (map (fun x => h_req (fst x)) p) (Some (s, map snd p)).
Proof. exact explained. Qed.
Print Assumptions C71_replies_explained.
(* Executing the requests in that order gives the same contents (without SPOP, which chooses). *)
Theorem C71_same_contents : forall h h' d rs,
  Forall (fun x => env_ok (h_env x)) h -> Forall (fun x => ~ pops (h_req x)) h -> requests_size (map h_req h) < 2 ^ 62 -> run new_db (requests h) = Ret (d, rs) ->
  reordered free_entries h h' ->
  exists d' rs' s, run new_db (requests h') = Ret (d', rs') /\ db_rel d s /\ db_rel d' s.
Proof. exact reordered_run. Qed.
Print Assumptions C71_same_contents.
Theorem C71_same_crash : forall h h',
  Forall (fun x => env_ok (h_env x)) h -> Forall (fun x => ~ pops (h_req x)) h -> requests_size (map h_req h) < 2 ^ 62 ->
  reordered free_entries h h' -> run new_db (requests h) = Panic -> run new_db (requests h') = Panic.
Proof. exact reordered_crash. Qed.
Print Assumptions C71_same_crash.

(* Requests for the examples. *)
Lemma en_free i l j m : (forall c1 c2 k, new_command (bs (hd ""%string l)) (map (fun s => RBulk (bs s)) (tl l)) = inl c1 ->
    new_command (bs (hd ""%string m)) (map (fun s => RBulk (bs s)) (tl m)) = inl c2 -> kind_of c1 = kind_of c2 -> ~ ((k ∈ written c1 /\ k ∈ names c2) \/ (k ∈ names c1 /\ k ∈ written c2))) ->
  free_entries (en i l) (en j m).
Proof.
  intros H (c1 & c2 & k & A1 & A2 & E & K). destruct A1 as (o1 & n1 & w1 & a1 & P1 & S1 & L1 & C1), A2 as (o2 & n2 & w2 & a2 & P2 & S2 & L2 & C2).
  cbn [en h_req] in P1, P2. unfold rq in P1, P2. destruct l as [|x l]; [inversion P1|]. destruct m as [|y m]; [inversion P2|]. cbn [map] in P1, P2.
  inversion P1; subst. inversion P2; subst. inversion S1; subst. inversion S2; subst.
  refine (H c1 c2 k (call_new_command _ _ _ _ L1 C1) (call_new_command _ _ _ _ L2 C2) E K).
Qed.
Lemma rq_asks w l c : new_command (bs w) (map (fun s => RBulk (bs s)) l) = inl c -> asks (rq (w :: l)) c.
Proof.
  intros E. pose proof (new_command_spec (bs w) (map (fun s => RBulk (bs s)) l)) as N. rewrite E in N. destruct N as (w' & S & C).
  exists (RBulk (bs w)), (bs w), w', (map (fun s => RBulk (bs s)) l). split; [constructor|]. split; [constructor|]. auto.
Qed.
Definition ok : option robj := Some (RSimple (bs "OK")).
Definition bulk (s : string) : robj := RBulk (bs s).
Ltac free := apply en_free; intros c1 c2 k E1 E2 K; vm_compute in E1, E2; first [discriminate E1|discriminate E2|
  injection E1 as <-; injection E2 as <-; first [discriminate K|cbn [written names]; rewrite ?elem_of_nil, ?elem_of_list_singleton; intuition congruence]].
Definition od : list entry := [en 1 ["SET"; "a"; "1"]; en 2 ["RPUSH"; "a"; "x"]; en 3 ["SET"; "b"; "2"]; en 4 ["INCR"; "a"]; en 5 ["GET"; "b"]]%string.
Definition od' : list entry := [en 3 ["SET"; "b"; "2"]; en 5 ["GET"; "b"]; en 1 ["SET"; "a"; "1"]; en 4 ["INCR"; "a"]; en 2 ["RPUSH"; "a"; "x"]]%string.
Lemma od_picked : reordered free_entries od od'.
Proof.
  apply picked_reordered. unfold od, od'.
  apply (pk_next _ [en 1 ["SET"; "a"; "1"]; en 2 ["RPUSH"; "a"; "x"]]%string); [repeat apply List.Forall_cons; try apply List.Forall_nil; free|]. cbn [app].
  apply (pk_next _ [en 1 ["SET"; "a"; "1"]; en 2 ["RPUSH"; "a"; "x"]; en 4 ["INCR"; "a"]]%string); [repeat apply List.Forall_cons; try apply List.Forall_nil; free|]. cbn [app].
  apply (pk_next _ []); [constructor|]. cbn [app].
  apply (pk_next _ [en 2 ["RPUSH"; "a"; "x"]]%string); [repeat apply List.Forall_cons; try apply List.Forall_nil; free|]. cbn [app].
  apply (pk_next _ []); [constructor|]. constructor.
Qed.
Example C71_ex : reordered free_entries od od' /\ ~ free_entries (en 1 ["SET"; "a"; "1"]%string) (en 4 ["INCR"; "a"]%string) /\
  after od (rq ["GET"; "a"]%string) = Some (Some (RBulk (bs "2"))) /\ after od' (rq ["GET"; "a"]%string) = Some (Some (RBulk (bs "2"))).
Proof.
  split; [exact od_picked|]. split; [|vm_compute; auto]. intros N. apply N. exists (CSet (bs "a") (bs "1")), (CIncr (bs "a") (bs "1")), (bs "a").
  split; [apply rq_asks; vm_compute; reflexivity|]. split; [apply rq_asks; vm_compute; reflexivity|].
  split; [reflexivity|]. left. split; apply elem_of_list_singleton; reflexivity.
Qed.
Example C71_replies_ex : Forall (fun x => env_ok (h_env x)) od /\ exists (d : db) (rs : list (option robj)) (p : list (entry * option robj)), run new_db (requests od) = Ret (d, rs) /\
  reordered (fun x y => free_entries (fst x) (fst y)) (zip od rs) p /\ map fst p = od' /\ map snd p = [ok; Some (bulk "2"); ok; Some (RInt 2); Some (RInt 1)].
Proof.
  split; [repeat apply List.Forall_cons; try apply List.Forall_nil; exact as_is_ok|].
  destruct (run new_db (requests od)) as [[d rs]| |] eqn:E; [|exfalso; vm_compute in E; discriminate E..].
  assert (ER : rs = [ok; Some (RInt 1); ok; Some (RInt 2); Some (bulk "2")]).
  { assert (Q : match run new_db (requests od) with Ret (_, rs) => rs | _ => [] end = [ok; Some (RInt 1); ok; Some (RInt 2); Some (bulk "2")]) by (vm_compute; reflexivity).
    rewrite E in Q. exact Q. }
  exists d, rs. eexists. split; [reflexivity|]. subst rs. unfold od. cbn [zip zip_with]. split; [|split; cycle 1].
  - apply picked_reordered.
    match goal with |- picked _ [?a; ?b; ?c; ?x; ?y] _ =>
      apply (pk_next _ [a; b] c [x; y]); [repeat apply List.Forall_cons; try apply List.Forall_nil; cbn [fst]; free|]; cbn [app];
      apply (pk_next _ [a; b; x] y []); [repeat apply List.Forall_cons; try apply List.Forall_nil; cbn [fst]; free|]; cbn [app];
      apply (pk_next _ [] a [b; x]); [constructor|]; cbn [app];
      apply (pk_next _ [b] x []); [repeat apply List.Forall_cons; try apply List.Forall_nil; cbn [fst]; free|]; cbn [app];
      apply (pk_next _ [] b []); [constructor|]; constructor end.
  - reflexivity.
  - reflexivity.
Qed.
(* HSET with the empty key crashes, before or after the other request. *)
Example C71_crash_ex : let h := [en 1 ["SET"; "a"; "1"]; en 2 ["HSET"; ""; "f"; "v"]]%string in let h' := [en 2 ["HSET"; ""; "f"; "v"]; en 1 ["SET"; "a"; "1"]]%string in
  reordered free_entries h h' /\ run new_db (requests h) = Panic.
Proof. split; [apply (ro_swap _ [] _ _ []); free|vm_compute; reflexivity]. Qed.

(* C72: a log in an order that keeps requests that clash in execution order rebuilds the same
   contents. *)
Theorem C72_rebuilds : forall ords h h' bss d rs,
  (forall i, orders_ok (ords i)) -> Forall loggable h -> Forall (fun x => ~ trims (h_req x) /\ ~ pops (h_req x)) h ->
  requests_size (map h_req h) < 2 ^ 62 -> run new_db (requests h) = Ret (d, rs) ->
  reordered free_entries h h' -> Forall2 packed (records h') bss ->
  exists ds s, recover ords (List.concat bss) = Ret ds /\ db_rel d s /\ db_rel (ds 1) s.
Proof. exact reordered_rebuilt. Qed.
Print Assumptions C72_rebuilds.
(* Wherever the process ends, the contents come back as they are after a first part of the
   requests in that order; what was flushed is in it. *)
Theorem C72_any_end : forall ords h h' l ws p oks d rs,
  (forall i, orders_ok (ords i)) -> Forall loggable h -> Forall (fun x => ~ trims (h_req x) /\ ~ pops (h_req x)) h ->
  requests_size (map h_req h) < 2 ^ 62 -> run new_db (requests h) = Ret (d, rs) ->
  reordered free_entries h h' -> Forall2 packed (records h') (written_by l) -> steps (open_file []) l ws = (p, oks) ->
  exists m d' rs' ds s, run new_db (requests (firstn m h')) = Ret (d', rs') /\ recover ords (p_file p) = Ret ds /\ db_rel d' s /\ db_rel (ds 1) s /\
    (forall l1 l2, l = l1 ++ PFlush :: l2 -> nth (length l1) oks false = true -> (length (written_by l1) <= length (records (firstn m h')))%nat).
Proof. exact reordered_end. Qed.
Print Assumptions C72_any_end.
(* The goroutines that write the records keep such an order if no request that is logged is handled
   while the record of one it clashes with is still to be written. *)
Theorem C72_patient : forall ords a bss d rs,
  (forall i, orders_ok (ords i)) -> lpatient a -> l_pending a = [] -> Forall loggable (l_executed a) ->
  Forall (fun x => ~ trims (h_req x) /\ ~ pops (h_req x)) (l_executed a) ->
  requests_size (map h_req (l_executed a)) < 2 ^ 62 -> run new_db (requests (l_executed a)) = Ret (d, rs) -> Forall2 packed (l_log a) bss ->
  exists ds s, recover ords (List.concat bss) = Ret ds /\ db_rel d s /\ db_rel (ds 1) s.
Proof. exact patient_rebuilt. Qed.
Print Assumptions C72_patient.
Example C72_ex : Forall loggable od /\ Forall2 packed (records od') (map pack (records od')) /\ length (records od') = 4%nat /\
  after_recovery (fun _ => turned) (records od') (rq ["GET"; "a"]%string) = Some (Some (RBulk (bs "2"))).
Proof. split; [unfold od; logs|]. split; [unfold od'; packs|]. vm_compute. auto. Qed.
(* Two writes are handled, with a read of the first between them, and the record of the second is
   written first. *)
Definition oe1 : entry := en 1 ["SET"; "a"; "1"]%string.
Definition oe2 : entry := en 2 ["SET"; "b"; "2"]%string.
Definition oe3 : entry := en 3 ["GET"; "a"]%string.
Example C72_patient_ex : lpatient (mkLstate [oe1; oe3; oe2] [] [vof oe2; vof oe1]).
Proof.
  assert (S1 : lpatient (mkLstate [oe1] [vof oe1] [])).
  { eapply lp_step; [apply lp_init|apply (l_handle oe1 [] [] [])|]. cbn. intros q _ _ x v H. inversion H. }
  assert (S1' : lpatient (mkLstate [oe1; oe3] [vof oe1] [])).
  { eapply lp_step; [exact S1|apply (l_handle oe3 [oe1] [vof oe1] [])|]. cbn [l_executed]. intros q E L. injection E as <-. vm_compute in L. discriminate L. }
  assert (S2 : lpatient (mkLstate [oe1; oe3; oe2] [vof oe1; vof oe2] [])).
  { eapply lp_step; [exact S1'|apply (l_handle oe2 [oe1; oe3] [vof oe1] [])|]. cbn [l_executed]. intros q E _ x v H _ _. injection E as <-.
    apply elem_of_cons in H as [->|H]; [unfold oe1, oe2; free|]. apply elem_of_list_singleton in H as ->. unfold oe3, oe2. free. }
  assert (S3 : lpatient (mkLstate [oe1; oe3; oe2] [vof oe1] [vof oe2])).
  { eapply lp_step; [exact S2|apply (l_write (vof oe2) [vof oe1] [] [oe1; oe3; oe2] [] (pack (vof oe2))); reflexivity|]. cbn [l_executed]. intros q E. apply (f_equal length) in E. discriminate E. }
  eapply lp_step; [exact S3|apply (l_write (vof oe1) [] [] [oe1; oe3; oe2] [vof oe2] (pack (vof oe1))); reflexivity|]. cbn [l_executed]. intros q E. apply (f_equal length) in E. discriminate E.
Qed.
