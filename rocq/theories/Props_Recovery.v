(* C30, C31, C32, C58: what the log contains and what is rebuilt from it. *)
From Verif Require Import Base BaseFacts IntSpec IntParse Resp RespSpec StringC HashC HashProofs Command SpecDb RequestSpec CommandProofs IdealSpec
  Db DbProofs Engine EngineProofs SpecFacts EngineFacts StringFacts Utf8 Utf8Spec Utf8Proofs Log LogSpec LogProofs Persist PersistSpec PersistProofs
  Recovery RecoverySpec RecoveryProofs.
From Coq Require Import ZArith List Ascii String Bool Lia.
From stdpp Require Import gmap.
Open Scope Z_scope.

(* Requests for the examples, as bulk strings. *)
Definition rq (l : list string) : robj := RArr (map (fun s => RBulk (bs s)) l).
Definition as_is : orders := fun _ l => l.
Definition turned : orders := fun _ l => rev l.
Definition en (i : Z) (l : list string) : entry := mkEntry (mkEnv as_is []) (mkStamp (bs "id") i (bs "host")) (rq l).
Lemma as_is_ok : orders_ok as_is. Proof. intros n l. apply Permutation_refl. Qed.
Lemma turned_ok : orders_ok turned. Proof. intros n l. symmetry. apply Permutation_rev. Qed.
(* decides [loggable] for the examples *)
Definition check_text (s : string) : bool := valid_utf8 (bs s) && (blen (bs s) <? 1000).
Lemma en_loggable (i : Z) (l : list string) : forallb check_text l = true -> int64_ok i -> Z.of_nat (List.length l) < 100 ->
  (blen (Resp.encode (rq l)) <? 10000) = true -> loggable (en i l).
Proof.
  intros Hl Hi Hn Hb. apply Z.ltb_lt in Hb. unfold loggable, en. cbn [h_env h_stamp h_req].
  split; [exact as_is_ok|]. split; [repeat split; cbn [t_id t_host t_time]; try (apply valid_utf8_spec; reflexivity); apply Hi|].
  split. { unfold small. cbn [t_id t_host]. change (blen (bs "id")) with 2. change (blen (bs "host")) with 4. lia. }
  rewrite forallb_forall in Hl. split.
  - apply ok_arr; [rewrite map_length; lia|]. apply List.Forall_map, List.Forall_forall. intros s Hs. specialize (Hl s Hs).
    unfold check_text in Hl. apply andb_prop in Hl as [_ Hl]. apply ok_bulk. lia.
  - clear -Hl. unfold rq. cbn [utf8_obj]. induction l as [|s l IH]; cbn [map]; [exact I|]. split.
    + apply valid_utf8_spec. specialize (Hl s (or_introl eq_refl)). unfold check_text in Hl. now apply andb_prop in Hl as [Hl _].
    + apply IH. intros x Hx. apply Hl. now right.
Qed.
Ltac logs := repeat (apply List.Forall_cons; [apply en_loggable; [reflexivity|vm_compute; split; congruence|vm_compute; reflexivity|vm_compute; reflexivity]|]); apply List.Forall_nil.
Ltac packs := repeat (apply List.Forall2_cons; [apply packed_intro; [vm_compute; reflexivity|vm_compute; split; congruence|vm_compute; split; congruence|vm_compute; reflexivity]|]); apply List.Forall2_nil.

(* The reply to a further request, before and after recovery from a log of these records. *)
Definition after (h : list entry) (q : robj) : option (option robj) :=
  match run new_db (requests h) with Ret (d, _) => match handle (mkEnv as_is []) d q with Ret (_, r) => Some r | _ => None end | _ => None end.
Definition after_recovery (ords : nat -> orders) (vs : list vlog) (q : robj) : option (option robj) :=
  match recover ords (List.concat (map pack vs)) with
  | Ret ds => match handle (mkEnv as_is []) (ds 1) q with Ret (_, r) => Some r | _ => None end
  | _ => None
  end.

(* C30 for histories without LTRIM and SPOP that do not crash, logged in execution order
   and flushed: the rebuilt database has the same contents, and hence gives the answers
   the reference machine gives there. *)
Theorem C30_restart_rebuilds_partial : forall ords h bss d rs ws p oks,
  (forall i, orders_ok (ords i)) -> Forall loggable h -> Forall (fun x => ~ trims (h_req x) /\ ~ pops (h_req x)) h ->
  requests_size (map h_req h) < 2 ^ 62 -> run new_db (requests h) = Ret (d, rs) ->
  Forall2 packed (records h) bss -> steps (open_file []) (map PWrite bss ++ [PFlush]) ws = (p, oks) -> nth (length bss) oks false = true ->
  exists ds s, recover ords (p_file p) = Ret ds /\ db_rel d s /\ db_rel (ds 1) s.
Proof. exact rebuilt_file. Qed.
Print Assumptions C30_restart_rebuilds_partial.
Definition ex_h : list entry :=
  [en 1 ["SET"; "n"; "41"]; en 2 ["incr"; "n"]; en 3 ["RPUSH"; "l"; "a"; "b"]; en 4 ["LLEN"; "l"]; en 5 ["HSET"; "h"; "f"; "v"]; en 6 ["nonsense"]]%string.
Example C30_rebuilds_ex : Forall loggable ex_h /\ Forall2 packed (records ex_h) (map pack (records ex_h)) /\ length (records ex_h) = 4%nat /\
  after ex_h (rq ["GET"; "n"]%string) = Some (Some (RBulk (bs "42"))) /\
  after_recovery (fun _ => turned) (records ex_h) (rq ["GET"; "n"]%string) = Some (Some (RBulk (bs "42"))) /\
  after_recovery (fun _ => turned) (records ex_h) (rq ["LRANGE"; "l"; "0"; "-1"]%string) = Some (Some (RArr [RBulk (bs "a"); RBulk (bs "b")])).
Proof. split; [logs|]. split; [unfold ex_h; packs|]. vm_compute. auto. Qed.

(* The same contents give the same answers: both databases answer as the reference
   machine does on those contents. *)
Theorem C30_same_contents_same_answers : forall d1 d2 s e1 e2 q, db_rel d1 s -> db_rel d2 s -> fits s -> env_ok e1 -> env_ok e2 ->
  result_ok s q (handle e1 d1 q) /\ result_ok s q (handle e2 d2 q).
Proof. intros. split; now apply handle_refines. Qed.
Print Assumptions C30_same_contents_same_answers.
Example C30_same_contents_ex : db_rel new_db empty_sdb /\ fits empty_sdb /\ env_ok (mkEnv turned []).
Proof. split; [apply new_db_rel|]. split; [eapply bounded_fits; [apply bounded_empty|lia]|exact turned_ok]. Qed.

(* C30 is false in general: after LTRIM, the elements come back. *)
Theorem C30_restart_refuted : exists h q ords, Forall loggable h /\ (forall i, orders_ok (ords i)) /\
  Forall2 packed (records h) (map pack (records h)) /\
  exists r1 r2, after h q = Some (Some r1) /\ after_recovery ords (records h) q = Some (Some r2) /\ r1 <> r2.
Proof.
  exists [en 1 ["RPUSH"; "l"; "a"; "b"]; en 2 ["LTRIM"; "l"; "0"; "0"]]%string, (rq ["LLEN"; "l"]%string), (fun _ => as_is).
  split; [logs|]. split; [intros; exact as_is_ok|]. split; [packs|].
  exists (RInt 1), (RInt 2). split; [vm_compute; reflexivity|]. split; [vm_compute; reflexivity|discriminate].
Qed.
Print Assumptions C30_restart_refuted.
(* And after SPOP another member may be gone. *)
Theorem C30_spop_refuted : exists h q ords, Forall loggable h /\ (forall i, orders_ok (ords i)) /\
  Forall (fun x => ~ trims (h_req x)) h /\ Forall2 packed (records h) (map pack (records h)) /\
  exists r1 r2, after h q = Some (Some r1) /\ after_recovery ords (records h) q = Some (Some r2) /\ r1 <> r2.
Proof.
  exists [en 1 ["SADD"; "s"; "a"; "b"]; en 2 ["SPOP"; "s"]]%string, (rq ["SISMEMBER"; "s"; "a"]%string), (fun _ => turned).
  split; [logs|]. split; [intros; exact turned_ok|]. split.
  - assert (N : forall i l w, (forall k a b, new_command (bs w) (map (fun s => RBulk (bs s)) l) <> inl (CLtrim k a b)) -> ~ trims (h_req (en i (w :: l)))).
    { intros i l w H (k & a & b & o & name & w' & args & Hp & Ho & Hs & Hc). inversion Hp; subst. inversion Ho; subst.
      apply (H k a b). now apply (call_new_command _ w'). }
    apply List.Forall_cons; [|apply List.Forall_cons; [|apply List.Forall_nil]]; apply N; intros k a b; vm_compute; discriminate.
  - split; [packs|]. eexists. eexists. split; [vm_compute; reflexivity|]. split; [vm_compute; reflexivity|discriminate].
Qed.
Print Assumptions C30_spop_refuted.

(* C31: a request in UTF-8 that changed the data, other than LTRIM, has a log record
   which packs, and carries the request. *)
Theorem C31_write_logged_partial : forall x d s d' r, loggable x -> ~ trims (h_req x) -> db_rel d s -> fits s ->
  handle (h_env x) d (h_req x) = Ret (d', r) -> ~ db_rel d' s ->
  exists v b, log_of (h_stamp x) (h_req x) = Some v /\ packed v b /\ v_raw v = Resp.encode (h_req x).
Proof. exact write_logged. Qed.
Print Assumptions C31_write_logged_partial.
Example C31_logged_ex : loggable (en 1 ["SET"; "k"; "v"]%string) /\
  (exists v, log_of (h_stamp (en 1 ["SET"; "k"; "v"]%string)) (rq ["SET"; "k"; "v"]%string) = Some v /\ v_name v = bs "SET") /\
  after [en 1 ["SET"; "k"; "v"]%string] (rq ["GET"; "k"]%string) <> after [] (rq ["GET"; "k"]%string).
Proof.
  split; [apply en_loggable; [reflexivity|vm_compute; split; congruence|vm_compute; reflexivity|vm_compute; reflexivity]|].
  split; [eexists; split; vm_compute; reflexivity|]. vm_compute. discriminate.
Qed.
(* C31 is false of LTRIM: it changes the answers but is not logged. *)
Theorem C31_ltrim_refuted : exists h x q, loggable x /\ log_of (h_stamp x) (h_req x) = None /\
  exists r1 r2, after h q = Some (Some r1) /\ after (h ++ [x]) q = Some (Some r2) /\ r1 <> r2.
Proof.
  exists [en 1 ["RPUSH"; "l"; "a"; "b"]]%string, (en 2 ["LTRIM"; "l"; "0"; "0"]%string), (rq ["LLEN"; "l"]%string).
  split; [apply en_loggable; [reflexivity|vm_compute; split; congruence|vm_compute; reflexivity|vm_compute; reflexivity]|].
  split; [vm_compute; reflexivity|]. exists (RInt 2), (RInt 1). split; [vm_compute; reflexivity|]. split; [vm_compute; reflexivity|discriminate].
Qed.
Print Assumptions C31_ltrim_refuted.
(* C31 is false of arguments that are not UTF-8: the record cannot be packed and is
   dropped. *)
Theorem C31_binary_refuted : exists x q v, env_ok (h_env x) /\ stamp_ok (h_stamp x) /\ obj_ok (h_req x) /\ ~ trims (h_req x) /\
  log_of (h_stamp x) (h_req x) = Some v /\ pack_log v = None /\
  exists r1 r2, after [] q = Some (Some r1) /\ after [x] q = Some (Some r2) /\ r1 <> r2.
Proof.
  exists (mkEntry (mkEnv as_is []) (mkStamp (bs "id") 1 (bs "host")) (RArr [RBulk (bs "SET"); RBulk (bs "k"); RBulk [byteOf 255]])).
  exists (rq ["GET"; "k"]%string). eexists. split; [exact as_is_ok|].
  split; [repeat split; cbn [h_stamp t_id t_host t_time]; try (apply valid_utf8_spec; reflexivity); vm_compute; congruence|].
  split. { cbn [h_req]. apply ok_arr; [vm_compute; reflexivity|]. repeat (apply List.Forall_cons; [apply ok_bulk; vm_compute; reflexivity|]). apply List.Forall_nil. }
  split. { intros (k & a & b & o & name & w' & args & Hp & Ho & Hs & Hc). cbn [h_req] in Hp. inversion Hp; subst. inversion Ho; subst.
    pose proof (call_new_command _ w' _ _ Hs Hc) as N. vm_compute in N. discriminate. }
  split; [vm_compute; reflexivity|]. split; [vm_compute; reflexivity|].
  eexists. eexists. split; [vm_compute; reflexivity|]. split; [vm_compute; reflexivity|discriminate].
Qed.
Print Assumptions C31_binary_refuted.

(* C32: whatever the schedule, the log holds each record at most once and nothing else;
   once no write is pending it is a permutation of the records of the executed requests. *)
Theorem C32_log_is_a_permutation_partial : forall a, lreach a -> Forall loggable (l_executed a) -> l_pending a = [] ->
  Permutation (l_log a) (records (l_executed a)).
Proof. exact log_complete. Qed.
Print Assumptions C32_log_is_a_permutation_partial.
Theorem C32_nothing_invented_partial : forall a, lreach a -> exists dropped,
  Permutation (records (l_executed a)) (l_log a ++ l_pending a ++ dropped) /\ Forall (fun v => pack_log v = None) dropped.
Proof. exact log_permutation. Qed.
Print Assumptions C32_nothing_invented_partial.
(* If each record is written before the next request is handled, the order is kept. *)
Theorem C32_calm_order_partial : forall a, lcalm a -> Forall loggable (l_executed a) ->
  l_log a ++ l_pending a = records (l_executed a) /\ (length (l_pending a) <= 1)%nat.
Proof. exact log_in_order. Qed.
Print Assumptions C32_calm_order_partial.
Definition set1 : entry := en 1 ["SET"; "k"; "1"]%string.
Definition set2 : entry := en 2 ["SET"; "k"; "2"]%string.
Definition vof (x : entry) : vlog := match log_of (h_stamp x) (h_req x) with Some v => v | None => empty_vlog end.
Example C32_calm_ex : lcalm (mkLstate [set1; set2] [] [vof set1; vof set2]) /\ Forall loggable [set1; set2].
Proof.
  split; [|logs].
  assert (S1 : lcalm (mkLstate [set1] [vof set1] [])) by (eapply lc_step; [apply lc_init|apply (l_handle set1 [] [] [])|right; reflexivity]).
  assert (S2 : lcalm (mkLstate [set1] [] [vof set1])) by (eapply lc_step; [exact S1|apply (l_write (vof set1) [] [] [set1] [] (pack (vof set1))); reflexivity|left; reflexivity]).
  assert (S3 : lcalm (mkLstate [set1; set2] [vof set2] [vof set1])) by (eapply lc_step; [exact S2|apply (l_handle set2 [set1] [] [vof set1])|right; reflexivity]).
  eapply lc_step; [exact S3|apply (l_write (vof set2) [] [] [set1; set2] [vof set1] (pack (vof set2))); reflexivity|left; reflexivity].
Qed.
(* C32 is false: two writes executed one after the other can be logged the other way
   round, and recovery then brings back the older value. *)
Theorem C32_order_refuted : exists a, lreach a /\ Forall loggable (l_executed a) /\ l_pending a = [] /\
  l_log a <> records (l_executed a) /\
  exists q r1 r2, after (l_executed a) q = Some (Some r1) /\ after_recovery (fun _ => as_is) (l_log a) q = Some (Some r2) /\ r1 <> r2.
Proof.
  exists (mkLstate [set1; set2] [] [vof set2; vof set1]). cbn [l_executed l_pending l_log]. split.
  { eapply lr_step; [eapply lr_step; [eapply lr_step; [eapply lr_step; [apply lr_init|]|]|]|].
    - apply (l_handle set1 [] [] []).
    - apply (l_handle set2 [set1] [vof set1] []).
    - apply (l_write (vof set2) [vof set1] [] [set1; set2] [] (pack (vof set2))). reflexivity.
    - apply (l_write (vof set1) [] [] [set1; set2] [vof set2] (pack (vof set1))). reflexivity. }
  split; [logs|]. split; [reflexivity|]. split; [vm_compute; discriminate|].
  exists (rq ["GET"; "k"]%string). eexists. eexists. split; [vm_compute; reflexivity|]. split; [vm_compute; reflexivity|discriminate].
Qed.
Print Assumptions C32_order_refuted.

(* C58 is false: a request that crashes the server can reach the log before the crash,
   and then every restart crashes. *)
Theorem C58_restart_refuted : exists x v b, loggable x /\ run new_db (requests [x]) = Panic /\
  log_of (h_stamp x) (h_req x) = Some v /\ packed v b /\
  forall ords, (forall i, orders_ok (ords i)) -> recover ords b = Panic.
Proof.
  exists (en 1 ["SADD"; ""; "m"]%string). eexists. eexists.
  split; [apply en_loggable; [reflexivity|vm_compute; split; congruence|vm_compute; reflexivity|vm_compute; reflexivity]|].
  split; [vm_compute; reflexivity|]. split; [vm_compute; reflexivity|]. split.
  - apply packed_intro; [vm_compute; reflexivity|vm_compute; split; congruence|vm_compute; split; congruence|vm_compute; reflexivity].
  - intros ords H. vm_compute. reflexivity.
Qed.
Print Assumptions C58_restart_refuted.
(* A log of a history that did not crash can always be replayed, if written in order. *)
Theorem C58_uncrashed_partial : forall ords h bss d rs, (forall i, orders_ok (ords i)) -> Forall loggable h ->
  Forall (fun x => ~ trims (h_req x) /\ ~ pops (h_req x)) h ->
  requests_size (map h_req h) < 2 ^ 62 -> run new_db (requests h) = Ret (d, rs) -> Forall2 packed (records h) bss ->
  exists ds s, recover ords (List.concat bss) = Ret ds /\ db_rel d s /\ db_rel (ds 1) s.
Proof. exact rebuilt. Qed.
Print Assumptions C58_uncrashed_partial.
Example C58_uncrashed_ex : Forall loggable ex_h /\ Forall2 packed (records ex_h) (map pack (records ex_h)) /\
  exists d rs, run new_db (requests ex_h) = Ret (d, rs).
Proof.
  split; [logs|]. split; [unfold ex_h; packs|].
  assert (H : match run new_db (requests ex_h) with Ret _ => true | _ => false end = true) by (vm_compute; reflexivity).
  destruct (run new_db (requests ex_h)) as [[d rs]| |]; [eauto|discriminate..].
Qed.
