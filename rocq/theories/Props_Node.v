(* C30, C34, C59, C61, C62, C63: servers that are stopped, die, start again and copy from others. *)
From Verif Require Import Base BaseFacts IntSpec IntParse Resp RespSpec StringC HashC HashProofs Command SpecDb RequestSpec CommandProofs IdealSpec
  Db DbProofs Engine EngineProofs SpecFacts EngineFacts StringFacts Utf8 Utf8Spec Utf8Proofs Log LogSpec LogProofs Persist PersistSpec PersistProofs
  Replication ReplicationProofs Recovery RecoverySpec RecoveryProofs Props_Recovery Node NodeSpec NodeProofs.
From Coq Require Import ZArith List Ascii String Bool Lia.
From stdpp Require Import gmap.
Open Scope Z_scope.

(* C30 over any number of sessions: a server that was stopped or died any number of times, but
   never in the middle of a record, has the contents of one that handled the surviving requests
   without a break (no LTRIM, no SPOP, logged in execution order). *)
Theorem C30_many_sessions_partial : forall h f ords, life h f -> Forall loggable h -> Forall (fun x => ~ trims (h_req x) /\ ~ pops (h_req x)) h ->
  requests_size (map h_req h) < 2 ^ 62 -> (forall i, orders_ok (ords i)) ->
  exists d rs ds s, run new_db (requests h) = Ret (d, rs) /\ recover ords f = Ret ds /\ db_rel d s /\ db_rel (ds 1) s.
Proof. exact life_rebuilt. Qed.
Print Assumptions C30_many_sessions_partial.
(* three sessions; in the second the process dies and the last record is lost *)
Definition nd1 : list entry := [en 1 ["SET"; "n"; "41"]; en 2 ["RPUSH"; "l"; "a"]]%string.
Definition nd2 : list entry := [en 3 ["INCR"; "n"]; en 4 ["GET"; "n"]; en 5 ["SET"; "n"; "0"]]%string.
Definition pks (h : list entry) : list bytes := map pack (records h).
Definition keep {A} (r : res A) : bool := match r with Ret _ => true | _ => false end.
Lemma kept {A} (r : res A) : keep r = true -> exists a, r = Ret a.
Proof. destruct r; try discriminate. eauto. Qed.
Definition nd_f1 : bytes := Eval vm_compute in List.concat (pks nd1).
Definition nd_f2 : bytes := Eval vm_compute in nd_f1 ++ List.concat (pks (firstn 2 nd2)).
Definition runs_on (f : bytes) (h : list entry) : bool := match recover (fun _ => turned) f with Ret ds => keep (run (ds 1) (requests h)) | _ => false end.
Lemma runs_on_ok f h : runs_on f h = true -> exists ds d rs, recover (fun _ => turned) f = Ret ds /\ run (ds 1) (requests h) = Ret (d, rs).
Proof. unfold runs_on. destruct (recover _ f) as [ds| |]; try discriminate. intros H. destruct (kept _ H) as [[d rs] E]. eauto. Qed.
Example C30_many_sessions_ex : life (nd1 ++ firstn 2 nd2) nd_f2 /\ Forall loggable (nd1 ++ firstn 2 nd2) /\
  after (nd1 ++ firstn 2 nd2) (rq ["GET"; "n"]%string) = Some (Some (RBulk (bs "42"))).
Proof.
  assert (O : forall i : nat, orders_ok turned) by (intros; exact turned_ok).
  split; [|split; [unfold nd1, nd2; cbn [firstn app]; logs|vm_compute; reflexivity]].
  assert (L1 : life nd1 nd_f1).
  { destruct (runs_on_ok [] nd1) as (ds & d & rs & E1 & E2); [vm_compute; reflexivity|].
    refine (life_session [] [] (fun _ => turned) ds nd1 d rs (map PWrite (pks nd1) ++ [PFlush]) [] (mkPfile nd_f1 [] false false) [true; true; true] 2 (pks nd1) life_new O E1 E2 _ _ _ _).
    - change (Forall2 packed (records nd1) (pks nd1)). unfold nd1. packs.
    - vm_compute. reflexivity.
    - change (Forall2 packed (records nd1) (pks nd1)). unfold nd1. packs.
    - vm_compute. reflexivity. }
  destruct (runs_on_ok nd_f1 nd2) as (ds & d & rs & E1 & E2); [vm_compute; reflexivity|].
  refine (life_session nd1 nd_f1 (fun _ => turned) ds nd2 d rs [PWrite (pack (vof (en 3 ["INCR"; "n"]%string))); PFlush; PWrite (pack (vof (en 5 ["SET"; "n"; "0"]%string))); PFlush]
    [WOk; WDie 0] (mkPfile nd_f2 (pack (vof (en 5 ["SET"; "n"; "0"]%string))) true true) [true; true; true; false] 2 (pks (firstn 2 nd2)) L1 O E1 E2 _ _ _ _).
  - change (Forall2 packed (records nd2) (pks nd2)). unfold nd2. packs.
  - vm_compute. reflexivity.
  - change (Forall2 packed (records [en 3 ["INCR"; "n"]%string; en 4 ["GET"; "n"]%string]) (pks [en 3 ["INCR"; "n"]%string; en 4 ["GET"; "n"]%string])). packs.
  - vm_compute. reflexivity.
Qed.

(* C63 for writes that were flushed: wherever the process ends, also in the middle of a record,
   the server comes back with the contents after some first part of the requests; all whose
   records were written before a flush that succeeded are in it. *)
Theorem C63_flushed_writes_survive_partial : forall ords h l ws p oks d rs,
  (forall i, orders_ok (ords i)) -> Forall loggable h -> Forall (fun x => ~ trims (h_req x) /\ ~ pops (h_req x)) h ->
  requests_size (map h_req h) < 2 ^ 62 -> run new_db (requests h) = Ret (d, rs) ->
  Forall2 packed (records h) (written_by l) -> steps (open_file []) l ws = (p, oks) ->
  exists m d' rs' ds s, run new_db (requests (firstn m h)) = Ret (d', rs') /\ recover ords (p_file p) = Ret ds /\ db_rel d' s /\ db_rel (ds 1) s /\
    (forall l1 l2, l = l1 ++ PFlush :: l2 -> nth (length l1) oks false = true -> (length (written_by l1) <= length (records (firstn m h)))%nat).
Proof. exact after_any_end. Qed.
Print Assumptions C63_flushed_writes_survive_partial.
(* The process dies 10 bytes into the second record. *)
Example C63_flushed_ex : let h := [set1; set2] in let l := [PWrite (pack (vof set1)); PFlush; PWrite (pack (vof set2)); PFlush] in
  Forall loggable h /\ Forall2 packed (records h) (written_by l) /\ keep (run new_db (requests h)) = true /\
  let '(p, oks) := steps (open_file []) l [WOk; WDie 10] in oks = [true; true; true; false] /\ p_file p = pack (vof set1) ++ firstn 10 (pack (vof set2)).
Proof.
  split; [logs|]. split; [change (Forall2 packed (records [set1; set2]) (pks [set1; set2])); unfold set1, set2; packs|].
  split; [vm_compute; reflexivity|]. vm_compute. auto.
Qed.
(* C63 is false: a write is answered although its record is only in a buffer of the process.
   As long as no more than 4096 bytes were logged, none of it reaches the file ... *)
Theorem C63_small_logs_unsaved_refuted : forall f l ws p oks, Forall (fun o => o <> PFlush) l -> (length (List.concat (written_by l)) <= 4096)%nat ->
  steps (open_file f) l ws = (p, oks) -> p_file p = f /\ oks = map (fun _ => true) l.
Proof. intros f l ws p oks Hn Hs E. exact (short_stays l f [] ws p oks Hn Hs E). Qed.
Print Assumptions C63_small_logs_unsaved_refuted.
Example C63_small_ex : Forall (fun o => o <> PFlush) [PWrite (pack (vof set1)); PWrite (pack (vof set2))] /\
  (length (List.concat (written_by [PWrite (pack (vof set1)); PWrite (pack (vof set2))])) <= 4096)%nat.
Proof. split; [repeat constructor; discriminate|]. vm_compute. lia. Qed.
(* ... so a value that was set and could be read is gone after a crash. *)
Theorem C63_acknowledged_refuted : exists h l p oks q r1 r2, Forall loggable h /\ Forall2 packed (records h) (written_by l) /\
  steps (open_file []) l [] = (p, oks) /\ Forall (fun ok => ok = true) oks /\
  after h q = Some (Some r1) /\ r1 = RBulk (bs "1") /\
  (match recover (fun _ => as_is) (p_file p) with Ret ds => match handle (mkEnv as_is []) (ds 1) q with Ret (_, r) => Some r | _ => None end | _ => None end) = Some (Some r2) /\
  r2 = RNullBulk.
Proof.
  exists [set1], [PWrite (pack (vof set1))]. eexists. eexists. exists (rq ["GET"; "k"]%string). eexists. eexists.
  split; [logs|]. split; [change (Forall2 packed (records [set1]) (pks [set1])); unfold set1; packs|].
  split; [vm_compute; reflexivity|]. split; [repeat constructor|]. split; [vm_compute; reflexivity|]. split; [reflexivity|].
  split; [vm_compute; reflexivity|reflexivity].
Qed.
Print Assumptions C63_acknowledged_refuted.

(* C34 is false also with replication on: Stop does not wait for the goroutines that write the
   records, so a request that was handled before Stop may be missing from the file. *)
Theorem C34_pending_refuted : exists a p p', lreach a /\ l_executed a = [set1] /\ Forall loggable (l_executed a) /\
  steps (open_file []) (map (fun v => PWrite (pack v)) (l_log a)) [] = (p, map (fun _ => true) (l_log a)) /\
  stop true (Some p) [] = Ret (p', []) /\ p_file p' = [].
Proof.
  exists (mkLstate [set1] [vof set1] []), (open_file []), (open_file []).
  split; [eapply lr_step; [apply lr_init|apply (l_handle set1 [] [] [])]|]. split; [reflexivity|]. split; [logs|].
  split; [reflexivity|]. split; reflexivity.
Qed.
Print Assumptions C34_pending_refuted.

(* C59: a replica that starts with an empty file has the contents of its master (no LTRIM, no
   SPOP, logged in execution order, less than 4 GiB of log). *)
Theorem C59_replica_copies_partial : forall o1 o2 h d rs l ws p oks p' st, (forall i, orders_ok (o2 i)) -> Forall loggable h ->
  Forall (fun x => ~ trims (h_req x) /\ ~ pops (h_req x)) h -> requests_size (map h_req h) < 2 ^ 62 ->
  run new_db (requests h) = Ret (d, rs) -> Forall2 packed (records h) (written_by l) -> blen (List.concat (written_by l)) < 2 ^ 32 ->
  steps (open_file []) l ws = (p, oks) -> serve_replica p [] = (p', Some st) ->
  exists ds s, sync_external o1 o2 (Opened []) (Some st) = Ret ds /\ db_rel d s /\ db_rel (ds 1) s.
Proof. exact copied. Qed.
Print Assumptions C59_replica_copies_partial.
Definition nd_m : list entry := [en 1 ["SET"; "n"; "1"]; en 2 ["SADD"; "s"; "x"; "y"]]%string.
Definition nd_st : bytes := Eval vm_compute in replica_stream (List.concat (pks nd_m)).
Definition asked (r : res dbs) (q : robj) : option robj :=
  match r with Ret ds => match handle (mkEnv as_is []) (ds 1) q with Ret (_, r) => r | _ => None end | _ => None end.
Example C59_replica_ex : Forall loggable nd_m /\ Forall2 packed (records nd_m) (written_by (map PWrite (pks nd_m))) /\
  (let '(p, _) := steps (open_file []) (map PWrite (pks nd_m)) [] in exists p', serve_replica p [] = (p', Some nd_st)) /\
  asked (sync_external (fun _ => as_is) (fun _ => turned) (Opened []) (Some nd_st)) (rq ["GET"; "n"]%string) = Some (RBulk (bs "1")) /\
  asked (sync_external (fun _ => as_is) (fun _ => turned) (Opened []) (Some nd_st)) (rq ["SISMEMBER"; "s"; "y"]%string) = Some (RInt 1).
Proof.
  split; [unfold nd_m; logs|]. split; [change (Forall2 packed (records nd_m) (pks nd_m)); unfold nd_m; packs|].
  split; [lazymatch goal with |- let '(_, _) := ?X in _ => let y := eval vm_compute in X in replace X with y by (vm_compute; reflexivity) end; eexists; vm_compute; reflexivity|].
  vm_compute. auto.
Qed.
(* A database file that cannot be opened is like an empty one. *)
Theorem C59_unopened : forall o1 o2 m, sync_external o1 o2 OpenFails m = sync_external o1 o2 (Opened []) m.
Proof. reflexivity. Qed.
Print Assumptions C59_unopened.
(* C59 is false of a server without a database file: it never asks the master. *)
Theorem C59_no_file_refuted : forall o1 o2 m, sync_external o1 o2 NoSource m = Ret no_dbs.
Proof. reflexivity. Qed.
Print Assumptions C59_no_file_refuted.
(* C59 is false with LTRIM: the replica of a master that trimmed a list has the untrimmed one. *)
Definition nd_t : list entry := [en 1 ["RPUSH"; "l"; "a"; "b"]; en 2 ["LTRIM"; "l"; "0"; "0"]]%string.
Theorem C59_ltrim_refuted : exists h q, Forall loggable h /\ Forall2 packed (records h) (pks h) /\
  after h q = Some (Some (RInt 1)) /\
  asked (sync_external (fun _ => as_is) (fun _ => as_is) (Opened []) (Some (replica_stream (List.concat (pks h))))) q = Some (RInt 2).
Proof.
  exists nd_t, (rq ["LLEN"; "l"]%string). split; [unfold nd_t; logs|]. split; [unfold nd_t; packs|]. vm_compute. auto.
Qed.
Print Assumptions C59_ltrim_refuted.

(* C61 is false: what a replica copied is not in its own file; started again without the master
   it has lost it. *)
Theorem C61_copy_lost_refuted : exists st p q r1 r2, (exists h, Forall loggable h /\ Forall2 packed (records h) (pks h) /\ st = replica_stream (List.concat (pks h))) /\
  asked (sync_external (fun _ => as_is) (fun _ => as_is) (Opened []) (Some st)) q = Some r1 /\
  steps (open_file []) [PFlush] [] = (p, [true]) /\
  asked (sync_external (fun _ => as_is) (fun _ => as_is) (Opened (p_file p)) None) q = Some r2 /\ r1 <> r2.
Proof.
  exists nd_st. eexists. exists (rq ["GET"; "n"]%string). eexists. eexists.
  split; [exists nd_m; split; [unfold nd_m; logs|]; split; [unfold nd_m; packs|vm_compute; reflexivity]|].
  split; [vm_compute; reflexivity|]. split; [reflexivity|]. split; [vm_compute; reflexivity|discriminate].
Qed.
Print Assumptions C61_copy_lost_refuted.

(* C62 for a replica that was only read: started again with the same master it has the data it
   had. *)
Theorem C62_only_reads_partial : forall o1 o2 o3 o4 h d rs l ws p oks p' st ds h2 d2 rs2 l2 ws2 p2 oks2, (forall i, orders_ok (o2 i)) -> (forall i, orders_ok (o4 i)) ->
  Forall loggable h -> Forall (fun x => ~ trims (h_req x) /\ ~ pops (h_req x)) h -> requests_size (map h_req h) < 2 ^ 62 ->
  run new_db (requests h) = Ret (d, rs) -> Forall2 packed (records h) (written_by l) -> blen (List.concat (written_by l)) < 2 ^ 32 ->
  steps (open_file []) l ws = (p, oks) -> serve_replica p [] = (p', Some st) ->
  sync_external o1 o2 (Opened []) (Some st) = Ret ds ->
  Forall loggable h2 -> Forall (fun x => ~ trims (h_req x) /\ ~ pops (h_req x)) h2 -> records h2 = [] -> run (ds 1) (requests h2) = Ret (d2, rs2) ->
  Forall2 packed (records h2) (written_by l2) -> steps (open_file []) l2 ws2 = (p2, oks2) ->
  exists ds2 s, sync_external o3 o4 (Opened (p_file p2)) (Some st) = Ret ds2 /\ db_rel d2 s /\ db_rel (ds2 1) s.
Proof. exact copied_again. Qed.
Print Assumptions C62_only_reads_partial.
Definition nd_r : list entry := [en 3 ["GET"; "n"]; en 4 ["SMEMBERS"; "s"]]%string.
Example C62_only_reads_ex : Forall loggable nd_r /\ records nd_r = [] /\
  match sync_external (fun _ => as_is) (fun _ => as_is) (Opened []) (Some nd_st) with Ret ds => keep (run (ds 1) (requests nd_r)) | _ => false end = true.
Proof. split; [unfold nd_r; logs|]. split; vm_compute; reflexivity. Qed.
(* C62 is false otherwise: the replica's own log is replayed before the master's, so its later
   writes are overwritten by older ones. *)
Definition nd_w : list entry := [en 3 ["INCR"; "n"]]%string.
Theorem C62_own_write_lost_refuted : exists st ds p, (exists h, Forall loggable h /\ Forall2 packed (records h) (pks h) /\ st = replica_stream (List.concat (pks h))) /\
  sync_external (fun _ => as_is) (fun _ => as_is) (Opened []) (Some st) = Ret ds /\
  Forall2 packed (records nd_w) (written_by [PWrite (pack (vof (en 3 ["INCR"; "n"]%string))); PFlush]) /\
  steps (open_file []) [PWrite (pack (vof (en 3 ["INCR"; "n"]%string))); PFlush] [] = (p, [true; true]) /\
  (match run (ds 1) (requests nd_w ++ [(mkEnv as_is [], rq ["GET"; "n"]%string)]) with Ret (_, rs) => Some rs | _ => None end) = Some [Some (RInt 2); Some (RBulk (bs "2"))] /\
  asked (sync_external (fun _ => as_is) (fun _ => as_is) (Opened (p_file p)) (Some st)) (rq ["GET"; "n"]%string) = Some (RBulk (bs "1")).
Proof.
  assert (K : match sync_external (fun _ => as_is) (fun _ => as_is) (Opened []) (Some nd_st) with
    | Ret ds => match run (ds 1) (requests nd_w ++ [(mkEnv as_is [], rq ["GET"; "n"]%string)]) with Ret (_, rs) => Some rs | _ => None end
    | _ => None end = Some [Some (RInt 2); Some (RBulk (bs "2"))]) by (vm_compute; reflexivity).
  destruct (sync_external _ _ _ _) as [ds| |] eqn:E in K; try discriminate.
  exists nd_st, ds. eexists. split; [exists nd_m; split; [unfold nd_m; logs|]; split; [unfold nd_m; packs|vm_compute; reflexivity]|].
  split; [exact E|]. split; [change (Forall2 packed (records nd_w) (pks nd_w)); unfold nd_w; packs|]. split; [vm_compute; reflexivity|]. split; [exact K|].
  vm_compute. reflexivity.
Qed.
Print Assumptions C62_own_write_lost_refuted.
