(* C87: what is held is never more than what was sent; C88: how the log grows. *)
From Verif Require Import Base Resp RespSpec Command SpecDb RequestSpec IdealSpec Db DbProofs Engine EngineProofs SpecFacts EngineFacts StringFacts ListFacts Log LogSpec Recovery RecoverySpec
  SizeSpec SizeProofs LogSizeSpec LogSizeProofs.
From Coq Require Import ZArith List Ascii String Bool Lia.
From stdpp Require Import gmap.
Open Scope Z_scope.

(* C87: after any history, the data held are no larger than all the requests together, with
   20 bytes more for each (the digits of a counter). *)
Theorem C87_data : forall h d rs s, Forall (fun x => env_ok (fst x)) h -> requests_size (map snd h) < 2 ^ 62 -> run new_db h = Ret (d, rs) -> db_rel d s ->
  data_size s <= sum (fun x => 20 + blen (Resp.encode (snd x))) h.
Proof. exact data_wire. Qed.
Print Assumptions C87_data.
(* One request adds at most its own size, whatever was held before. *)
Theorem C87_step : forall e d s q d' r s', good e d s -> handle e d q = Ret (d', r) -> db_rel d' s' ->
  data_size s' <= data_size s + 20 + blen (Resp.encode q).
Proof. exact data_step_wire. Qed.
Print Assumptions C87_step.
Definition sz_rq (l : list string) : robj := str_req (map bs l).
Definition sz_h : list (env * robj) := [(some_env, sz_rq ["set"; "k"; "abc"]); (some_env, sz_rq ["rpush"; "l"; "x"; "yz"])]%string.
(* 2 + 4 bytes of a string and its key, 2 + 2 + 3 of a list and its key *)
Example C87_data_ex : Forall (fun x => env_ok (fst x)) sz_h /\ requests_size (map snd sz_h) < 2 ^ 62 /\
  exists d rs s, run new_db sz_h = Ret (d, rs) /\ db_rel d s /\ data_size s = 13.
Proof.
  split; [repeat (apply List.Forall_cons; [exact some_env_ok|]); apply List.Forall_nil|]. split; [vm_compute; reflexivity|].
  destruct (set_ok some_env new_db empty_sdb (sz_rq ["set"; "k"; "abc"]%string) (bs "k") (bs "abc") some_good) as (d1 & E1 & R1).
  { apply str_req_request. spelt. }
  match type of R1 with db_rel _ ?s => set (s1 := s) in * end.
  assert (G1 : good some_env d1 s1).
  { split; [exact some_env_ok|]. split; [exact R1|]. constructor; intros k x H; cbn [s1 with_ss ss sl st empty_sdb] in H.
    - rewrite insert_empty in H. rewrite lookup_singleton_Some in H. destruct H as [_ <-]. vm_compute. reflexivity.
    - now rewrite lookup_empty in H.
    - now rewrite lookup_empty in H. }
  destruct (rpush_ok some_env d1 s1 (sz_rq ["rpush"; "l"; "x"; "yz"]%string) (bs "l") [bs "x"; bs "yz"] G1) as (d2 & E2 & R2); try discriminate.
  { apply str_req_request. spelt. }
  exists d2, [Some (RSimple (bs "OK")); Some (RInt 2)]. eexists. split; [|split; [exact R2|vm_compute; reflexivity]].
  unfold sz_h. cbn [run]. rewrite E1. cbn [rbind fst snd]. rewrite E2. reflexivity.
Qed.
Example C87_step_ex : good some_env new_db empty_sdb. Proof. exact some_good. Qed.

(* C88: whatever the schedule, the file is never larger than what the executed requests account for ... *)
Theorem C88_bound : forall a, lreach a -> log_bytes (l_log a) <= sum record_bound (l_executed a).
Proof. exact log_bound. Qed.
Print Assumptions C88_bound.
(* ... a record takes at least the bytes of its request, ... *)
Theorem C88_record : forall x v b, log_of (h_stamp x) (h_req x) = Some v -> pack_log v = Some b ->
  blen (Resp.encode (h_req x)) <= blen b <= record_bound x.
Proof. intros x v b H P. split; [eapply record_raw|eapply record_bytes]; eauto. Qed.
Print Assumptions C88_record.
(* ... the file never shrinks, ... *)
Theorem C88_never_shrinks : forall a b, lstep a b -> log_bytes (l_log a) <= log_bytes (l_log b).
Proof. exact log_grows. Qed.
Print Assumptions C88_never_shrinks.
(* ... and it grows without bound while what is held stays at 4 bytes. *)
Theorem C88_never_compacted : forall n : nat, exists a d rs s, lreach a /\ l_pending a = [] /\ l_executed a = repeat one_write (S n) /\ Z.of_nat n <= log_bytes (l_log a) /\
  run new_db (requests (l_executed a)) = Ret (d, rs) /\ db_rel d s /\ data_size s = 4.
Proof. exact log_unbounded. Qed.
Print Assumptions C88_never_compacted.
Example C88_record_ex : exists v b, log_of (h_stamp one_write) (h_req one_write) = Some v /\ pack_log v = Some b /\
  blen (Resp.encode (h_req one_write)) = 27 /\ blen b = 71 /\ record_bound one_write = 237.
Proof. eexists. eexists. split; [vm_compute; reflexivity|]. split; [vm_compute; reflexivity|]. vm_compute. auto. Qed.
