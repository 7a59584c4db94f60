(* C75, C76: how a server comes up, and whether it can be stopped. *)
From Coq Require Import ZArith List Arith Ascii String Bool.
From Verif Require Import Base HashC Lts Resp RespSpec Engine Db DataChannel Topic Conn Persist Recovery Node Start StartSpec StartProofs Server ServerSpec ServerProofs ServerRuns CrashProofs Props_Server.
Import ListNotations.
Local Open Scope Z_scope.
Local Open Scope string_scope.
Local Open Scope list_scope.

(* C75: a server that came up listens for clients where it was told to. *)
Theorem C75_listens : forall o1 o2 w c n, launch o1 o2 w c = Serving n -> n_port n = port c /\ can_listen w (port c).
Proof. exact listens. Qed.
Print Assumptions C75_listens.
(* If it cannot, the process ends. *)
Theorem C75_no_port : forall o1 o2 w c, w_log w (log_path c) = true -> ~ can_listen w (port c) -> launch o1 o2 w c = Exited 1.
Proof. exact no_port. Qed.
Print Assumptions C75_no_port.
(* It listens for replicas exactly if it was told to and can, and never on the clients' port. *)
Theorem C75_replicas : forall o1 o2 w c n p, init_server o1 o2 w c = Ret (Some n) ->
  (n_replica n = Some p <-> enable_replica c = true /\ wanted c p /\ can_listen w p) /\ (n_replica n = Some p -> p <> n_port n).
Proof. exact replica_iff. Qed.
Print Assumptions C75_replicas.
(* Its data file is the one it was told to use, if it can be opened. *)
Theorem C75_file : forall o1 o2 w c n f, init_server o1 o2 w c = Ret (Some n) -> (n_file n = Some f <-> database_file c <> [] /\ w_file w (database_file c) = Some f).
Proof. exact file_iff. Qed.
Print Assumptions C75_file.

Definition same : nat -> orders := fun _ _ l => l.
(* everything can be opened and bound but the ports of [taken]; no master answers *)
Definition there (taken : list Z) : world := mkWorld (fun _ => true) (fun p => negb (existsb (Z.eqb p) taken)) (fun _ => Some []) (fun _ => None).
Definition nobody : world := mkWorld (fun _ => true) (fun _ => true) (fun _ => None) (fun _ => None).
Example C75_ex : exists n, launch same same (there []) main_config = Serving n /\ n_port n = 6789 /\ n_replica n = Some 9999 /\ n_file n = Some [] /\
  launch same same (there [6789]) main_config = Exited 1 /\ ~ can_listen (there [6789]) (port main_config).
Proof. eexists. split; [vm_compute; reflexivity|]. do 3 (split; [reflexivity|]). split; [vm_compute; reflexivity|]. intros [_ H]. discriminate. Qed.
(* C75 is false: a server that cannot listen for replicas comes up all the same, ... *)
Theorem C75_silent_refuted : exists w n, enable_replica main_config = true /\ launch same same w main_config = Serving n /\ n_replica n = None.
Proof. exists (there [9999]). eexists. split; [reflexivity|]. split; [vm_compute; reflexivity|reflexivity]. Qed.
Print Assumptions C75_silent_refuted.
(* ... with the last port and no replication port always, ... *)
Definition last_port : config := mkConfig (bs "vertex.log") (bs "INFO") 65535 (bs "database.vpf") true 0 [].
Theorem C75_last_port_refuted : (exists n, launch same same (there []) last_port = Serving n) /\ forall o1 o2 w n, launch o1 o2 w last_port = Serving n -> n_replica n = None.
Proof.
  split; [eexists; vm_compute; reflexivity|]. intros o1 o2 w n H. apply launched in H. destruct (n_replica n) as [p|] eqn:E; [|reflexivity].
  apply (proj1 (replica_iff _ _ _ _ _ p H)) in E as (_ & [(A & _)|(_ & A)] & [B _]); cbn in *; exfalso; destruct B; subst; Lia.lia.
Qed.
Print Assumptions C75_last_port_refuted.
(* ... and the program does not look at its arguments or its configuration file: it listens on port
   6789. *)
Theorem C75_configured_port_refuted : exists args conf c w n, conf (bs "vertex.toml") = Some c /\ can_listen w (port c) /\ main args conf same same w = Serving n /\ n_port n <> port c.
Proof.
  exists [bs "vertex"], (fun _ => Some last_port), last_port, (there []). eexists. split; [reflexivity|]. split; [vm_compute; repeat split; discriminate|]. split; [vm_compute; reflexivity|discriminate].
Qed.
Print Assumptions C75_configured_port_refuted.
Theorem C75_always_6789 : forall args conf o1 o2 w n, main args conf o1 o2 w = Serving n -> n_port n = 6789.
Proof. intros args conf o1 o2 w n H. exact (proj1 (listens _ _ _ _ _ H)). Qed.
Print Assumptions C75_always_6789.

(* C76: which servers can be stopped. *)
Theorem C76_exact : forall o1 o2 w c n, init_server o1 o2 w c = Ret (Some n) ->
  (clean n = true <-> (exists p, enable_replica c = true /\ wanted c p /\ can_listen w p) /\ exists f, database_file c <> [] /\ w_file w (database_file c) = Some f).
Proof. exact clean_iff. Qed.
Print Assumptions C76_exact.
(* Such a server crashes only on bytes its reader cannot stand (C03), or on a request that was read
   and that the engine cannot stand after those executed before (C22). *)
Theorem C76_no_crash_partial : forall o1 o2 w c n input tr s, init_server o1 o2 w c = Ret (Some n) ->
  (exists p, enable_replica c = true /\ wanted c p /\ can_listen w p) -> (exists f, database_file c <> [] /\ w_file w (database_file c) = Some f) ->
  Server.runs (clean n) (n_dbs n 1) input tr s -> s_crash s = true ->
  (exists i b, objects (input i) (map snd (reads i tr)) b /\ parse b = PPanic) \/
  (exists i j k q e d, In (SRead i j k q) tr /\ in_turn (n_dbs n 1) (map hturn (handled tr)) d /\ handle e d q = Panic).
Proof.
  intros o1 o2 w c n input tr s H P F R C. assert (E : clean n = true) by now apply (clean_iff _ _ _ _ _ H). rewrite E in R.
  destruct (crash_cause _ _ _ _ _ R C) as [Z|[Z|[Z _]]]; [left; exact Z|right; exact Z|discriminate].
Qed.
Print Assumptions C76_no_crash_partial.
Example C76_ex : exists n, init_server same same (there []) main_config = Ret (Some n) /\ clean n = true /\ can_listen (there []) 9999 /\ wanted main_config 9999.
Proof. eexists. split; [vm_compute; reflexivity|]. split; [reflexivity|]. split; [vm_compute; repeat split; discriminate|]. left. vm_compute. repeat split; discriminate. Qed.
(* C76 is false of other servers: one without replication, and one whose data file cannot be opened,
   come up, and stopping them crashes them though no client ever came. *)
Section Quits.
Local Open Scope nat_scope.
Definition quits : list event :=
  [SReq (TPublish 0 QGone); SReq (TVisit 0 0 "engine" 0); SReq (TChan 0 (DataChannel.ECall 0 (OSend QGone))); SReq (TChan 0 (DataChannel.ERet 0 (OSend QGone) RExpired)); SReq (TResult 0 0);
   SRsp (TPublish 0 PGone); SRsp (TVisit 0 0 "server" 0); SRsp (TChan 0 (DataChannel.ECall 0 (OSend PGone))); SRsp (TChan 0 (EPut 0 PGone)); SRsp (TChan 0 (DataChannel.ERet 0 (OSend PGone) RSuccess)); SRsp (TResult 0 1);
   SCrash].
Lemma quitting d : exists s, Server.runs false d (fun _ => []) quits s /\ s_crash s = true.
Proof.
  eexists. split; [|shelve]. unfold Server.runs, quits. simp.
  srv stop_req with (eapply Topic.publish; simp; side). rqt (range _ 0). rq (visit _ 0 0 "engine" 0). rqsend 0. rqct (s_expired _ 0). rqsent 0. rqt (g_done _ 0). rqt (range_end _ 0). rqt (wait_over _ 0). rq (result_ _ 0).
  srv stop_rsp with (eapply Topic.publish; simp; side). rst (range _ 0). rs (visit _ 0 0 "server" 0). rssend 0. rsc (s_put _ 0). rssent 0. rst (g_add _ 0). rst (g_done _ 0). rst (range_end _ 0). rst (wait_over _ 0). rs (result_ _ 0).
  hush (apply mv; [side|eapply stop_shut; simp; side]). srv stop_panic. apply exec_start.
  Unshelve. reflexivity.
Qed.
End Quits.
Theorem C76_refuted :
  (exists n tr s, init_server same same (there []) new_config = Ret (Some n) /\ enable_replica new_config = false /\
     Server.runs (clean n) (n_dbs n 1) (fun _ => []) tr s /\ s_crash s = true /\ forall c, ~ In (SAccept c) tr) /\
  (exists n tr s, init_server same same nobody main_config = Ret (Some n) /\ n_replica n = Some 9999 /\
     Server.runs (clean n) (n_dbs n 1) (fun _ => []) tr s /\ s_crash s = true /\ forall c, ~ In (SAccept c) tr).
Proof.
  split.
  - destruct (init_server same same (there []) new_config) as [[n|]| |] eqn:E; try (vm_compute in E; discriminate E). destruct (quitting (n_dbs n 1)) as (s & R & C). exists n, quits, s.
    split; [reflexivity|]. split; [reflexivity|]. replace (clean n) with false; [split; [exact R|split; [exact C|cbn; intros c H; intuition discriminate]]|]. vm_compute in E. inversion E; subst. reflexivity.
  - destruct (init_server same same nobody main_config) as [[n|]| |] eqn:E; try (vm_compute in E; discriminate E). destruct (quitting (n_dbs n 1)) as (s & R & C). exists n, quits, s.
    split; [reflexivity|]. split; [vm_compute in E; inversion E; subst; reflexivity|]. replace (clean n) with false; [split; [exact R|split; [exact C|cbn; intros c H; intuition discriminate]]|]. vm_compute in E. inversion E; subst. reflexivity.
Qed.
Print Assumptions C76_refuted.

(* C22: whatever the requests, their order and the stop, the server crashes only for one of these
   reasons: the bytes of a client (C03), a request that was read, on the data the requests executed
   before it left (C22), or the stop of a server that came up without a master or a file (C76). *)
Theorem C22_crash_causes : forall cl d input tr s, Server.runs cl d input tr s -> s_crash s = true ->
  (exists c b, objects (input c) (map snd (reads c tr)) b /\ parse b = PPanic) \/
  (exists c i k q e d', In (SRead c i k q) tr /\ in_turn d (map hturn (handled tr)) d' /\ handle e d' q = Panic) \/
  (cl = false /\ exists p, In (SReq (TPublish p QGone)) tr).
Proof. exact crash_cause. Qed.
Print Assumptions C22_crash_causes.
Example C22_crash_ex : exists s, Server.runs false new_db (fun _ => []) quits s /\ s_crash s = true.
Proof. exact (quitting new_db). Qed.
