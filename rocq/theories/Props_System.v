(* C80-C83: the whole program: clients, engine, log, replicas and signals. *)
From Coq Require Import List Arith Bool String ZArith Permutation Lia.
From Verif Require Import ProcessProofs.
From Verif Require Import Base Lts Resp RespSpec HashC HashProofs Command RequestSpec IdealSpec Db DbProofs Engine Log LogSpec LogProofs Persist PersistSpec Replication Recovery RecoverySpec NodeProofs Node OrderSpec
  DataChannel Topic Conn Server ServerSpec ServerProofs StopProofs ProgressProofs Process RestartSpec Signals Master System SystemSpec Props_Server Props_Stop Props_Process Props_Progress Props_Recovery.
From Verif Require SignalProofs SystemProofs SyncProofs Props_Restart.
Import ListNotations.
Local Open Scope nat_scope.
Local Open Scope string_scope.
Local Open Scope list_scope.

(* The parts of the program behave as they do alone, on the same file. *)
Theorem C80_parts : forall d input f tr y, System.runs d input f tr y -> Signals.runs true d input f (hosts tr) (y_host y) /\ Master.runs (masters f tr) (y_mast y) /\ m_file (y_mast y) = Some (y_file y).
Proof. exact SystemProofs.system_parts. Qed.
Print Assumptions C80_parts.
(* C80: how the program can end: after a signal, killed while it writes, by the bytes of C03, by a
   request of C22, and, only after a signal, by a replica that comes or goes while the stop looks
   for replicas. *)
Theorem C80_ends : forall d input f tr y, System.runs d input f tr y -> ~ live y ->
  (In (YHost (HProc XExit)) tr /\ In (YHost HSignal) tr) \/ p_dead (y_file y) = true \/
  (exists c b, objects (input c) (map snd (reads c (served (of_proc (hosts tr))))) b /\ parse b = PPanic) \/
  (exists c i k q e d', In (SRead c i k q) (served (of_proc (hosts tr))) /\ in_turn d (map hturn (handled (served (of_proc (hosts tr))))) d' /\ handle e d' q = Panic) \/
  (exists x h, tr = x ++ [YMaster MCrash] /\ In (YHost HSignal) x /\ In (YMaster MStop) x /\ ~ In (YMaster MStopped) x /\
     (In (YMaster (MPut h)) x /\ ~ In (YMaster (MPutDone h)) x \/ In (YMaster (MDel h)) x /\ ~ In (YMaster (MDelDone h)) x)).
Proof. exact SystemProofs.ends. Qed.
Print Assumptions C80_ends.
Theorem C80_unsignalled : forall d input f tr y, System.runs d input f tr y -> ~ live y -> ~ In (YHost HSignal) tr ->
  p_dead (y_file y) = true \/
  (exists c b, objects (input c) (map snd (reads c (served (of_proc (hosts tr))))) b /\ parse b = PPanic) \/
  (exists c i k q e d', In (SRead c i k q) (served (of_proc (hosts tr))) /\ in_turn d (map hturn (handled (served (of_proc (hosts tr))))) d' /\ handle e d' q = Panic).
Proof.
  intros d input f tr y R L N. destruct (C80_ends d input f tr y R L) as [[_ X]|[X|[X|[X|(x & h & -> & X & _)]]]]; [contradiction|auto|auto|auto|]. exfalso. apply N, in_app_iff. auto.
Qed.
Print Assumptions C80_unsignalled.

(* A client's SET is executed, acknowledged and logged; a replica has connected. *)
Definition a_set : list Process.event := map XSrv asked ++ [XSpawn 0 0 q0 rec0] ++ [XSrv (SHandle 0 0 plain q0 (Some OK))] ++ map XSrv told ++ [XLog rec0].
Lemma a_set_runs : exists x, exec (Process.step true) (Process.start new_db pipelined []) a_set x /\ x_file x = mkPfile [] (pack rec0) false false /\ x_pend x = [] /\ x_gone x = false /\
  s_crash (x_srv x) = false /\ s_stop (x_srv x) = XNone /\ s_wrk (x_srv x) = WIdle.
Proof.
  eexists. split.
  - unfold Process.start, a_set. rewrite <- (app_nil_r [XLog rec0]). to_log. apply exec_start.
    Unshelve. all: try discriminate. all: cbn; intuition discriminate.
  - vm_compute. auto 10.
Qed.
Definition connected (tr : list System.event) (y : system) : Prop :=
  System.runs new_db pipelined [] tr y /\ hosts tr = map HProc a_set /\ live y /\ h_sig (y_host y) = HWaits /\ s_stop (y_srv y) = XNone /\ ~ blocked (y_srv y) /\
  m_h (y_mast y) 0 = HAsk /\ m_open (y_mast y) 0 = true /\ p_err (y_file y) = false /\ p_file (y_file y) = [] /\ x_pend (h_proc (y_host y)) = [].
Lemma connects : exists tr y, connected tr y.
Proof.
  destruct a_set_runs as (x & E & F & Pd & G & C & X & W).
  assert (Q : SignalProofs.quiet a_set) by (intros q Hq; cbn in Hq; intuition discriminate).
  pose proof (SignalProofs.host_quiet true _ _ _ HWaits E Q) as H.
  assert (N : ~ In (HProc XFlush) (map HProc a_set)) by (cbn; intuition discriminate).
  assert (R0 : Signals.runs true new_db pipelined [] [] (mkH (Process.start new_db pipelined []) HWaits)) by (apply Lts.exec_one_tau, Signals.waits).
  set (m0 := set_file new (open_file [])).
  destruct (SystemProofs.lift_host _ _ _ _ _ _ _ R0 H N G C m0 eq_refl) as (tr & Es & Hs). cbn [h_proc] in Es.
  set (m1 := set_file m0 (x_file x)) in Es.
  set (m2 := mkM true true (m_shut m1) (m_conn m1) (m_busy m1) (m_h m1) (m_open m1) (m_file m1) (m_stop m1) (m_crash m1)).
  assert (C1 : m_crash m1 = false) by (cbn; now rewrite F).
  assert (Em : exec SystemProofs.quietly m1 [MStart; MAccept 0] (set_open (set_h m2 0 HAsk) 0 true)).
  { eapply exec_cons; [split; [split; [exact C1|apply start_; reflexivity]|split; [reflexivity|left; exact I]]|].
    apply Lts.exec_one. split; [split; [exact C1|eapply accept; reflexivity]|split; [reflexivity|left; exact I]]. }
  assert (Nm : ~ In MStop [MStart; MAccept 0]) by (cbn; intuition discriminate).
  pose proof (SystemProofs.lift_master (mkH x HWaits) m1 _ _ G C (fun Z => False_ind _ (Nm Z)) Em) as Es2.
  exists (tr ++ map YMaster [MStart; MAccept 0]), (mkY (mkH x HWaits) (set_open (set_h m2 0 HAsk) 0 true)). split; [|split; [|split; [split; [exact G|split; [exact C|exact C1]]|]]].
  - eapply exec_cons_tau; [|eapply exec_app; [exact Es|exact Es2]]. split; [split; [reflexivity|split; reflexivity]|]. exact (alone _ None _ m0 (Signals.waits true _) I).
  - rewrite SystemProofs.hosts_app, SystemProofs.hosts_masters, app_nil_r. exact Hs.
  - unfold y_file, y_srv. cbn [y_host h_proc h_sig y_mast]. rewrite F. split; [reflexivity|]. split; [exact X|]. split; [|auto 10].
    intros (c & i & k & r & b & W' & _). congruence.
Qed.
Lemma not_blocked s : ~ blocked s -> unblocked s.
Proof. intros B c i k r b W P. destruct (c_pc (s_conn s c) 0) eqn:Z; try reflexivity; exfalso; apply B; exists c, i, k, r, b; (split; [exact W|split; [exact P|congruence]]). Qed.

(* C82: a signal the handler waits for: the program can end, with all records in the file, whatever
   the replicas do; *)
Theorem C82_ends_partial : forall d input f tr y, System.runs d input f tr y -> live y -> h_sig (y_host y) = HWaits -> s_stop (y_srv y) = XNone -> ~ blocked (y_srv y) ->
  exists tr' y', exec System.step y tr' y' /\ In (YHost HSignal) tr' /\ In (YHost (HProc XExit)) tr' /\ x_gone (h_proc (y_host y')) = true /\ x_pend (h_proc (y_host y')) = [] /\
    (p_err (y_file y) = false -> p_err (y_file y') = false /\ p_file (y_file y') = f ++ List.concat (map pack (logged (of_proc (hosts (tr ++ tr')))))).
Proof. intros d input f tr y R L W X B. exact (SystemProofs.system_ends d input f tr y R L W X (not_blocked _ B)). Qed.
Print Assumptions C82_ends_partial.
Example C82_ex : exists tr y, connected tr y.
Proof. exact connects. Qed.
(* the stop flushes the log only after a signal and when the master has stopped; *)
Theorem C82_flush_last : forall d input f u v y, System.runs d input f (u ++ YHost (HProc XFlush) :: v) y -> In (YMaster MStopped) u /\ In (YHost HSignal) u.
Proof. exact SystemProofs.flush_last. Qed.
Print Assumptions C82_flush_last.
(* but also, whenever a replica has just connected, it can crash, with no more in the file than before; *)
Theorem C82_race_refuted : forall d input f tr y h, System.runs d input f tr y -> live y -> h_sig (y_host y) = HWaits -> s_stop (y_srv y) = XNone -> ~ blocked (y_srv y) -> m_h (y_mast y) h = HAsk ->
  exists tr' y', exec System.step y (tr' ++ [YMaster MCrash]) y' /\ In (YHost HSignal) tr' /\ In (YMaster (MPut h)) tr' /\ m_crash (y_mast y') = true /\ y_file y' = y_file y.
Proof. intros d input f tr y h R L W X B A. exact (SystemProofs.system_races d input f tr y h R L W X (not_blocked _ B) A). Qed.
Print Assumptions C82_race_refuted.
(* so a write that was acknowledged and logged is lost, though nothing failed. *)
Theorem C82_lost_refuted : exists tr y, System.runs new_db pipelined [] (tr ++ [YMaster MCrash]) y /\ In (HProc (XSrv (SConn 0 (Conn.EOut 3 (encode OK))))) (hosts tr) /\ In (YHost HSignal) tr /\
  In rec0 (logged (of_proc (hosts tr))) /\ p_err (y_file y) = false /\ p_dead (y_file y) = false /\ p_file (y_file y) = [] /\ recover (fun _ => as_is) (p_file (y_file y)) = Ret no_dbs.
Proof.
  destruct connects as (tr & y & R & Hs & L & W & X & B & A & _ & Er & Fi & _). destruct (C82_race_refuted _ _ _ _ _ 0 R L W X B A) as (tr' & y' & E & Sg & _ & C & F).
  pose proof (exec_app _ _ _ _ _ _ R E) as R'. exists (tr ++ tr'), y'. rewrite <- app_assoc. split; [exact R'|].
  assert (Ht : forall a, In a (map HProc a_set) -> In a (hosts (tr ++ tr'))) by (intros a Ha; rewrite SystemProofs.hosts_app, Hs; apply in_app_iff; auto).
  split; [apply Ht; cbn; auto 60|]. split; [apply in_app_iff; auto|].
  rewrite F. split.
  - rewrite SystemProofs.hosts_app, Hs, SignalProofs.of_app. unfold logged. rewrite flat_map_app. apply in_app_iff. left. cbn. auto.
  - split; [exact Er|]. rewrite Fi. split; [|auto]. destruct L as (G & _). exact (SystemProofs.not_dead _ _ _ _ _ _ (proj1 (SystemProofs.system_parts _ _ _ _ _ R)) G).
Qed.
Print Assumptions C82_lost_refuted.

(* C83: a replica that has connected to a server can be sent everything logged by then. *)
Theorem C83_served : forall d input f tr y h, System.runs d input f tr y -> live y -> m_h (y_mast y) h = HAsk -> m_open (y_mast y) h = true -> p_err (y_file y) = false ->
  exists tr' y', exec System.step y tr' y' /\ live y' /\ In (YMaster (MDelDone h)) tr' /\ hosts tr' = [HProc XFlush] /\
    Master.sent h (masters f (tr ++ tr')) = replica_stream (f ++ List.concat (map pack (logged (of_proc (hosts tr))))).
Proof. exact SystemProofs.can_serve. Qed.
Print Assumptions C83_served.
Example C83_ex : exists tr y, connected tr y /\ exists tr' y', exec System.step y tr' y' /\ receive (Master.sent 0 (masters [] (tr ++ tr'))) = Some [rec0].
Proof.
  destruct connects as (tr & y & K). exists tr, y. split; [exact K|]. destruct K as (R & Hs & L & W & X & B & A & O & Er & _).
  destruct (C83_served _ _ _ _ _ 0 R L A O Er) as (tr' & y' & E & _ & _ & _ & S). exists tr', y'. split; [exact E|]. rewrite S, Hs. vm_compute. reflexivity.
Qed.

(* C81: a replica that can read what it was sent by a server at work has the contents after a first
   part of what the server has executed, requests that do not clash perhaps having changed places;
   everything logged when the server flushed for it is part of it, and if that was all, it has the
   server's contents. *)
Theorem C81_replica_partial : forall hs f ords0 ds input tr y h1 d1 rs1 o1 o2 h p l, lives hs f -> whole f -> (forall i, orders_ok (ords0 i)) -> recover ords0 f = Ret ds ->
  careful_runs (ds 1%Z) input f tr y -> history (of_proc (hosts tr)) h1 -> run (ds 1%Z) (requests h1) = Ret (d1, rs1) ->
  Forall (Forall loggable) (hs ++ [h1]) -> Forall (Forall (fun x => ~ trims (h_req x) /\ ~ pops (h_req x))) (hs ++ [h1]) -> (requests_size (map h_req (List.concat (hs ++ [h1]))) < 2 ^ 62)%Z -> (forall i, orders_ok (o2 i)) ->
  (blen (f ++ List.concat (map pack (logged (of_proc (hosts tr))))) < 2 ^ 32)%Z ->
  begins p (Master.sent h (masters f tr)) -> receive p = Some l ->
  exists h0 h' m d rs ds2 s u v, survives hs h0 /\ reordered free_entries (writes h1) h' /\ run new_db (requests (h0 ++ firstn m h')) = Ret (d, rs) /\
    sync_external o1 o2 (Opened []) (Some p) = Ret ds2 /\ db_rel d s /\ db_rel (ds2 1%Z) s /\
    tr = u ++ YBoth (HProc XFlush) (MFlush h) :: v /\ (exists l', records (firstn m h') = logged (of_proc (hosts u)) ++ l') /\
    (x_pend (h_proc (y_host y)) = [] -> logged (of_proc (hosts v)) = [] -> db_rel d1 s).
Proof. exact SyncProofs.replica_has. Qed.
Print Assumptions C81_replica_partial.
(* A run with at most one logged request is careful. *)
Lemma single_careful d input f tr y : System.runs d input f tr y -> List.length (spawned (of_proc (hosts tr))) <= 1 -> careful_runs d input f tr y.
Proof.
  unfold System.runs, careful_runs. induction 1 as [|tr s1 s2 H IH St|tr s1 a s2 H IH St]; intros L; [apply exec_start| |].
  - eapply exec_tau; [auto|]. split; [exact St|]. discriminate.
  - rewrite SystemProofs.hosts_app, SignalProofs.of_app in L. unfold spawned in L. rewrite flat_map_app, app_length in L. fold (spawned (of_proc (hosts tr))) in L. eapply exec_act; [apply IH; lia|]. split; [exact St|].
    intros c k q v E w t q' W. assert (a = YHost (HProc (XSpawn c k q v))) as -> by congruence. cbn in L.
    destruct (records_kept _ _ _ _ _ _ (SystemProofs.proc_part _ _ _ _ _ H)) as (dr & P & _).
    assert (In w (spawned (of_proc (hosts tr)))) as K by (apply (Permutation_in w (Permutation_sym P)); apply in_app_iff; right; apply in_app_iff; auto).
    destruct (spawned (of_proc (hosts tr))); [destruct K|cbn in L; lia].
Qed.
Example C81_ex : exists tr y, careful_runs new_db pipelined [] tr y /\ history (of_proc (hosts tr)) [Props_Restart.set1] /\ Forall loggable [Props_Restart.set1] /\ Forall (fun x => ~ trims (h_req x) /\ ~ pops (h_req x)) [Props_Restart.set1] /\
  lives [] [] /\ whole [] /\ recover (fun _ => as_is) [] = Ret no_dbs /\ receive (Master.sent 0 (masters [] tr)) = Some [rec0] /\ List.concat (map pack (logged (of_proc (hosts tr)))) = pack rec0.
Proof.
  destruct connects as (tr & y & R & Hs & L & W & X & B & A & O & Er & _). destruct (C83_served _ _ _ _ _ 0 R L A O Er) as (tr' & y' & E & _ & _ & Hh & S). exists (tr ++ tr'), y'.
  pose proof (exec_app _ _ _ _ _ _ R E) as R'. assert (T : of_proc (hosts (tr ++ tr')) = a_set ++ [XFlush]) by (rewrite SystemProofs.hosts_app, Hs, Hh; reflexivity).
  split; [apply single_careful; [exact R'|rewrite T; vm_compute; auto]|]. rewrite T. split; [split; [vm_compute; reflexivity|left; reflexivity]|]. split; [logs|]. split; [exact Props_Restart.plain_set1|].
  split; [constructor|]. split; [exists [], []; split; [constructor|reflexivity]|]. split; [reflexivity|]. split; [rewrite S, Hs; vm_compute; reflexivity|]. vm_compute. reflexivity.
Qed.
(* A server that crashed in this way, for C80. *)
Example C80_ex : exists tr y, System.runs new_db pipelined [] tr y /\ ~ live y.
Proof.
  destruct connects as (tr & y & R & Hs & L & W & X & B & A & _). destruct (C82_race_refuted _ _ _ _ _ 0 R L W X B A) as (tr' & y' & E & Sg & _ & C & F).
  exists (tr ++ tr' ++ [YMaster MCrash]), y'. split; [exact (exec_app _ _ _ _ _ _ R E)|]. intros (_ & _ & Z). congruence.
Qed.
