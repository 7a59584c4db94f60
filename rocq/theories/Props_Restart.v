(* C73, C74: processes that end anywhere and are started again. *)
From Coq Require Import List Arith Bool String ZArith Permutation Lia.
From Verif Require Import Base Lts Resp RespSpec HashC HashProofs Command RequestSpec CommandProofs EngineProofs IdealSpec Db DbProofs Engine Log LogSpec LogProofs Persist PersistSpec Recovery RecoverySpec RecoveryProofs NodeProofs OrderSpec OrderProofs
  DataChannel Topic Conn Server ServerSpec ServerRuns Props_Server Process ProcessProofs Props_Process RestartSpec RestartProofs Props_Recovery.
Import ListNotations.
Local Open Scope nat_scope.
Local Open Scope string_scope.
Local Open Scope list_scope.

(* C73: after any number of lives that ended anywhere, the contents come back as they are after a
   first part of what each life executed. *)
Theorem C73_lives : forall hs f ords, lives hs f ->
  Forall (Forall loggable) hs -> Forall (Forall (fun x => ~ trims (h_req x) /\ ~ pops (h_req x))) hs -> (requests_size (map h_req (List.concat hs)) < 2 ^ 62)%Z -> (forall i, orders_ok (ords i)) ->
  exists h d rs ds s, survives hs h /\ run new_db (requests h) = Ret (d, rs) /\ recover ords f = Ret ds /\ db_rel d s /\ db_rel (ds 1%Z) s.
Proof. exact lives_recovered. Qed.
Print Assumptions C73_lives.
(* What was written before a flush is in it, if no write failed. *)
Theorem C73_flushed : forall hs f ords0 ds cl input tr x h1 d1 rs1 ords, lives hs f -> whole f -> (forall i, orders_ok (ords0 i)) -> recover ords0 f = Ret ds ->
  pruns cl (ds 1%Z) input f tr x -> history tr h1 -> run (ds 1%Z) (requests h1) = Ret (d1, rs1) ->
  Forall (Forall loggable) (hs ++ [h1]) -> Forall (Forall (fun x => ~ trims (h_req x) /\ ~ pops (h_req x))) (hs ++ [h1]) ->
  (requests_size (map h_req (List.concat (hs ++ [h1]))) < 2 ^ 62)%Z -> (forall i, orders_ok (ords i)) ->
  exists h h' m d rs ds2 s, survives hs h /\ reordered free_entries (writes h1) h' /\ run new_db (requests (h ++ firstn m h')) = Ret (d, rs) /\
    recover ords (p_file (x_file x)) = Ret ds2 /\ db_rel d s /\ db_rel (ds2 1%Z) s /\
    forall y z, tr = y ++ XFlush :: z -> p_err (x_file x) = false -> exists l, records (firstn m h') = logged y ++ l.
Proof. exact lives_flushed. Qed.
Print Assumptions C73_flushed.
(* If all records were written and flushed, the contents come back as they were. *)
Theorem C73_complete : forall hs f ords0 ds cl input tr x h1 ords y z, lives hs f -> whole f -> (forall i, orders_ok (ords0 i)) -> recover ords0 f = Ret ds ->
  pruns cl (ds 1%Z) input f tr x -> history tr h1 -> requests h1 = executed tr ->
  Forall (Forall loggable) (hs ++ [h1]) -> Forall (Forall (fun x => ~ trims (h_req x) /\ ~ pops (h_req x))) (hs ++ [h1]) ->
  (requests_size (map h_req (List.concat (hs ++ [h1]))) < 2 ^ 62)%Z -> (forall i, orders_ok (ords i)) ->
  tr = y ++ XFlush :: z -> logged z = [] -> x_pend x = [] -> p_err (x_file x) = false ->
  whole (p_file (x_file x)) /\ exists ds2 s, recover ords (p_file (x_file x)) = Ret ds2 /\ db_rel (s_db (x_srv x)) s /\ db_rel (ds2 1%Z) s.
Proof. exact lives_complete. Qed.
Print Assumptions C73_complete.
(* Every run has a history. *)
Theorem C73_history : forall cl d input f tr x e, Process.runs cl d input f tr x -> exists h, history tr h /\
  (requests h = executed tr \/ exists q, requests h = executed tr ++ [(e, q)]) /\ (x_spawned x = false -> requests h = executed tr).
Proof. exact has_history. Qed.
Print Assumptions C73_history.

(* A run with at most one logged request is patient. *)
Lemma single_patient cl d input f tr x : Process.runs cl d input f tr x -> List.length (spawned tr) <= 1 -> pruns cl d input f tr x.
Proof.
  unfold Process.runs, pruns. induction 1 as [|tr s1 s2 H IH St|tr s1 a s2 H IH St]; intros L; [apply exec_start| |].
  - eapply exec_tau; [auto|]. split; [exact St|]. discriminate.
  - unfold spawned in L. rewrite flat_map_app, app_length in L. fold (spawned tr) in L. eapply exec_act; [apply IH; lia|]. split; [exact St|].
    intros c k q v E w t q' W. assert (a = XSpawn c k q v) as -> by congruence. cbn in L.
    destruct (records_kept _ _ _ _ _ _ H) as (dr & P & _). assert (In w (spawned tr)) as K by (apply (Permutation_in w (Permutation_sym P)); apply in_app_iff; right; apply in_app_iff; auto).
    destruct (spawned tr); [destruct K|cbn in L; lia].
Qed.
Definition set1 : entry := en 0 ["SET"; "a"; "1"].
Definition once_set : list Process.event := (map XSrv asked ++ [XSpawn 0 0 q0 rec0] ++ [XSrv (SHandle 0 0 plain q0 (Some OK))] ++ map XSrv told ++ [XLog rec0]) ++ XFlush :: [].
Lemma plain_set1 : Forall (fun x => ~ trims (h_req x) /\ ~ pops (h_req x)) [set1].
Proof.
  repeat constructor.
  - intros (k & a & b & o & name & w' & args & Hp & Ho & Hs & Hc). cbn in Hp. inversion Hp; subst. inversion Ho; subst. pose proof (call_new_command _ w' _ _ Hs Hc) as N. vm_compute in N. discriminate.
  - intros (k & n & cs & o & name & w' & args & Hp & Ho & Hs & Hc). cbn in Hp. inversion Hp; subst. inversion Ho; subst. pose proof (call_new_command _ w' _ _ Hs Hc) as N. vm_compute in N. discriminate.
Qed.
Lemma once_set_runs : exists x, Process.runs true new_db pipelined [] once_set x /\ p_file (x_file x) = pack rec0 /\ p_err (x_file x) = false /\ x_pend x = [] /\ x_spawned x = false.
Proof.
  eexists. split; [|split; [|split; [|split]]].
  - unfold Process.runs, start, once_set. rewrite <- !app_assoc. to_log. eapply (exec_act _ _ []); [apply exec_start|]. eapply (flushes _ _ _ _ _ _ []); [side|vm_compute; reflexivity].
    Unshelve. all: try discriminate. all: cbn; intuition discriminate.
  - vm_compute. reflexivity.
  - reflexivity.
  - reflexivity.
  - reflexivity.
Qed.
(* Two lives: one with a SET, flushed, and one without requests. *)
Example C73_ex : exists x, pruns true (no_dbs 1%Z) pipelined [] once_set x /\ lives [[set1]; []] (p_file (x_file x)) /\ whole (p_file (x_file x)) /\ history once_set [set1] /\ requests [set1] = executed once_set /\
  Forall loggable [set1] /\ Forall (fun x => ~ trims (h_req x) /\ ~ pops (h_req x)) [set1] /\ logged [] = [] /\ x_pend x = [] /\ p_err (x_file x) = false /\
  after_recovery (fun _ => turned) [rec0] (rq ["GET"; "a"]) = Some (Some (RBulk (bs "1"))).
Proof.
  destruct once_set_runs as (x & R & F & Er & Pd & _). exists x.
  assert (PR : pruns true (no_dbs 1%Z) pipelined [] once_set x) by (apply single_patient; [exact R|vm_compute; auto]).
  assert (W : whole (p_file (x_file x))).
  { exists [rec0], [pack rec0]. split; [packs|]. rewrite F. cbn [List.concat]. now rewrite app_nil_r. }
  assert (H : history once_set [set1]) by (split; [vm_compute; reflexivity|left; reflexivity]).
  assert (L1 : lives [[set1]] (p_file (x_file x))).
  { destruct (run new_db (requests [set1])) as [[d rs]| |] eqn:E; [|exfalso; vm_compute in E; discriminate E..].
    refine (lives_more [] [] (fun _ => as_is) no_dbs true pipelined once_set x [set1] d rs lives_none _ (fun _ => as_is_ok) eq_refl PR H E). exists [], []. split; [constructor|reflexivity]. }
  split; [exact PR|]. split; [|split; [exact W|split; [exact H|split; [reflexivity|split; [logs|split; [exact plain_set1|]]]]]].
  - destruct (C73_lives _ _ (fun _ => as_is) L1) as (h & d & rs & ds & s & _ & _ & RC & _).
    + constructor; [logs|constructor].
    + constructor; [exact plain_set1|constructor].
    + vm_compute. reflexivity.
    + intros. exact as_is_ok.
    + pose proof (lives_more [[set1]] (p_file (x_file x)) (fun _ => as_is) ds true (fun _ => []) [] (start (ds 1%Z) (fun _ => []) (p_file (x_file x))) [] (ds 1%Z) [] L1 W (fun _ => as_is_ok) RC) as K.
      apply K; [apply exec_start|split; [reflexivity|left; reflexivity]|reflexivity].
  - split; [reflexivity|]. split; [exact Pd|]. split; [exact Er|]. vm_compute. reflexivity.
Qed.

(* C74 is false: a client sends SET a 1, waits for the reply, and sends SET a 2.  The goroutines
   write the second record first.  All is written and flushed, and a is 2; started again, a is 1. *)
Definition q2 : robj := ask ["SET"; "a"; "2"].
Definition rec2 : vlog := new_log (bs "id") 1%Z (bs "host") (bs "SET") 1%Z (map (fun s => RBulk (bs s)) ["SET"; "a"; "2"]).
Definition twice : nat -> bytes := fun c => match c with 0 => encode q0 ++ encode q2 | _ => [] end.
Definition again : list Server.event :=
  [SRead 0 2 1 q2; SReq (TPublish 1 (QRequest 0 1 q2)); SReq (TChan 0 (DataChannel.ECall 3 ORecv)); SReq (TVisit 1 1 "engine" 0); SReq (TChan 0 (DataChannel.ECall 2 (OSend (QRequest 0 1 q2))));
   SReq (TChan 0 (EPass 2 3 (QRequest 0 1 q2))); SReq (TChan 0 (DataChannel.ERet 3 ORecv (REvent (QRequest 0 1 q2))))].
Definition crossed : list Process.event :=
  map XSrv asked ++ [XSpawn 0 0 q0 rec0] ++ [XSrv (SHandle 0 0 plain q0 (Some OK))] ++ map XSrv told ++ map XSrv again ++ [XSpawn 0 1 q2 rec2] ++ [XSrv (SHandle 0 1 plain q2 (Some OK))] ++
  [XLog rec2] ++ [XLog rec0] ++ [XFlush].
Definition reply_of (d : db) (q : robj) : option (option robj) := match handle plain d q with Ret (_, r) => Some r | _ => None end.
Theorem C74_crossed_refuted : exists x, Process.runs true new_db twice [] crossed x /\
  before crossed (XSrv (SConn 0 (Conn.EOut 3 (encode OK)))) (XSrv (SRead 0 2 1 q2)) /\
  x_spawned x = false /\ x_pend x = [] /\ p_err (x_file x) = false /\ reply_of (s_db (x_srv x)) q1 = Some (Some (RBulk (bs "2"))) /\
  exists ds, recover (fun _ => as_is) (p_file (x_file x)) = Ret ds /\ reply_of (ds 1%Z) q1 = Some (Some (RBulk (bs "1"))).
Proof.
  eexists. split; [|split; [|split; [|split; [|split; [|split]]]]].
  - unfold Process.runs, start, crossed.
    eapply exec_app;
    [eapply lift; [unfold asked; simp; srv accept;
       (srv read_call with (eapply (Conn.call _ 1); side)); cont 0 (reset_r _ 1); cont 0 (r_obj _ 1); (say (eapply read_; [side|side|simp; eapply (Conn.ret_ _ 1); side|side]));
       (srv publish with (eapply Topic.publish; simp; side)); (srv read_call with (eapply (Conn.call _ 2); side)); cont 0 (reset_r _ 2);
       (srv eng_call with recv_call); rqct (r_open _ 1); rqt (range _ 0); rq (visit _ 0 0 "engine" 0); rqsend 0; rqc (s_pass _ 0 1); (srv eng_got with recv_ret); apply exec_start|shelve|shelve]|].
    eapply exec_app; [eapply (exec_act _ _ []); [apply exec_start|]; eapply (spawn _ _ _ _ _ _ _ _ (mkStamp (bs "id") 0%Z (bs "host"))); side|].
    eapply exec_app; [eapply (exec_act _ _ []); [apply exec_start|]; apply (srv_handle _ _ (Some (SHandle 0 0 plain q0 (Some OK)))); [|exact I]; eapply handle_; side|].
    eapply exec_app;
    [eapply lift; [unfold told; simp; (srv eng_reply with (eapply Topic.publish; simp; side));
       (srv wrk_call with recv_call); rsct (r_open _ 1); rst (range _ 0); rs (visit _ 0 0 "server" 0); rssend 0; rsc (s_put _ 0); rsc (r_take _ 1); (srv wrk_got with recv_ret);
       (srv wrk_write with (eapply (Conn.call _ 3); side)); cont 0 (wr_chk _ 3); cont 0 (reset_w _ 3); con 0 (wr_all _ 3); (srv wrk_done with (eapply (Conn.ret_ _ 3); side)); apply exec_start|shelve|shelve]|].
    eapply exec_app;
    [eapply lift; [unfold again; simp; cont 0 (r_obj _ 2); (say (eapply read_; [side|side|simp; eapply (Conn.ret_ _ 2); side|side])); (srv publish with (eapply Topic.publish; simp; side));
       (srv eng_call with recv_call); rqct (r_open _ 3); rqt (range _ 1); rq (visit _ 1 1 "engine" 0); rqsend 1; rqc (s_pass _ 2 3); (srv eng_got with recv_ret); apply exec_start|shelve|shelve]|].
    eapply exec_app; [eapply (exec_act _ _ []); [apply exec_start|]; eapply (spawn _ _ _ _ _ _ _ _ (mkStamp (bs "id") 1%Z (bs "host"))); side|].
    eapply exec_app; [eapply (exec_act _ _ []); [apply exec_start|]; apply (srv_handle _ _ (Some (SHandle 0 1 plain q2 (Some OK)))); [|exact I]; eapply handle_; side|].
    eapply exec_app; [eapply (exec_act _ _ []); [apply exec_start|]; eapply (logs _ _ _ [rec0] rec2 [] _ _ _ []); [side|vm_compute; reflexivity|vm_compute; reflexivity]|].
    eapply exec_app; [eapply (exec_act _ _ []); [apply exec_start|]; eapply (logs _ _ _ [] rec0 [] _ _ _ []); [side|vm_compute; reflexivity|vm_compute; reflexivity]|].
    eapply (exec_act _ _ []); [apply exec_start|]. eapply (flushes _ _ _ _ _ _ []); [side|vm_compute; reflexivity].
    Unshelve. all: try discriminate. all: cbn; intuition discriminate.
  - exists (firstn 20 crossed), (firstn 1 (skipn 21 crossed)), (skipn 23 crossed). vm_compute. reflexivity.
  - reflexivity.
  - reflexivity.
  - reflexivity.
  - vm_compute. reflexivity.
  - match goal with |- exists ds, ?r = Ret ds /\ _ => destruct r as [ds| |] eqn:E; [|exfalso; vm_compute in E; discriminate E..] end.
    exists ds. split; [reflexivity|].
    match type of E with ?r = _ => assert (K : match r with Ret ds => reply_of (ds 1%Z) q1 | _ => None end = Some (Some (RBulk (bs "1")))) by (vm_compute; reflexivity) end.
    rewrite E in K. exact K.
Qed.
Print Assumptions C74_crossed_refuted.
(* What holds: no log goroutine is started while one for a request that clashes is still running. *)
Theorem C74_patient_partial : forall cl input tr x h ords y z, pruns cl new_db input [] tr x -> history tr h -> requests h = executed tr ->
  Forall loggable h -> Forall (fun x => ~ trims (h_req x) /\ ~ pops (h_req x)) h -> (requests_size (map h_req h) < 2 ^ 62)%Z -> (forall i, orders_ok (ords i)) ->
  tr = y ++ XFlush :: z -> logged z = [] -> x_pend x = [] -> p_err (x_file x) = false ->
  exists ds s, recover ords (p_file (x_file x)) = Ret ds /\ db_rel (s_db (x_srv x)) s /\ db_rel (ds 1%Z) s.
Proof.
  intros cl input tr x h ords y z PR Hh He Hl Hk Hs HO Et Lz Pd Er.
  refine (proj2 (lives_complete [] [] ords no_dbs cl input tr x h ords y z lives_none _ HO eq_refl PR Hh He _ _ _ HO Et Lz Pd Er)).
  - exists [], []. split; [constructor|reflexivity].
  - constructor; [exact Hl|constructor].
  - constructor; [exact Hk|constructor].
  - cbn [app List.concat]. now rewrite app_nil_r.
Qed.
Print Assumptions C74_patient_partial.
Example C74_ex : exists x, pruns true new_db pipelined [] once_set x /\ history once_set [set1] /\ requests [set1] = executed once_set /\ logged [] = [] /\ x_pend x = [] /\ p_err (x_file x) = false.
Proof.
  destruct once_set_runs as (x & R & F & Er & Pd & _). exists x. split; [apply single_patient; [exact R|vm_compute; auto]|].
  split; [split; [vm_compute; reflexivity|left; reflexivity]|]. auto.
Qed.
