(* C84, C85: the server does a bounded amount of work, and when it has no more to do it has answered. *)
From Coq Require Import List Arith Bool String ZArith Lia.
From Verif Require Import Base Lts Resp RequestSpec Engine EngineProofs Db DataChannel Topic Conn Server ServerSpec ServerProofs ServerRuns ProgressProofs Props_Server Props_Progress BoundSpec BoundProofs RestSpec RestProofs FuelProofs.
From Verif Require ProcessProofs.
Import ListNotations.
Local Open Scope nat_scope.
Local Open Scope string_scope.
Local Open Scope list_scope.

(* C84: in every run, however it is scheduled and whether or not a stop is called, the server
   takes at most 17 steps for each connection it accepts, 52 for each object it reads, and 75
   besides: goroutines, timers, channels and the stop included. *)
Theorem C84_bounded : forall cl d input n tr s, steps (step cl) (init d input) n tr s -> n <= 75 + 17 * List.length (accepted tr) + 52 * read_count tr.
Proof. exact steps_bound. Qed.
Print Assumptions C84_bounded.
(* Hence what the peers send bounds the work; no connection is accepted twice. *)
Theorem C84_input : forall cl d input n tr s, steps (step cl) (init d input) n tr s ->
  NoDup (accepted tr) /\ n <= 75 + list_sum (map (fun c => 17 + 52 * List.length (input c)) (accepted tr)).
Proof. exact input_bound. Qed.
Print Assumptions C84_input.
(* Every run has such a count. *)
Theorem C84_counts : forall cl d input tr s, runs cl d input tr s -> exists n, steps (step cl) (init d input) n tr s.
Proof. exact runs_steps. Qed.
Print Assumptions C84_counts.

(* C85: a run can go on by the server's own steps for so many steps only, ... *)
Theorem C85_comes_to_rest : forall cl d input tr s n tr' s', runs cl d input tr s -> steps (own cl) s n tr' s' ->
  n <= 75 + list_sum (map (fun c => 17 + 52 * List.length (input c)) (accepted tr)).
Proof. exact own_bound. Qed.
Print Assumptions C85_comes_to_rest.
(* ... and when none is left, ... *)
Definition turns (tr : list event) : list (env * robj) := map fst (map hturn (handled tr)).
(* a send of the request or of a reply to it has been given up *)
Definition dropped (tr : list event) (c k : nat) (q : robj) : Prop :=
  exists j, In (SReq (TChan 0 (DataChannel.ERet j (OSend (QRequest c k q)) RExpired))) tr \/ exists r, In (SRsp (TChan 0 (DataChannel.ERet j (OSend (PReply c k r)) RExpired))) tr.
Lemma plain_env : env_ok plain.
Proof. intros m l. apply Permutation.Permutation_refl. Qed.
Theorem C85_rest : forall cl h d rs input tr s c i k l, run new_db h = Ret (d, rs) -> runs cl d input tr s -> rests cl s ->
  s_crash s = false -> s_stop s = XNone -> ~ blocked s ->
  Forall (fun x => env_ok (fst x)) (h ++ turns tr) -> (forall c i k q, In (SRead c i k q) tr -> requests_size (map snd (h ++ turns tr) ++ [q]) < 2 ^ 62)%Z ->
  In (SRead c i k (RArr l)) tr -> ~ dropped tr c k (RArr l) -> exists i' r, In (SWrite c i' k r) tr.
Proof.
  intros cl h d rs input tr s c i k l Hd R Z C X B F S H N.
  destruct (rested cl d input plain tr s c i k l R Z C X) as [Y|(c' & k' & q' & E & Y)]; [|exact H| | |exact Y|].
  - intros c' i' k' r' b' W P. destruct (c_pc (s_conn s c') 0) eqn:Q; try reflexivity; exfalso; apply B; exists c', i', k', r', b'; rewrite Q; (split; [exact W|]; split; [exact P|discriminate]).
  - intros j Y. apply N. exists j. left. exact Y.
  - intros j r Y. apply N. exists j. right. exists r. exact Y.
  - exfalso. destruct (ProcessProofs.has_read _ _ _ _ _ _ _ _ R E) as [i1 H1]. revert Y. apply (never_fuel h d rs _ _ plain q' Hd (runs_turn _ _ _ _ _ R)).
    + fold (turns tr). rewrite app_assoc. apply Forall_app. split; [exact F|]. constructor; [exact plain_env|constructor].
    + fold (turns tr). rewrite app_assoc, map_app. exact (S _ _ _ _ H1).
Qed.
Print Assumptions C85_rest.

(* A server that has answered one request and waits for the next. *)
Definition message : request := QRequest 0 0 q1.
Definition answer : response := PReply 0 0 RNullBulk.
Definition answered : list event := [
  SAccept 0; SConn 0 (Conn.ECall 1 ORead); SRead 0 1 0 q1; SReq (TPublish 0 message); SConn 0 (Conn.ECall 2 ORead);
  SReq (TChan 0 (DataChannel.ECall 1 ORecv)); SReq (TVisit 0 0 "engine" 0); SReq (TChan 0 (DataChannel.ECall 0 (OSend message))); SReq (TChan 0 (EPass 0 1 message));
  SReq (TChan 0 (DataChannel.ERet 1 ORecv (REvent message))); SReq (TChan 0 (DataChannel.ERet 0 (OSend message) RSuccess)); SReq (TResult 0 1);
  SHandle 0 0 plain q1 (Some RNullBulk); SRsp (TPublish 0 answer); SReq (TChan 0 (DataChannel.ECall 3 ORecv));
  SRsp (TChan 0 (DataChannel.ECall 1 ORecv)); SRsp (TVisit 0 0 "server" 0); SRsp (TChan 0 (DataChannel.ECall 0 (OSend answer))); SRsp (TChan 0 (EPut 0 answer));
  SRsp (TChan 0 (ETake 1 answer)); SRsp (TChan 0 (DataChannel.ERet 1 ORecv (REvent answer))); SRsp (TChan 0 (DataChannel.ERet 0 (OSend answer) RSuccess)); SRsp (TResult 0 1);
  SWrite 0 3 0 RNullBulk; SConn 0 (EOut 3 (encode RNullBulk)); SConn 0 (Conn.ERet 3 (OWrite (encode RNullBulk)) ROk); SRsp (TChan 0 (DataChannel.ECall 3 ORecv))].
Example C85_ex : exists s, runs true new_db (one q1) answered s /\ rests true s /\ s_crash s = false /\ s_stop s = XNone /\ ~ blocked s /\
  Forall (fun x => env_ok (fst x)) ([] ++ turns answered) /\ (forall c i k q, In (SRead c i k q) answered -> requests_size (map snd ([] ++ turns answered) ++ [q]) < 2 ^ 62)%Z /\
  (exists l, In (SRead 0 1 0 (RArr l)) answered /\ ~ dropped answered 0 0 (RArr l)).
Proof.
  eexists. split.
  { unfold runs, answered, message, answer. simp. srv accept.
    srv read_call with (eapply (Conn.call _ 1); side). cont 0 (reset_r _ 1). cont 0 (r_obj _ 1). say (eapply read_; [side|side|simp; eapply (ret_ _ 1); side|side]).
    srv publish with (eapply Topic.publish; simp; side).
    srv read_call with (eapply (Conn.call _ 2); side). cont 0 (reset_r _ 2).
    srv eng_call with recv_call. rqct (r_open _ 1). rqt (range _ 0). rq (visit _ 0 0 "engine" 0). rqsend 0. rqc (s_pass _ 0 1). srv eng_got with recv_ret.
    rqsent 0. rqt (g_add _ 0). rqt (g_done _ 0). rqt (range_end _ 0). rqt (wait_over _ 0). rq (result_ _ 0). rqt (close_ch _ 0). rqt (spawn _ 0).
    say (eapply handle_; [side|side|side]). srv eng_reply with (eapply Topic.publish; simp; side). srv eng_call with recv_call. rqct (r_open _ 3).
    srv wrk_call with recv_call. rsct (r_open _ 1). rst (range _ 0). rs (visit _ 0 0 "server" 0). rssend 0. rsc (s_put _ 0). rsc (r_take _ 1). srv wrk_got with recv_ret.
    rssent 0. rst (g_add _ 0). rst (g_done _ 0). rst (range_end _ 0). rst (wait_over _ 0). rs (result_ _ 0). rst (close_ch _ 0). rst (spawn _ 0).
    srv wrk_write with (eapply (Conn.call _ 3); side). cont 0 (wr_chk _ 3). cont 0 (reset_w _ 3). con 0 (wr_all _ 3). srv wrk_done with (eapply (ret_ _ 3); side).
    srv wrk_call with recv_call. rsct (r_open _ 3).
    apply exec_start. }
  split; [|split; [reflexivity|split; [reflexivity|split; [|split; [|split]]]]].
  - apply quiet_rests; simp.
    + reflexivity.
    + split; [reflexivity|]. split; [reflexivity|]. split; [intros [|p]; cbn; auto|]. split; [intros [|g]; cbn; eauto|]. intros [|[|[|[|i]]]]; cbn; auto.
    + split; [reflexivity|]. split; [reflexivity|]. split; [intros [|p]; cbn; auto|]. split; [intros [|g]; cbn; eauto|]. intros [|[|[|[|i]]]]; cbn; auto.
    + intros [|c]; (split; [reflexivity|]); [intros [|[|[|[|i]]]]; cbn; auto|intros [|i]; cbn; auto].
    + eauto.
    + eauto.
    + intros [|c]; cbn; eauto.
  - intros (c & i & k & r & b & W & _). discriminate W.
  - repeat constructor. exact plain_env.
  - intros c i k q H. cbn in H. repeat destruct H as [H|H]; try discriminate; inversion H; subst; vm_compute; reflexivity.
  - eexists. split; [right; right; left; reflexivity|]. intros (j & [H|(r & H)]); cbn in H; repeat destruct H as [H|H]; try discriminate; contradiction.
Qed.
(* The same run for C84: one connection and one object. *)
Example C84_ex : exists n s, steps (step true) (init new_db (one q1)) n answered s /\ accepted answered = [0] /\ read_count answered = 1 /\ 27 <= n.
Proof.
  destruct C85_ex as (s & R & _). destruct (C84_counts _ _ _ _ _ R) as [n H]. exists n, s. split; [exact H|]. split; [reflexivity|]. split; [reflexivity|].
  apply steps_length in H. exact H.
Qed.
