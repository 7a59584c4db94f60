(* C45: a request that was read can always still be answered, unless one of the known ways to
   lose it has happened. *)
From Coq Require Import List Arith Bool String ZArith.
From Verif Require Import Base Lts Resp Engine Db DataChannel Topic Conn Server ServerSpec ServerProofs ServerRuns ProgressProofs Props_Server.
Import ListNotations.
Local Open Scope nat_scope.
Local Open Scope string_scope.
Local Open Scope list_scope.

(* A send of [e] has been given up. *)
Definition given_up {A : Type} (tr : list (Topic.event A)) (t : Topic.state A) (e : A) : Prop :=
  exists i, In (TChan 0 (DataChannel.ERet i (OSend e) RExpired)) tr \/ d_pc (t_ch t 0) i = DataChannel.PRet (OSend e) RExpired.
(* The response worker writes to a connection whose watcher is gone (C65). *)
Definition blocked (s : state) : Prop :=
  exists c i k r b, s_wrk s = WIn c i k r /\ c_pc (s_conn s c) i = PResetW b /\ c_pc (s_conn s c) 0 <> Conn.PLoop.

(* From every state of every run in which the server has neither crashed nor been told to stop,
   the server can go on, without crash and stop, to a state in which the array request that was
   read has been answered; or to one in which the engine has a request that it cannot execute
   (C22).  [e0] is what the outside (map orders, random choices) does in that continuation. *)
Theorem C45_progress_partial : forall cl d input tr s c i k l e0, runs cl d input tr s -> s_crash s = false -> s_stop s = XNone -> ~ blocked s ->
  In (SRead c i k (RArr l)) tr -> ~ given_up (req_trace tr) (s_req s) (QRequest c k (RArr l)) -> (forall r, ~ given_up (rsp_trace tr) (s_rsp s) (PReply c k r)) ->
  exists tr' s', exec (step cl) s tr' s' /\ s_crash s' = false /\ s_stop s' = XNone /\
    ((exists i' r, In (SWrite c i' k r) (tr ++ tr')) \/
     exists c' k' q', s_eng s' = EHas c' k' q' /\ forall d' o, handle e0 (s_db s') q' <> Ret (d', o)).
Proof.
  intros cl d input tr s c i k l e0 R C X U H Nq Np.
  destruct (progress cl d input e0 tr s c i k l) as (tr' & s' & E & Z).
  - split; [exact R|]. split; assumption.
  - intros c' i' k' r' b' W P. destruct (c_pc (s_conn s c') 0) eqn:Q; try reflexivity; exfalso; apply U; exists c', i', k', r', b'; rewrite Q; (split; [exact W|]; split; [exact P|discriminate]).
  - exact H.
  - split; intros j Y; apply Nq; exists j; [left; apply in_req; now right|now right].
  - intros r. split; intros j Y; apply (Np r); exists j; [left; apply in_rsp; now right|now right].
  - assert (G : good cl d input tr s) by (split; [exact R|split; assumption]). destruct (good_exec _ _ _ _ _ _ _ G E) as (_ & C' & X').
    exists tr', s'. split; [eapply exec_plain; exact E|]. split; [exact C'|]. split; [exact X'|]. destruct Z as [Z|Z]; [now right|now left].
Qed.
Print Assumptions C45_progress_partial.
(* A request that was read while its publication has not even begun. *)
Definition just_read : list event := [SAccept 0; SConn 0 (Conn.ECall 1 ORead); SRead 0 1 0 q1].
Example C45_progress_ex : exists s, runs true new_db (one q1) just_read s /\ s_crash s = false /\ s_stop s = XNone /\ ~ blocked s /\
  (exists l, In (SRead 0 1 0 (RArr l)) just_read /\ ~ given_up (req_trace just_read) (s_req s) (QRequest 0 0 (RArr l))) /\ forall r, ~ given_up (rsp_trace just_read) (s_rsp s) (PReply 0 0 r).
Proof.
  eexists. split.
  { unfold runs, just_read. simp. srv accept. srv read_call with (eapply (Conn.call _ 1); side). cont 0 (reset_r _ 1). cont 0 (r_obj _ 1). say (eapply read_; [side|side|simp; eapply (ret_ _ 1); side|side]). apply exec_start. }
  split; [reflexivity|]. split; [reflexivity|]. split; [|split].
  - intros (c & i & k & r & b & W & _). discriminate W.
  - eexists. split; [right; right; left; reflexivity|]. intros (j & [Y|Y]); [cbn in Y; intuition discriminate|cbn in Y; discriminate Y].
  - intros r (j & [Y|Y]); [cbn in Y; intuition discriminate|cbn in Y; discriminate Y].
Qed.
