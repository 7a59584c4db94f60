(* C77: termination signals. *)
From Coq Require Import List Arith Bool String ZArith.
From Verif Require Import ProcessProofs.
From Verif Require Import Base Lts Resp Engine Db Log LogSpec Persist Recovery DataChannel Topic Conn Server ServerSpec ServerProofs ServerRuns StopProofs ProgressProofs Process Signals SignalProofs Props_Server Props_Stop Props_Progress.
Import ListNotations.
Local Open Scope nat_scope.
Local Open Scope string_scope.
Local Open Scope list_scope.

(* What the process does under signals is what it does (Process.v). *)
Theorem C77_process : forall cl d input f tr x, Signals.runs cl d input f tr x -> Process.runs cl d input f (of_proc tr) (h_proc x).
Proof. exact proc_runs. Qed.
Print Assumptions C77_process.
(* Without a signal it neither stops nor ends. *)
Theorem C77_only_signals : forall cl d input f y a z x, Signals.runs cl d input f (y ++ HProc a :: z) x -> a = XExit \/ (exists p, a = XSrv (SReq (TPublish p QGone))) -> In HSignal y.
Proof. intros cl d input f y a z x R [-> |[p ->]]; [exact (exit_signalled _ _ _ _ _ _ _ R)|exact (stop_signalled _ _ _ _ _ _ _ _ R)]. Qed.
Print Assumptions C77_only_signals.
(* Once it stops, a further signal changes nothing. *)
Theorem C77_further_signals : forall cl d input f y p z x, In (HProc (XSrv (SReq (TPublish p QGone)))) y -> (Signals.runs cl d input f (y ++ HSignal :: z) x <-> Signals.runs cl d input f (y ++ z) x).
Proof. intros cl d input f y p z x H. apply (further cl d input f y (HProc (XSrv (SReq (TPublish p QGone)))) z x); [exists p; reflexivity|exact H]. Qed.
Print Assumptions C77_further_signals.

(* A signal that the handler waits for is not lost: until the stop is called it can be called. *)
Theorem C77_received : forall cl d input f tr x z y, Signals.runs cl d input f tr x -> h_sig x = HWaits -> exec (Signals.step cl) x (HSignal :: z) y ->
  (forall p, ~ In (HProc (XSrv (SReq (TPublish p QGone)))) z) -> x_gone (h_proc y) = false -> s_crash (x_srv (h_proc y)) = false ->
  exists p y', Signals.step cl y (Some (HProc (XSrv (SReq (TPublish p QGone))))) y'.
Proof.
  intros cl d input f tr x z y R H E N G C. destruct (received cl d input f tr x z y R H E) as (a & y' & (p & ->) & St); [intros a (p & ->); apply N|exact G|exact C|eauto].
Qed.
Print Assumptions C77_received.
(* A signal that the handler waits for: the process can then end, with all its records written, and, if
   no write failed, in the file; unless the response worker is blocked (C65). *)
Theorem C77_ends_partial : forall d input f tr x, Signals.runs true d input f tr (mkH x HWaits) ->
  x_gone x = false -> s_crash (x_srv x) = false -> s_stop (x_srv x) = XNone -> ~ blocked (x_srv x) ->
  exists tr' x', exec (Signals.step true) (mkH x HWaits) (HSignal :: map HProc tr') (mkH x' HStops) /\ In XExit tr' /\ x_gone x' = true /\ x_pend x' = [] /\
    (p_err (x_file x) = false -> p_err (x_file x') = false /\ p_file (x_file x') = f ++ List.concat (map pack (logged (of_proc tr ++ tr')))).
Proof.
  intros d input f tr x R G C X B. destruct (can_end d input f tr x HWaits R G C X) as (tr' & x' & E & Ex & Gn & Pn & Er & Fi); [|now left|].
  - intros c i k r b W P. destruct (c_pc (s_conn (x_srv x) c) 0) eqn:Z; try reflexivity; exfalso; apply B; exists c, i, k, r, b; (split; [exact W|split; [exact P|congruence]]).
  - exists tr', x'. split; [exact E|]. split; [exact Ex|]. split; [exact Gn|]. split; [exact Pn|]. intros Z. split; [congruence|]. exact (Fi Z).
Qed.
Print Assumptions C77_ends_partial.
Definition new_process : process := Process.start new_db (fun _ => []) [].
Example C77_ex : Signals.runs true new_db (fun _ => []) [] [] (mkH new_process HWaits) /\ ~ blocked (x_srv new_process) /\ x_gone new_process = false /\ s_crash (x_srv new_process) = false /\ s_stop (x_srv new_process) = XNone /\ p_err (x_file new_process) = false.
Proof. split; [apply exec_one_tau, Signals.waits|]. split; [intros (c & i & k & r & b & W & _); discriminate|auto]. Qed.

(* C77 is false: a signal that comes before the handler waits for it is lost: the process has
   not begun to stop, and does not end without another signal. *)
Theorem C77_early_refuted : forall cl d input f, exists x, Signals.runs cl d input f [HSignal] x /\ s_stop (x_srv (h_proc x)) = XNone /\
  forall tr x', exec (Signals.step cl) x tr x' -> ~ In HSignal tr -> ~ In (HProc XExit) tr.
Proof.
  intros cl d input f. assert (R : Signals.runs cl d input f [HSignal] (mkH (Process.start d input f) HNew)) by (apply exec_one, signal_lost; discriminate).
  eexists. split; [exact R|]. split; [reflexivity|]. apply (early_forever _ _ _ _ _ _ R). now left.
Qed.
Print Assumptions C77_early_refuted.
(* And after a client left at the wrong moment (C65) the process does not end however many
   signals it gets. *)
Theorem C77_blocked_refuted : forall others f, exists y x, Signals.runs true new_db (after_one others) f (map HProc y ++ [HSignal]) x /\ served y = leaves /\ h_sig x = HGot /\
  forall tr x', exec (Signals.step true) x tr x' -> ~ In (HProc XExit) tr.
Proof.
  intros others f. destruct (leaving others) as (s & R & S & X). destruct (lift_any true _ _ _ (open_file f) true R ltac:(unfold past_flush; now rewrite X) false []) as (y & b & p & E & Sv & _).
  exists y, (mkH (mkX s b p (open_file f) true false) HGot). split; [|split; [exact Sv|split; [reflexivity|apply blocked_forever; exact S]]].
  eapply exec_act; [eapply exec_cons_tau; [apply Signals.waits|eapply host_quiet; [exact E|]]|apply signal_got].
  intros q Hq. apply served_in in Hq. rewrite Sv in Hq. cbn in Hq. intuition discriminate.
Qed.
Print Assumptions C77_blocked_refuted.
Example C77_stop_ex : exists x, Signals.runs true new_db (fun _ => []) [] ([HSignal; HProc (XSrv (SReq (TPublish 0 QGone)))] ++ HSignal :: []) x /\ s_stop (x_srv (h_proc x)) = XReq 0.
Proof.
  eexists. split.
  - eapply exec_cons_tau; [apply Signals.waits|]. eapply exec_cons; [apply signal_got|]. eapply exec_cons.
    + eapply (Signals.stops true _ (Some (XSrv (SReq (TPublish 0 QGone))))); [|reflexivity].
      apply (Process.srv true (Server.init new_db (fun _ => [])) (Some (SReq (TPublish 0 QGone)))); [split; [reflexivity|apply stop_req; [reflexivity|apply Topic.publish; reflexivity]]|easy|intros [X _]; discriminate].
    + apply exec_one, signal_lost. discriminate.
  - reflexivity.
Qed.
