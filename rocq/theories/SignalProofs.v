(* What signals do to the process. *)
From Coq Require Import List Bool Arith Lia String ZArith Permutation.
From Verif Require Import ProcessProofs.
From Verif Require Import Base Lts Resp Command Db Engine Log LogSpec Persist PersistSpec PersistProofs Recovery Topic DataChannel Conn ServerSpec Server ServerProofs StopProofs ProgressProofs EndProofs Process Signals.
Import ListNotations.
Local Open Scope nat_scope.

Definition ext (tr : list Signals.event) (l : option Signals.event) : list Signals.event := match l with None => tr | Some a => tr ++ [a] end.
Lemma runs_ind' cl d input f (I : list Signals.event -> host -> Prop) : I [] (mkH (start d input f) HNew) ->
  (forall tr x l x', Signals.runs cl d input f tr x -> I tr x -> Signals.step cl x l x' -> I (ext tr l) x') -> forall tr x, Signals.runs cl d input f tr x -> I tr x.
Proof.
  intros H0 Hs tr x H. unfold Signals.runs in H. induction H as [|tr s1 s2 H IH St|tr s1 a s2 H IH St]; [exact H0| |].
  - exact (Hs tr s1 None s2 H IH St).
  - exact (Hs tr s1 (Some a) s2 H IH St).
Qed.
Lemma of_app tr tr' : of_proc (tr ++ tr') = of_proc tr ++ of_proc tr'.
Proof. apply flat_map_app. Qed.
Lemma of_in tr a : In a (of_proc tr) <-> In (HProc a) tr.
Proof.
  unfold of_proc. rewrite in_flat_map. split.
  - intros (b & Hb & X). destruct b; [|easy]. destruct X as [->|[]]. exact Hb.
  - intros H. exists (HProc a). split; [exact H|now left].
Qed.
Theorem proc_runs cl d input f tr x : Signals.runs cl d input f tr x -> Process.runs cl d input f (of_proc tr) (h_proc x).
Proof.
  apply (runs_ind' cl d input f (fun tr x => Process.runs cl d input f (of_proc tr) (h_proc x))); [apply exec_start|].
  intros tr0 x0 l x' _ I St. destruct St; cbn [h_proc ext option_map] in *; try exact I.
  - destruct l as [a|]; cbn; [rewrite of_app; eapply exec_act|eapply exec_tau]; eassumption.
  - rewrite of_app. cbn. rewrite app_nil_r. exact I.
  - rewrite of_app. cbn. rewrite app_nil_r. exact I.
  - destruct l as [a|]; cbn; [rewrite of_app; eapply exec_act|eapply exec_tau]; eassumption.
Qed.

(* The handler. *)
Definition is_call (a : Signals.event) : Prop := exists p, a = HProc (XSrv (SReq (TPublish p QGone))).
Lemma call_in tr p : In (XSrv (SReq (TPublish p QGone))) (of_proc tr) -> exists a, is_call a /\ In a tr.
Proof. intros H. apply of_in in H. eexists. split; [exists p; reflexivity|exact H]. Qed.
Lemma is_call_stop a : is_call (HProc a) <-> is_stop (Some a) = true.
Proof.
  split; [intros [p E]; inversion E; reflexivity|]. intros H. destruct a as [b| | | |]; try discriminate. destruct b as [|t| | | | | |]; try discriminate. destruct t; try discriminate. destruct e; try discriminate. eexists. reflexivity.
Qed.
Lemma handler_inv cl d input f tr x : Signals.runs cl d input f tr x ->
  ((exists a, is_call a /\ In a tr) <-> h_sig x = HStops) /\ (h_sig x = HGot \/ h_sig x = HStops -> In HSignal tr).
Proof.
  apply (runs_ind' cl d input f (fun tr x => ((exists a, is_call a /\ In a tr) <-> h_sig x = HStops) /\ (h_sig x = HGot \/ h_sig x = HStops -> In HSignal tr))).
  - cbn. split; [split; [intros (a & _ & []); discriminate|discriminate]|intros [X|X]; discriminate].
  - intros tr0 x0 l x' _ [I1 I2] St.
    assert (Mono : forall a, In a tr0 -> In a (ext tr0 l)) by (destruct l; cbn; auto; intros; apply in_app_iff; auto).
    assert (Keep : (forall a, l = Some a -> ~ is_call a) -> ((exists a, is_call a /\ In a (ext tr0 l)) <-> exists a, is_call a /\ In a tr0)).
    { intros N. split; intros (a & A & B); exists a; (split; [exact A|]); [|now apply Mono]. destruct l as [b|]; [|exact B]. cbn in B. apply in_app_iff in B as [B|[->|[]]]; [exact B|]. exfalso. exact (N a eq_refl A). }
    destruct St; cbn [h_sig] in *.
    + rewrite Keep; [|intros a Q; destruct l as [b|]; [|discriminate]; cbn in Q; inversion Q; subst; rewrite is_call_stop; congruence]. auto.
    + rewrite Keep by discriminate. split; [|intros [X|X]; discriminate]. rewrite I1. split; discriminate.
    + rewrite Keep by (intros a Q [p E]; inversion Q; subst; discriminate). split; [rewrite I1; split; discriminate|]. intros _. apply in_app_iff. right. now left.
    + rewrite Keep by (intros a Q [p E]; inversion Q; subst; discriminate). auto.
    + split; [|intros _; apply Mono; apply I2; auto]. split; [reflexivity|]. intros _. destruct l as [b|]; [|discriminate]. exists (HProc b). split; [now apply is_call_stop|]. cbn. apply in_app_iff. right. now left.
Qed.
(* Nothing is stopped without a signal. *)
Theorem stop_signalled cl d input f y p z x : Signals.runs cl d input f (y ++ HProc (XSrv (SReq (TPublish p QGone))) :: z) x -> In HSignal y.
Proof.
  intros R. destruct (exec_split _ _ _ _ _ _ R) as (s1 & s2 & R1 & St & _). destruct (handler_inv _ _ _ _ _ _ R1) as [_ I]. apply I. left.
  inversion St; subst; [|destruct l; [|discriminate]; reflexivity]. destruct l as [b|]; [|discriminate]. cbn in *. match goal with H : Some _ = Some _ |- _ => inversion H; subst end. discriminate.
Qed.
Theorem exit_signalled cl d input f y z x : Signals.runs cl d input f (y ++ HProc XExit :: z) x -> In HSignal y.
Proof.
  intros R. destruct (exec_split _ _ _ _ _ _ R) as (s1 & s2 & R1 & St & _). pose proof (exec_act _ _ _ _ _ _ R1 St) as R'. pose proof (proc_runs _ _ _ _ _ _ R') as P.
  destruct (exit_after_stop _ _ _ _ _ _ P) as (p & Hp); [rewrite of_app; apply in_app_iff; right; now left|]. rewrite of_app in Hp. apply in_app_iff in Hp as [Hp|[Hp|[]]]; [|discriminate].
  destruct (call_in _ _ Hp) as (a & A & B). destruct (handler_inv _ _ _ _ _ _ R1) as [I1 I2]. apply I2. right. apply I1. eauto.
Qed.
(* A signal after the stop has been called changes nothing. *)
Lemma lost_exec cl x z y : h_sig x <> HWaits -> exec (Signals.step cl) x z y -> exec (Signals.step cl) x (HSignal :: z) y.
Proof. intros H E. eapply exec_cons; [|exact E]. destruct x as [p h]. apply signal_lost. exact H. Qed.
Theorem further cl d input f y a z x : is_call a -> In a y -> (Signals.runs cl d input f (y ++ HSignal :: z) x <-> Signals.runs cl d input f (y ++ z) x).
Proof.
  intros A B. split; intros R.
  - destruct (exec_split _ _ _ _ _ _ R) as (s1 & s2 & R1 & St & R2). destruct (handler_inv _ _ _ _ _ _ R1) as [I1 _].
    assert (Z : h_sig s1 = HStops) by (apply I1; eauto). assert (s2 = s1) as ->; [|eapply exec_app; eassumption].
    inversion St; subst; cbn in *; try discriminate; try reflexivity; destruct l; discriminate.
  - apply in_split in B as (y1 & y2 & ->). rewrite <- app_assoc in R. cbn in R. destruct (exec_split _ _ _ _ _ _ R) as (s1 & s2 & R1 & St & R2).
    assert (exists s3, exec (Signals.step cl) s2 y2 s3 /\ exec (Signals.step cl) s3 z x) as (s3 & R3 & R4).
    { clear - R2. remember (y2 ++ z) as w eqn:W. revert y2 z W. induction R2 as [|tr s3 s4 E IH St|tr s3 b s4 E IH St]; intros y2 z W.
      - symmetry in W. apply app_eq_nil in W as [-> ->]. exists s2. split; apply exec_start.
      - destruct (IH _ _ W) as (u & U1 & U2). exists u. split; [exact U1|]. eapply exec_tau; eassumption.
      - destruct (rev z) as [|c r] eqn:Rz.
        + assert (z = []) as -> by (rewrite <- (rev_involutive z), Rz; reflexivity). rewrite app_nil_r in W. exists s4. split; [rewrite <- W; eapply exec_act; eassumption|apply exec_start].
        + assert (z = rev r ++ [c]) as -> by (rewrite <- (rev_involutive z), Rz; reflexivity). rewrite app_assoc in W. apply app_inj_tail in W as [W ->].
          destruct (IH _ _ W) as (u & U1 & U2). exists u. split; [exact U1|]. eapply exec_act; eassumption. }
    rewrite <- app_assoc. cbn. eapply exec_app; [exact R1|]. eapply exec_cons; [exact St|]. eapply exec_app; [exact R3|]. apply lost_exec; [|exact R4].
    assert (R' : Signals.runs cl d input f ((y1 ++ [a]) ++ y2) s3) by (eapply exec_app; [eapply exec_act; eassumption|exact R3]).
    destruct (handler_inv _ _ _ _ _ _ R') as [I1 _]. assert (Z : h_sig s3 = HStops); [|congruence]. apply I1. exists a. split; [exact A|]. apply in_app_iff. left. apply in_app_iff. right. now left.
Qed.
(* A signal that came too early. *)
Theorem early cl x tr y : h_sig x = HNew \/ h_sig x = HWaits -> exec (Signals.step cl) x tr y -> ~ In HSignal tr -> ~ exists a, is_call a /\ In a tr.
Proof.
  intros H E. assert (Z : ~ In HSignal tr -> (h_sig y = HNew \/ h_sig y = HWaits) /\ ~ exists a, is_call a /\ In a tr); [|intros N; apply Z; exact N].
  induction E as [|tr s1 s2 E IH St|tr s1 a s2 E IH St]; intros N.
  - split; [exact H|]. intros (a & _ & []).
  - destruct (IH N) as [I1 I2]. split; [|exact I2]. inversion St; subst; cbn in *; auto. destruct I1; discriminate.
  - destruct IH as [I1 I2]; [intros X; apply N, in_app_iff; auto|]. assert (a <> HSignal) as Na by (intros ->; apply N, in_app_iff; right; now left).
    inversion St; subst; cbn in *; try congruence.
    + split; [exact I1|]. intros (b & B1 & B2). apply in_app_iff in B2 as [B2|[->|[]]]; [apply I2; eauto|]. destruct l as [l|]; [|discriminate]. cbn in *. match goal with Q : Some _ = Some _ |- _ => inversion Q; subst end. apply is_call_stop in B1. cbn in B1. congruence.
    + destruct I1; discriminate.
Qed.

(* ---- the process can end ---- *)
Lemma write_live p d0 : p_dead p = false -> p_dead (fst (write p d0 [])) = false /\ p_err (fst (write p d0 [])) = p_err p /\ snd (write p d0 []) = [].
Proof.
  intros D. unfold write. destruct (p_err p) eqn:E; [cbn; auto|]. destruct (_ <=? _)%nat; [cbn; auto|].
  destruct (p_buf p) as [|c b]; cbn -[buf_size firstn skipn Nat.sub].
  - unfold write_fresh. destruct (_ <=? _)%nat; cbn; auto.
  - unfold write_fresh. cbn -[buf_size firstn skipn Nat.sub]. destruct (_ <=? _)%nat; cbn -[buf_size firstn skipn Nat.sub]; auto.
Qed.
Lemma flush_live p : p_dead p = false -> p_dead (fst (flush p [])) = false /\ p_err (fst (flush p [])) = p_err p.
Proof. intros D. unfold flush. destruct (p_err p) eqn:E; [cbn; auto|]. destruct (p_buf p) as [|c b]; cbn; auto. Qed.
Lemma alive cl d input f tr x : Process.runs cl d input f tr x -> p_dead (x_file x) = true -> x_gone x = true.
Proof.
  apply (ProcessProofs.runs_ind' cl d input f (fun tr x => p_dead (x_file x) = true -> x_gone x = true)); [discriminate|].
  intros tr0 x0 l x' _ I St. destruct St; cbn [x_file x_gone] in *; auto.
Qed.
(* the pending records are written, as far as they can be *)
Lemma write_all cl s a p : s_crash s = false -> forall f b, p_dead f = false ->
  exists tr f', exec (Process.step cl) (mkX s b p f a false) (map XLog tr) (mkX s b [] f' a false) /\ p_dead f' = false /\ p_err f' = p_err f.
Proof.
  intros C. induction p as [|v p IH]; intros f b D.
  - exists [], f. split; [apply exec_start|auto].
  - destruct (pack_log v) as [d0|] eqn:P.
    + destruct (write_live f d0 D) as (A1 & A2 & A3). destruct (write f d0 []) as [f1 w1] eqn:W. cbn in A1, A2, A3. destruct (IH f1 b A1) as (tr & f' & E & B1 & B2).
      exists (v :: tr), f'. split; [|split; [exact B1|congruence]]. cbn. eapply exec_cons; [|exact E]. pose proof (logs cl s b [] v p f a d0 [] f1 w1 C P W) as St. rewrite A1 in St. exact St.
    + destruct (IH f b D) as (tr & f' & E & B1 & B2). exists tr, f'. split; [|auto]. eapply exec_cons_tau; [|exact E]. exact (drops cl s b [] v p f a C P).
Qed.
(* A run of the server that is not over its stop is a run of the process: before a request is
   executed its log goroutine is started. *)
Definition still (tr : list Process.event) : Prop := ~ In XFlush tr /\ ~ In XExit tr.
Lemma still_app x y : still x -> still y -> still (x ++ y).
Proof. intros [A B] [C D]. split; rewrite in_app_iff; tauto. Qed.
Lemma still_srv e : still [XSrv e].
Proof. split; intros [X|[]]; discriminate. Qed.
Lemma begins_log cl s p f a c k q : s_crash s = false -> s_eng s = EHas c k q -> exists tr p', exec (Process.step cl) (mkX s false p f a false) tr (mkX s true p' f a false) /\ served tr = [] /\ (forall y, In y tr -> is_stop (Some y) = false) /\ still tr.
Proof.
  intros C E. destruct (log_of (mkStamp [] 0%Z []) q) as [v|] eqn:L.
  - exists [XSpawn c k q v], (p ++ [v]). split; [apply exec_one; eapply spawn; eassumption|]. split; [reflexivity|]. split; [intros y [<-|[]]; reflexivity|]. split; intros [X|[]]; discriminate.
  - exists [], p. split; [apply exec_one_tau; eapply spawn_none; eassumption|]. split; [reflexivity|]. split; [intros y []|]. split; intros [].
Qed.
Lemma move_handles cl s c k e q o s' : Server.step cl s (Some (SHandle c k e q o)) s' -> s_eng s = EHas c k q.
Proof. intros [_ M]. inversion M; subst; try assumption; destruct l; discriminate. Qed.
Definition quiet (tr : list Process.event) : Prop := forall p, ~ In (XSrv (SReq (TPublish p QGone))) tr.
Lemma lift_any cl s tr s' f a : exec (Server.step cl) s tr s' -> ~ past_flush s' -> forall b p, exists tr' b' p', exec (Process.step cl) (mkX s b p f a false) tr' (mkX s' b' p' f a false) /\ served tr' = tr /\ still tr'.
Proof.
  intros E. induction E as [|tr s1 s2 E IH St|tr s1 e s2 E IH St]; intros D b p.
  - exists [], b, p. split; [apply exec_start|split; [reflexivity|split; intros []]].
  - destruct (IH (fun X => D (past_stays _ _ _ _ (proj2 St) X)) b p) as (tr' & b' & p' & E' & S'). exists tr', b', p'. split; [|exact S']. eapply exec_tau; [exact E'|]. apply (srv cl s1 None s2 b' p' f a St); [easy|]. intros [_ X]. apply D. unfold past_flush. now rewrite X.
  - destruct (IH (fun X => D (past_stays _ _ _ _ (proj2 St) X)) b p) as (tr' & b' & p' & E' & S' & Q').
    assert (Dec : handles (Some e) \/ ~ handles (Some e)) by (destruct e; cbn; auto). destruct Dec as [Hh|Hh].
    + destruct e as [| | | | |c k x q o| |]; try destruct Hh. pose proof (move_handles _ _ _ _ _ _ _ _ St) as En. destruct b'.
      * exists (tr' ++ [XSrv (SHandle c k x q o)]), false, p'. split; [eapply exec_act; [exact E'|exact (srv_handle cl s1 (Some (SHandle c k x q o)) s2 p' f a St I)]|]. split; [unfold served in *; rewrite flat_map_app, S'; reflexivity|apply still_app; [exact Q'|apply still_srv]].
      * destruct (begins_log cl s1 p' f a c k q (proj1 St) En) as (tr2 & p2 & E2 & S2 & _ & Q2). exists ((tr' ++ tr2) ++ [XSrv (SHandle c k x q o)]), false, p2.
        split; [eapply exec_act; [eapply exec_app; eassumption|exact (srv_handle cl s1 (Some (SHandle c k x q o)) s2 p2 f a St I)]|]. split; [unfold served in *; rewrite !flat_map_app, S', S2, app_nil_r; reflexivity|]. apply still_app; [apply still_app; assumption|apply still_srv].
    + exists (tr' ++ [XSrv e]), b', p'. split; [eapply exec_act; [exact E'|]|split; [unfold served in *; rewrite flat_map_app, S'; reflexivity|apply still_app; [exact Q'|apply still_srv]]]. apply (srv cl s1 (Some e) s2 b' p' f a St Hh). intros [_ X]. apply D. unfold past_flush. now rewrite X.
Qed.
(* the stop has begun *)
Lemma none_before cl s tr s' : exec (Server.step cl) s tr s' -> s_stop s' = XNone -> s_stop s = XNone /\ forall p, ~ In (SReq (TPublish p QGone)) tr.
Proof.
  induction 1 as [|tr s1 s2 E IH St|tr s1 e s2 E IH St]; intros H.
  - split; [exact H|]. intros p [].
  - destruct (not_stopping _ _ _ _ (proj2 St) H) as (A & _). auto.
  - destruct (not_stopping _ _ _ _ (proj2 St) H) as (A & B & _). destruct (IH A) as [I1 I2]. split; [exact I1|]. intros p X. apply in_app_iff in X as [X|[X|[]]]; [exact (I2 _ X)|]. exact (B p (f_equal Some X)).
Qed.
Lemma begun_once cl s tr s' : exec (Server.step cl) s tr s' -> s_stop s <> XNone -> s_stop s' <> XNone /\ forall p, ~ In (SReq (TPublish p QGone)) tr.
Proof.
  induction 1 as [|tr s1 s2 E IH St|tr s1 e s2 E IH St]; intros H.
  - split; [exact H|]. intros p [].
  - destruct (IH H) as [A B]. split; [|exact B]. intros X. apply A. exact (proj1 (not_stopping _ _ _ _ (proj2 St) X)).
  - destruct (IH H) as [A B]. split; [intros X; apply A; exact (proj1 (not_stopping _ _ _ _ (proj2 St) X))|].
    intros p X. apply in_app_iff in X as [X|[X|[]]]; [exact (B _ X)|]. subst e. destruct St as [_ M]. inversion M; subst; try congruence; (destruct l as [l|]; [|discriminate]); cbn in *; try discriminate. match goal with Q : Some _ = Some _ |- _ => inversion Q; subst end. contradiction.
Qed.
Lemma host_quiet cl x tr x' h : exec (Process.step cl) x tr x' -> quiet tr -> exec (Signals.step cl) (mkH x h) (map HProc tr) (mkH x' h).
Proof.
  induction 1 as [|tr s1 s2 E IH St|tr s1 e s2 E IH St]; intros Q; [apply exec_start| |].
  - eapply exec_tau; [exact (IH Q)|]. exact (proceeds cl s1 None s2 h St eq_refl).
  - rewrite map_app. eapply exec_act; [apply IH; intros p X; apply (Q p), in_app_iff; auto|]. apply (proceeds cl s1 (Some e) s2 h St).
    destruct (is_stop (Some e)) eqn:Z; [|reflexivity]. exfalso. apply is_call_stop in Z as [p Z]. inversion Z; subst. apply (Q p), in_app_iff. right. now left.
Qed.
Lemma of_map tr : of_proc (map HProc tr) = tr.
Proof. induction tr as [|a tr IH]; [reflexivity|]. cbn. now f_equal. Qed.
Lemma no_signal tr : ~ In HSignal (map HProc tr).
Proof. intros X. apply in_map_iff in X as (a & X & _). discriminate. Qed.
(* ... up to the flush *)
Lemma can_shut_raw d input f tr x h : Signals.runs true d input f tr (mkH x h) -> x_gone x = false -> s_crash (x_srv x) = false -> s_stop (x_srv x) = XNone -> unblocked (x_srv x) -> h = HWaits \/ h = HGot ->
  exists tr' s b p a, exec (Signals.step true) (mkH x h) ((if match h with HWaits => true | _ => false end then [HSignal] else []) ++ map HProc tr') (mkH (mkX s b p (x_file x) a false) HStops) /\ still tr' /\
    s_stop s = XShut /\ s_wrk s = WOver /\ s_crash s = false.
Proof.
  intros R Gn C X U H. pose proof (proc_runs _ _ _ _ _ _ R) as P. cbn [h_proc] in P. pose proof (served_runs _ _ _ _ _ _ P) as S.
  destruct x as [s b p pf a g]. cbn [x_srv x_gone x_file] in *. subst g.
  destruct (can_stop true _ _ _ _ S C X U) as (y & pp & z & s1 & s2 & s3 & E1 & X1 & St & E2 & X3 & W3 & C3).
  destruct (lift_any true s y s1 pf a E1 ltac:(unfold past_flush; now rewrite X1) b p) as (y' & b1 & p1 & F1 & Y1 & Sy).
  assert (St' : Process.step true (mkX s1 b1 p1 pf a false) (Some (XSrv (SReq (TPublish pp QGone)))) (mkX s2 b1 p1 pf a false)).
  { apply (srv true s1 (Some (SReq (TPublish pp QGone))) s2 b1 p1 pf a St); [easy|]. intros [Q _]. congruence. }
  destruct (lift_any true s2 z s3 pf a E2 ltac:(unfold past_flush; now rewrite X3) b1 p1) as (z' & b2 & p2 & F2 & Z2 & Sz).
  assert (Qy : quiet y'). { intros q Hq. apply served_in in Hq. rewrite Y1 in Hq. exact (proj2 (none_before _ _ _ _ E1 X1) _ Hq). }
  assert (Qw : quiet z').
  { intros q Hq. apply served_in in Hq. rewrite Z2 in Hq. refine (proj2 (begun_once _ _ _ _ E2 _) _ Hq). destruct St as [_ M]. inversion M; subst; cbn; try discriminate; (destruct l as [l|]; [|discriminate]); cbn in *; try discriminate. match goal with Q : Some _ = Some _ |- _ => inversion Q; subst end. contradiction. }
  exists (y' ++ [XSrv (SReq (TPublish pp QGone))] ++ z'), s3, b2, p2, a. split; [|split; [apply still_app; [exact Sy|apply still_app; [apply still_srv|exact Sz]]|auto]].
  assert (Got : exec (Signals.step true) (mkH (mkX s b p pf a false) HGot) (map HProc (y' ++ [XSrv (SReq (TPublish pp QGone))] ++ z')) (mkH (mkX s3 b2 p2 pf a false) HStops)).
  { rewrite !map_app. eapply exec_app; [exact (host_quiet _ _ _ _ HGot F1 Qy)|]. eapply exec_app; [|exact (host_quiet _ _ _ _ HStops F2 Qw)]. apply exec_one. exact (Signals.stops true _ (Some _) _ St' eq_refl). }
  destruct H as [-> | ->]; cbn [app]; [eapply exec_cons; [apply signal_got|]|]; exact Got.
Qed.
Theorem can_shut d input f tr x h : Signals.runs true d input f tr (mkH x h) -> x_gone x = false -> s_crash (x_srv x) = false -> s_stop (x_srv x) = XNone -> unblocked (x_srv x) -> h = HWaits \/ h = HGot ->
  exists tr' s b f' a, exec (Signals.step true) (mkH x h) ((if match h with HWaits => true | _ => false end then [HSignal] else []) ++ map HProc tr') (mkH (mkX s b [] f' a false) HStops) /\ still tr' /\
    s_stop s = XShut /\ s_wrk s = WOver /\ s_crash s = false /\ p_dead f' = false /\ p_err f' = p_err (x_file x).
Proof.
  intros R Gn C X U H. destruct (can_shut_raw _ _ _ _ _ _ R Gn C X U H) as (w & s & b & p & a & E & Sw & X3 & W3 & C3). pose proof (proc_runs _ _ _ _ _ _ R) as P. cbn [h_proc] in P.
  assert (D : p_dead (x_file x) = false). { destruct (p_dead (x_file x)) eqn:D; [|reflexivity]. pose proof (alive _ _ _ _ _ _ P D). congruence. }
  destruct (write_all true s a p C3 (x_file x) b D) as (vs & f4 & F3 & D4 & Er4).
  exists (w ++ map XLog vs), s, b, f4, a. split; [|split; [apply still_app; [exact Sw|split; intros Q; apply in_map_iff in Q as (? & Q & _); discriminate]|auto]].
  rewrite map_app, app_assoc. eapply exec_app; [exact E|]. refine (host_quiet _ _ _ _ HStops F3 _). intros q Q. apply in_map_iff in Q as (? & Q & _); discriminate.
Qed.
(* ... and from there *)
Lemma flushes_out s b f a : s_stop s = XShut -> s_crash s = false -> p_dead f = false ->
  exists f', Process.step true (mkX s b [] f a false) (Some XFlush) (mkX (set_stop s XFlushed (s_reqs s) (s_rsps s)) b [] f' a false) /\ p_dead f' = false /\ p_err f' = p_err f.
Proof.
  intros X C D. destruct (flush_live f D) as [D5 Er5]. destruct (flush f []) as [f5 w5] eqn:Fl. cbn in D5, Er5. exists f5. split; [|auto].
  pose proof (Process.stops true s (set_stop s XFlushed (s_reqs s) (s_rsps s)) b [] f a [] f5 w5 (conj C (Server.stop_flush true s X eq_refl)) X eq_refl Fl) as Q. rewrite D5 in Q. exact Q.
Qed.
Lemma exits_out s b p f a : shut s -> s_wrk s = WOver -> s_crash s = false -> exec (Process.step true) (mkX s b p f a false) [XExit] (mkX s b p f false true).
Proof. intros X W C. destruct a; [eapply exec_cons_tau; [apply accept_ends; assumption|]|]; apply exec_one, exits; assumption. Qed.
Lemma flushed_all d input f tr x x' : Process.runs true d input f tr x -> Process.step true x (Some XFlush) x' -> p_err (x_file x') = false -> p_file (x_file x') = stream f (logged tr).
Proof.
  intros R St Er. pose proof (file_inv _ _ _ _ _ _ R) as I0. inversion St; subst; cbn [x_file] in *; try (destruct l; discriminate);
    (match goal with Q : flush ?g ?ws = _ |- _ => pose proof (flush_ok g ws _ I0) as W; rewrite Q in W end); destruct W as (_ & _ & W); now rewrite (proj1 (W Er)).
Qed.
Theorem can_end d input f tr x h : Signals.runs true d input f tr (mkH x h) -> x_gone x = false -> s_crash (x_srv x) = false -> s_stop (x_srv x) = XNone -> unblocked (x_srv x) -> h = HWaits \/ h = HGot ->
  exists tr' x', exec (Signals.step true) (mkH x h) ((if match h with HWaits => true | _ => false end then [HSignal] else []) ++ map HProc tr') (mkH x' HStops) /\ In XExit tr' /\ x_gone x' = true /\ x_pend x' = [] /\ p_err (x_file x') = p_err (x_file x) /\
    (p_err (x_file x) = false -> p_file (x_file x') = stream f (logged (of_proc tr ++ tr'))).
Proof.
  intros R Gn C X U H. destruct (can_shut _ _ _ _ _ _ R Gn C X U H) as (w & s & b & f4 & a & E & _ & X3 & W3 & C3 & D4 & Er4). destruct (flushes_out s b f4 a X3 C3 D4) as (f5 & St & D5 & Er5).
  pose proof (exits_out (set_stop s XFlushed (s_reqs s) (s_rsps s)) b [] f5 a I W3 C3) as Ex.
  exists (w ++ [XFlush] ++ [XExit]). eexists. split.
  { rewrite !map_app, app_assoc. eapply exec_app; [exact E|]. change (map HProc [XFlush] ++ map HProc [XExit]) with (map HProc ([XFlush] ++ [XExit])). refine (host_quiet _ _ _ _ HStops (exec_app _ _ _ _ _ _ (exec_one _ _ _ _ St) Ex) _).
    intros q [Q|[Q|[]]]; discriminate. }
  split; [rewrite !in_app_iff; cbn; auto|]. split; [reflexivity|]. split; [reflexivity|]. cbn [x_file]. split; [congruence|]. intros Er.
  pose proof (proc_runs _ _ _ _ _ _ (exec_app _ _ _ _ _ _ R E)) as R0. cbn [h_proc] in R0.
  assert (Q : of_proc (tr ++ (if match h with HWaits => true | _ => false end then [HSignal] else []) ++ map HProc w) = of_proc tr ++ w).
  { rewrite !of_app, of_map. destruct H as [-> | ->]; reflexivity. }
  rewrite Q in R0. pose proof (flushed_all _ _ _ _ _ _ R0 St) as F. cbn [x_file] in F. rewrite F by congruence. f_equal. unfold logged. rewrite !flat_map_app. cbn. now rewrite !app_nil_r.
Qed.
(* What happens to the server in a run. *)
Lemma to_server cl x tr x' : exec (Signals.step cl) x tr x' -> exec (Server.step cl) (x_srv (h_proc x)) (served (of_proc tr)) (x_srv (h_proc x')).
Proof.
  assert (P : forall u l v, Process.step cl u l v -> (exists e, l = Some (XSrv e) /\ Server.step cl (x_srv u) (Some e) (x_srv v)) \/ ((forall e, l <> Some (XSrv e)) /\ (Server.step cl (x_srv u) None (x_srv v) \/ x_srv v = x_srv u))).
  { intros u l v St. destruct St; cbn [x_srv]; try (right; split; [discriminate|auto]; fail); destruct l as [e|]; cbn; eauto; right; (split; [discriminate|auto]). }
  induction 1 as [|tr s1 s2 E IH St|tr s1 e s2 E IH St]; [apply exec_start| |].
  - inversion St; subst; cbn [h_proc] in *; auto; destruct l as [l|]; try discriminate;
      match goal with Q : Process.step _ _ _ _ |- _ => destruct (P _ _ _ Q) as [(e & Z & _)|(_ & [Z|Z])] end; try discriminate; [eapply exec_tau; eassumption|now rewrite Z].
  - rewrite of_app. unfold served. rewrite flat_map_app. change (flat_map _ (of_proc tr)) with (served (of_proc tr)).
    inversion St; subst; cbn [h_proc] in *; try (cbn; rewrite app_nil_r; exact IH); (destruct l as [l|]; [|discriminate]); cbn in *; (match goal with Q : Some _ = Some _ |- _ => inversion Q; subst end);
      match goal with Q : Process.step _ _ _ _ |- _ => destruct (P _ _ _ Q) as [(e' & Z & Z')|(N & [Z|Z])] end; try (inversion Z; subst; eapply exec_act; eassumption);
      (destruct l; try (exfalso; eapply N; reflexivity)); cbn; rewrite app_nil_r; try (eapply exec_tau; eassumption); rewrite Z; exact IH.
Qed.
Lemma exit_worker cl x y z x' : exec (Signals.step cl) x (y ++ HProc XExit :: z) x' -> exists x1, exec (Signals.step cl) x y x1 /\ s_wrk (x_srv (h_proc x1)) = WOver.
Proof.
  intros E. destruct (exec_split _ _ _ _ _ _ E) as (x1 & x2 & E1 & St & _). exists x1. split; [exact E1|].
  inversion St; subst; (destruct l as [l|]; [|discriminate]); cbn in *; (match goal with Q : Some _ = Some _ |- _ => inversion Q; subst end); (match goal with Q : Process.step _ _ _ _ |- _ => inversion Q; subst end); cbn; auto; destruct l; discriminate.
Qed.
Theorem blocked_forever cl x : silent (x_srv (h_proc x)) -> forall tr x', exec (Signals.step cl) x tr x' -> ~ In (HProc XExit) tr.
Proof.
  intros S tr x' E H. apply in_split in H as (y & z & ->). destruct (exit_worker _ _ _ _ _ E) as (x1 & E1 & W). exact (proj1 (silent_forever cl _ S _ _ (to_server _ _ _ _ E1)) W).
Qed.
Theorem early_forever cl d input f tr x : Signals.runs cl d input f tr x -> h_sig x = HNew \/ h_sig x = HWaits -> forall tr' x', exec (Signals.step cl) x tr' x' -> ~ In HSignal tr' -> ~ In (HProc XExit) tr'.
Proof.
  intros R H tr' x' E N X. pose proof (proc_runs _ _ _ _ _ _ (exec_app _ _ _ _ _ _ R E)) as P.
  destruct (exit_after_stop _ _ _ _ _ _ P) as (p & Hp); [apply of_in, in_app_iff; auto|]. destruct (call_in _ _ Hp) as (a & A & B). apply in_app_iff in B as [B|B].
  - destruct (handler_inv _ _ _ _ _ _ R) as [[I1 _] _]. rewrite I1 in H by eauto. destruct H; discriminate.
  - eapply early; eauto.
Qed.
(* A signal that was waited for is not lost: until stop is called, it can be called. *)
Lemma received_inv cl x z y : exec (Signals.step cl) x z y -> h_sig x = HGot -> (forall a, is_call a -> ~ In a z) -> h_sig y = HGot.
Proof.
  intros E H N. induction E as [|tr s1 s2 E IH St|tr s1 a s2 E IH St]; [exact H| |].
  - specialize (IH N). inversion St; subst; cbn in *; auto; try discriminate. destruct l; discriminate.
  - assert (IH' : h_sig s1 = HGot) by (apply IH; intros b B X; apply (N b B), in_app_iff; auto). inversion St; subst; cbn in *; auto; try discriminate.
    exfalso. destruct l as [l|]; [|discriminate]. cbn in *. match goal with Q : Some _ = Some _ |- _ => inversion Q; subst end. apply (N (HProc l)); [now apply is_call_stop|]. apply in_app_iff. right. now left.
Qed.
Theorem received cl d input f tr x z y : Signals.runs cl d input f tr x -> h_sig x = HWaits -> exec (Signals.step cl) x (HSignal :: z) y -> (forall a, is_call a -> ~ In a z) ->
  x_gone (h_proc y) = false -> s_crash (x_srv (h_proc y)) = false -> exists a y', is_call a /\ Signals.step cl y (Some a) y'.
Proof.
  intros R H E N G C. destruct (exec_split _ _ _ [] _ _ E) as (x1 & x2 & E1 & St & E2).
  assert (H1 : h_sig x1 = HWaits). { clear - E1 H. remember [] as w. induction E1 as [|w s1 s2 E IH St|w s1 a s2 E IH St]; [exact H| |destruct w; discriminate]. specialize (IH Heqw). inversion St; subst; cbn in *; auto; try discriminate; destruct l; discriminate. }
  assert (H2 : h_sig x2 = HGot). { inversion St; subst; cbn in *; try congruence; destruct l; discriminate. }
  pose proof (received_inv _ _ _ _ E2 H2 N) as H3. pose proof (exec_app _ _ _ _ _ _ R E) as R'. pose proof (proc_runs _ _ _ _ _ _ R') as P. pose proof (served_runs _ _ _ _ _ _ P) as S.
  destruct (handler_inv _ _ _ _ _ _ R') as [[I1 _] _].
  assert (X : s_stop (x_srv (h_proc y)) = XNone).
  { destruct (s_stop (x_srv (h_proc y))) eqn:X; [reflexivity|..]; exfalso; (destruct (stop_begun _ _ _ _ _ S) as (p0 & Hp); [congruence|]); apply served_in in Hp; (destruct (call_in _ _ Hp) as (a & A & B)); rewrite I1 in H3 by eauto; discriminate. }
  destruct y as [[s b p pf ac g] h]. cbn in *. subst g h. destruct (runs_parts _ _ _ _ _ S) as (T & _). destruct (fresh _ _ T) as (q & _ & _ & Fq & _).
  exists (HProc (XSrv (SReq (TPublish q QGone)))). eexists. split; [exists q; reflexivity|].
  eapply (Signals.stops cl _ (Some (XSrv (SReq (TPublish q QGone))))); [|reflexivity].
  apply (srv cl s (Some (SReq (TPublish q QGone)))); [split; [exact C|apply stop_req; [exact X|apply Topic.publish; exact Fq]]|easy|]. intros [Z _]. congruence.
Qed.
