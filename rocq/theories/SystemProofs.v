(* The whole program: what holds of its parts holds of it. *)
From Coq Require Import List Bool Arith Lia String ZArith.
From Verif Require Import ProcessProofs.
From Verif Require SignalProofs MasterProofs.
From Verif Require Import Base Lts Resp Command Db Engine Log LogSpec Persist PersistSpec PersistProofs Replication Recovery Topic DataChannel Conn ServerSpec Server ServerProofs StopProofs ProgressProofs EndProofs CrashProofs Process Signals Master System.
Import ListNotations.
Local Open Scope nat_scope.
Local Open Scope list_scope.

Definition ext (tr : list System.event) (l : option System.event) : list System.event := match l with None => tr | Some a => tr ++ [a] end.
Lemma runs_ind' d input f (I : list System.event -> system -> Prop) : I [] (System.start d input f) ->
  (forall tr y l y', System.runs d input f tr y -> I tr y -> System.step y l y' -> I (ext tr l) y') -> forall tr y, System.runs d input f tr y -> I tr y.
Proof.
  intros H0 Hs tr y H. unfold System.runs in H. induction H as [|tr s1 s2 H IH St|tr s1 a s2 H IH St]; [exact H0| |].
  - exact (Hs tr s1 None s2 H IH St).
  - exact (Hs tr s1 (Some a) s2 H IH St).
Qed.
Lemma hosts_app x y : hosts (x ++ y) = hosts x ++ hosts y.
Proof. apply flat_map_app. Qed.
Lemma masters_app f x y : masters f (x ++ y) = masters f x ++ flat_map (fun e => match e with YMaster b | YBoth _ b => [b] | YHost _ => [] end) y.
Proof. unfold masters. cbn. now rewrite flat_map_app. Qed.

(* A step of the process that is a flush. *)
Lemma flush_step x x' : Signals.step true x (Some (HProc XFlush)) x' -> exists ws ws', flush (x_file (h_proc x)) ws = (x_file (h_proc x'), ws') /\ x_gone (h_proc x') = p_dead (x_file (h_proc x')).
Proof.
  intros St. inversion St; subst; (destruct l as [l|]; [|discriminate]); cbn in *; (match goal with Q : Some _ = Some _ |- _ => inversion Q; subst end); [|discriminate].
  match goal with Q : Process.step _ _ _ _ |- _ => inversion Q; subst end; cbn; eauto; destruct l; discriminate.
Qed.
Lemma log_step x x' v : Signals.step true x (Some (HProc (XLog v))) x' -> exists d ws ws', pack_log v = Some d /\ write (x_file (h_proc x)) d ws = (x_file (h_proc x'), ws') /\ x_gone (h_proc x') = p_dead (x_file (h_proc x')).
Proof.
  intros St. inversion St; subst; (destruct l as [l|]; [|discriminate]); cbn in *; (match goal with Q : Some _ = Some _ |- _ => inversion Q; subst end); [|discriminate].
  match goal with Q : Process.step _ _ _ _ |- _ => inversion Q; subst end; cbn; eauto 10; destruct l; discriminate.
Qed.
Lemma alone_file x l x' : Signals.step true x l x' -> host_alone l -> x_file (h_proc x') = x_file (h_proc x).
Proof.
  intros St. inversion St as [p l0 p' h P|p|p|p h H|p l0 p' P]; subst; cbn; auto; (destruct P; cbn; auto; try contradiction; try (destruct l; contradiction)).
Qed.

(* The parts. *)
Definition parts d input f (tr : list System.event) (y : system) : Prop :=
  Signals.runs true d input f (hosts tr) (y_host y) /\ Master.runs (masters f tr) (y_mast y) /\ m_file (y_mast y) = Some (y_file y).
Theorem system_parts d input f tr y : System.runs d input f tr y -> parts d input f tr y.
Proof.
  apply (runs_ind' d input f (parts d input f)).
  - split; [apply exec_start|]. split; [|reflexivity]. apply exec_one. split; [reflexivity|]. apply file_. reflexivity.
  - intros tr0 y0 l y' _ (A & B & C) [L M]. unfold parts, y_file in *. destruct M as [x l x' m St H|x m l m' St H Fe|x x' m m' v dd St Pk Sm Fe|x x' m m' h b St Sv Hh Hb Sm Fe|x m m' X Sm|x x' m St X X' So]; cbn [y_host y_mast] in *.
    + split; [|split; [|now rewrite (alone_file _ _ _ St H)]].
      * destruct l as [a|]; cbn [option_map ext]; [rewrite hosts_app; eapply exec_act|eapply exec_tau]; eassumption.
      * destruct l as [a|]; cbn [option_map ext]; [rewrite masters_app; cbn; rewrite app_nil_r|]; exact B.
    + split; [|split; [|congruence]].
      * destruct l as [a|]; cbn [option_map ext]; [rewrite hosts_app; cbn; rewrite app_nil_r|]; exact A.
      * destruct l as [a|]; cbn [option_map ext]; [rewrite masters_app; eapply exec_act|eapply exec_tau]; eassumption.
    + cbn [ext]. rewrite hosts_app, masters_app. split; [eapply exec_act; eassumption|]. split; [eapply exec_act; eassumption|exact Fe].
    + cbn [ext]. rewrite hosts_app, masters_app. split; [eapply exec_act; eassumption|]. split; [eapply exec_act; eassumption|exact Fe].
    + cbn [ext]. rewrite hosts_app, masters_app. change (hosts [YMaster MStop]) with (@nil Signals.event). cbn [flat_map app]. rewrite app_nil_r. split; [exact A|]. split; [eapply exec_act; eassumption|]. destruct Sm as [_ Sm]. inversion Sm; subst. exact C.
    + cbn [ext]. rewrite hosts_app, masters_app. cbn [flat_map app]. rewrite app_nil_r. split; [eapply exec_act; eassumption|]. split; [|reflexivity].
      destruct (flush_step _ _ St) as (ws & ws' & Fl & _). eapply exec_tau; [exact B|]. split; [apply L|]. eapply sync_; eassumption.
Qed.
Corollary proc_part d input f tr y : System.runs d input f tr y -> Process.runs true d input f (of_proc (hosts tr)) (h_proc (y_host y)).
Proof. intros R. apply SignalProofs.proc_runs. apply (system_parts _ _ _ _ _ R). Qed.
Corollary server_part d input f tr y : System.runs d input f tr y -> Server.runs true d input (served (of_proc (hosts tr))) (y_srv y).
Proof. intros R. exact (served_runs _ _ _ _ _ _ (proc_part _ _ _ _ _ R)). Qed.

(* One log. *)
Lemma one_more f tr e : Master.log (masters f tr) = f ++ List.concat (map pack (logged (of_proc (hosts tr)))) ->
  Master.log (flat_map (fun e => match e with YMaster b | YBoth _ b => [b] | YHost _ => [] end) [e]) = List.concat (map pack (logged (of_proc (hosts [e])))) ->
  Master.log (masters f (tr ++ [e])) = f ++ List.concat (map pack (logged (of_proc (hosts (tr ++ [e]))))).
Proof.
  intros A B. rewrite masters_app, hosts_app, SignalProofs.of_app. unfold logged. rewrite flat_map_app, map_app, List.concat_app, app_assoc. unfold logged in A, B. rewrite <- A, <- B. apply flat_map_app.
Qed.
Theorem one_log d input f tr y : System.runs d input f tr y -> Master.log (masters f tr) = f ++ List.concat (map pack (logged (of_proc (hosts tr)))).
Proof.
  apply (runs_ind' d input f (fun tr y => Master.log (masters f tr) = f ++ List.concat (map pack (logged (of_proc (hosts tr)))))); [cbn; now rewrite !app_nil_r|].
  intros tr0 y0 l y' _ I [_ M].
  destruct M as [x l x' m St H|x m l m' St H Fe|x x' m m' v dd St Pk Sm Fe|x x' m m' h b St Sv Hh Hb Sm Fe|x m m' X Sm|x x' m St X X' So]; cbn [ext option_map].
  - destruct l as [a|]; cbn [ext option_map]; [|exact I]. apply (one_more _ _ _ I). destruct a as [b|]; [|reflexivity]. destruct b; try reflexivity. destruct H.
  - destruct l as [a|]; cbn [ext option_map]; [|exact I]. apply (one_more _ _ _ I). destruct a; try reflexivity; destruct H.
  - apply (one_more _ _ _ I). cbn. unfold pack. now rewrite Pk.
  - apply (one_more _ _ _ I). destruct Hb as [-> | ->]; reflexivity.
  - apply (one_more _ _ _ I). reflexivity.
  - apply (one_more _ _ _ I). reflexivity.
Qed.

(* ---- the end of the process ---- *)
Lemma gone_causes cl d input f tr x : Process.runs cl d input f tr x -> x_gone x = true -> In XExit tr \/ p_dead (x_file x) = true.
Proof.
  apply (ProcessProofs.runs_ind' cl d input f (fun tr x => x_gone x = true -> In XExit tr \/ p_dead (x_file x) = true)); [discriminate|].
  intros tr0 x0 l x' _ _ St G. destruct St; cbn [x_gone x_file] in *; try discriminate; auto. left. apply in_app_iff. right. now left.
Qed.
Definition raced (tr : list System.event) : Prop := exists tr', tr = tr' ++ [YMaster MCrash].
Lemma master_crash d input f tr y : System.runs d input f tr y -> m_crash (y_mast y) = true -> p_dead (y_file y) = true \/ raced tr.
Proof.
  apply (runs_ind' d input f (fun tr y => m_crash (y_mast y) = true -> p_dead (y_file y) = true \/ raced tr)); [discriminate|].
  intros tr0 y0 l y' R _ [(_ & _ & L) M] C. destruct (system_parts _ _ _ _ _ R) as (_ & _ & F).
  assert (K : forall a b m, Master.move m a b -> m_crash m = false -> m_crash b = true -> a = Some MCrash \/ exists p, m_file b = Some p /\ p_dead p = true).
  { intros a b m Mm C0 C1. destruct Mm; cbn in C1; try congruence; auto; right; eexists; (split; [reflexivity|exact C1]). }
  destruct M as [x l x' m St H|x m l m' [_ St] H Fe|x x' m m' v dd St Pk [_ Sm] Fe|x x' m m' h b St Sv Hh Hb [_ Sm] Fe|x m m' X [_ Sm]|x x' m St X X' So]; unfold y_file in *; cbn [y_host y_mast] in *; try congruence.
  - destruct (K _ _ _ St L C) as [-> |(p & P & Q)]; [right; exists tr0; reflexivity|left; congruence].
  - destruct (K _ _ _ Sm L C) as [E|(p & P & Q)]; [discriminate|left; congruence].
  - destruct (K _ _ _ Sm L C) as [E|(p & P & Q)]; [destruct Hb; subst; discriminate|left; congruence].
  - destruct (K _ _ _ Sm L C) as [E|(p & P & Q)]; [discriminate|]. inversion Sm; subst. cbn in *. congruence.
  - left. exact C.
Qed.
(* The master is stopped only after a signal. *)
Lemma stop_after_signal d input f tr y : System.runs d input f tr y -> In (YMaster MStop) tr -> In (YHost HSignal) tr.
Proof.
  intros R H. apply in_split in H as (u & v & ->). destruct (exec_split _ _ _ _ _ _ R) as (s1 & s2 & R1 & [L M] & _).
  assert (X : s_stop (y_srv s1) = XShut).
  { inversion M; subst; auto; [|destruct l as [l|]; cbn in *; try discriminate; match goal with Q : Some _ = Some _ |- _ => inversion Q; subst end; contradiction]. destruct l; discriminate. }
  destruct (stop_begun _ _ _ _ _ (server_part _ _ _ _ _ R1)) as (p & Hp); [congruence|]. apply served_in in Hp. apply SignalProofs.of_in in Hp. apply in_split in Hp as (a & b & E).
  destruct (system_parts _ _ _ _ _ R1) as (Sg & _). rewrite E in Sg. pose proof (SignalProofs.stop_signalled _ _ _ _ _ _ _ _ Sg) as Sx.
  apply in_app_iff. left. assert (Hs : In HSignal (hosts u)) by (rewrite E; apply in_app_iff; auto). clear - Hs R1. revert Hs.
  refine (runs_ind' d input f (fun u _ => In HSignal (hosts u) -> In (YHost HSignal) u) _ _ u s1 R1); [intros []|]. intros tr y l y' _ I [_ M] H.
  destruct l as [e|]; cbn [ext] in *; [|auto]. rewrite hosts_app in H. apply in_app_iff in H as [H|H]; [apply in_app_iff; auto|]. apply in_app_iff. right.
  destruct e as [a|b|a b]; cbn in H; [destruct H as [->|[]]; now left|destruct H|]. destruct H as [->|[]]. inversion M; subst; destruct l; discriminate.
Qed.
Lemma host_in tr a : In (YHost a) tr -> In a (hosts tr).
Proof. intros H. apply in_flat_map. exists (YHost a). split; [exact H|now left]. Qed.
Lemma hosts_in d input f tr y a : System.runs d input f tr y -> In a (hosts tr) -> a <> HProc XFlush -> (forall v, a <> HProc (XLog v)) -> In (YHost a) tr.
Proof.
  intros R H N1 N2. revert H. refine (runs_ind' d input f (fun u _ => In a (hosts u) -> In (YHost a) u) _ _ tr y R); [intros []|]. intros tr0 y0 l y' _ I [_ M] H.
  destruct l as [e|]; cbn [ext] in *; [|auto]. rewrite hosts_app in H. apply in_app_iff in H as [H|H]; [apply in_app_iff; auto|]. apply in_app_iff. right.
  destruct e as [b|b|b c]; cbn in H; [destruct H as [->|[]]; now left|destruct H|]. destruct H as [->|[]]. exfalso. inversion M; subst; try (destruct l; discriminate); [eapply N2; reflexivity|apply N1; reflexivity].
Qed.
Lemma masters_in (tr : list System.event) b : In b (flat_map (fun e => match e with YMaster b | YBoth _ b => [b] | YHost _ => [] end) tr) <-> In (YMaster b) tr \/ exists a, In (YBoth a b) tr.
Proof.
  rewrite in_flat_map. split.
  - intros (e & H & X). destruct e as [a|c|a c]; [destruct X|destruct X as [->|[]]; auto|destruct X as [->|[]]; eauto].
  - intros [H|[a H]]; eexists; (split; [exact H|now left]).
Qed.
Theorem ends d input f tr y : System.runs d input f tr y -> ~ live y ->
  (In (YHost (HProc XExit)) tr /\ In (YHost HSignal) tr) \/ p_dead (y_file y) = true \/
  (exists c b, objects (input c) (map snd (reads c (served (of_proc (hosts tr))))) b /\ parse b = PPanic) \/
  (exists c i k q e d', In (SRead c i k q) (served (of_proc (hosts tr))) /\ in_turn d (map hturn (handled (served (of_proc (hosts tr))))) d' /\ handle e d' q = Panic) \/
  (exists x h, tr = x ++ [YMaster MCrash] /\ In (YHost HSignal) x /\ In (YMaster MStop) x /\ ~ In (YMaster MStopped) x /\
     (In (YMaster (MPut h)) x /\ ~ In (YMaster (MPutDone h)) x \/ In (YMaster (MDel h)) x /\ ~ In (YMaster (MDelDone h)) x)).
Proof.
  intros R N. destruct (system_parts _ _ _ _ _ R) as (Sg & Ms & _). unfold live in N.
  destruct (x_gone (h_proc (y_host y))) eqn:G.
  - destruct (gone_causes _ _ _ _ _ _ (proc_part _ _ _ _ _ R) G) as [H|H]; [left|right; left; exact H]. apply SignalProofs.of_in in H.
    assert (X : In (YHost (HProc XExit)) tr) by (eapply hosts_in; eauto; discriminate). split; [exact X|]. apply in_split in H as (a & b & E). rewrite E in Sg. pose proof (SignalProofs.exit_signalled _ _ _ _ _ _ _ Sg) as Z.
    eapply hosts_in; [exact R|rewrite E; apply in_app_iff; auto|discriminate..].
  - destruct (s_crash (y_srv y)) eqn:C.
    + destruct (crash_cause _ _ _ _ _ (server_part _ _ _ _ _ R) C) as [Z|[Z|[Z _]]]; [auto|auto|discriminate].
    + destruct (m_crash (y_mast y)) eqn:D; [|exfalso; apply N; auto]. destruct (master_crash _ _ _ _ _ R D) as [Z|[x ->]]; [auto|]. do 4 right. exists x.
      rewrite masters_app in Ms. destruct (MasterProofs.crash_races _ _ _ Ms) as (_ & A1 & A2 & h & A3). exists h. split; [reflexivity|].
      destruct (exec_split _ _ _ _ _ _ R) as (s1 & s2 & R1 & _).
      assert (Own : forall b, In b (masters f x) -> (forall g, b <> MFile g) -> (forall dd, b <> MLog dd) -> (forall h0, b <> MFlush h0 /\ b <> MFail h0) -> In (YMaster b) x).
      { intros b Hb B1 B2 B3. unfold masters in Hb. destruct Hb as [Hb|Hb]; [exfalso; exact (B1 _ (eq_sym Hb))|]. apply masters_in in Hb as [Hb|[a Hb]]; [exact Hb|]. exfalso.
        apply in_split in Hb as (u & v & ->). destruct (exec_split _ _ _ _ _ _ R1) as (s3 & s4 & _ & [_ M] & _). inversion M; subst; try (destruct l; discriminate); [eapply B2; reflexivity|].
        match goal with H : b = _ \/ _ |- _ => destruct H as [-> | ->] end; [apply (proj1 (B3 _) eq_refl)|apply (proj2 (B3 _) eq_refl)]. }
      assert (Back : forall b, In (YMaster b) x -> In b (masters f x)) by (intros b Hb; right; apply masters_in; auto).
      assert (Q : In (YMaster MStop) x) by (apply Own; [exact A1|discriminate|discriminate|intros h0; split; discriminate]).
      split; [exact (stop_after_signal _ _ _ _ _ R1 Q)|]. split; [exact Q|]. split; [intros H; apply A2; auto|].
      destruct A3 as [[B1 B2]|[B1 B2]]; [left|right]; (split; [apply Own; [exact B1|discriminate|discriminate|intros h0; split; discriminate]|intros H; apply B2; auto]).
Qed.

(* ---- what the parts can do, the program can ---- *)
Lemma set_file_twice m p q : set_file (set_file m p) q = set_file m q.
Proof. reflexivity. Qed.
Lemma set_file_same m p : m_file m = Some p -> m_crash m = p_dead p -> set_file m p = m.
Proof. intros F C. destruct m; cbn in *. unfold set_file. cbn. now subst. Qed.
Lemma goes_on cl x l x' : Signals.step cl x l x' -> (x_gone (h_proc x') = false -> x_gone (h_proc x) = false) /\ (s_crash (x_srv (h_proc x')) = false -> s_crash (x_srv (h_proc x)) = false).
Proof.
  intros St. inversion St as [p l0 p' h P|p|p|p h H|p l0 p' P]; subst; cbn; auto;
    (destruct P as [s l1 s' b p fl a [C M] NH NX|s p fl a c k q t v C G L|s p fl a c k q t C G L|s l1 s' p fl a [C M] Hd|s b p1 v p2 fl a dd ws f' ws' C PL W|s b p1 v p2 fl a C PL|s b p fl a ws f' ws' C W|s s' b p fl a ws f' ws' [C M] X X' W|s b p fl C X|s b p fl C X]; cbn; auto).
Qed.
Lemma not_dead cl d input f tr x : Signals.runs cl d input f tr x -> x_gone (h_proc x) = false -> p_dead (x_file (h_proc x)) = false.
Proof. intros R G. destruct (p_dead (x_file (h_proc x))) eqn:D; [|reflexivity]. pose proof (SignalProofs.alive _ _ _ _ _ _ (SignalProofs.proc_runs _ _ _ _ _ _ R) D). congruence. Qed.
Lemma lift_host d input f tr0 x tr x' : Signals.runs true d input f tr0 x -> exec (Signals.step true) x tr x' -> ~ In (HProc XFlush) tr -> x_gone (h_proc x') = false -> s_crash (x_srv (h_proc x')) = false ->
  forall m, set_file m (x_file (h_proc x)) = m -> exists tr', exec System.step (mkY x m) tr' (mkY x' (set_file m (x_file (h_proc x')))) /\ hosts tr' = tr.
Proof.
  intros R E. induction E as [|tr s1 s2 E IH St|tr s1 a s2 E IH St]; intros N G C m F.
  - exists []. rewrite F. split; [apply exec_start|reflexivity].
  - destruct (goes_on _ _ _ _ St) as [G1 C1]. destruct (IH N (G1 G) (C1 C) m F) as (tr' & E' & H'). exists tr'. split; [|exact H']. eapply exec_tau; [exact E'|].
    rewrite <- (alone_file _ _ _ St I). split; [split; [exact (G1 G)|split; [exact (C1 C)|cbn; rewrite (alone_file _ _ _ St I); exact (not_dead _ _ _ _ _ _ (exec_app _ _ _ _ _ _ R E) (G1 G))]]|]. exact (alone s1 None s2 _ St I).
  - destruct (goes_on _ _ _ _ St) as [G1 C1]. assert (N1 : ~ In (HProc XFlush) tr) by (intros X; apply N, in_app_iff; auto). destruct (IH N1 (G1 G) (C1 C) m F) as (tr' & E' & H').
    assert (L : live (mkY s1 (set_file m (x_file (h_proc s1))))) by (split; [exact (G1 G)|split; [exact (C1 C)|exact (not_dead _ _ _ _ _ _ (exec_app _ _ _ _ _ _ R E) (G1 G))]]).
    assert (Al : host_alone (Some a) -> exists tr', exec System.step (mkY x m) tr' (mkY s2 (set_file m (x_file (h_proc s2)))) /\ hosts tr' = tr ++ [a]).
    { intros Ha. exists (tr' ++ [YHost a]). split; [|rewrite hosts_app, H'; reflexivity]. eapply exec_act; [exact E'|]. split; [exact L|]. rewrite (alone_file _ _ _ St Ha). exact (alone s1 (Some a) s2 _ St Ha). }
    destruct a as [b|]; [|apply Al; exact I]. destruct b as [e|c k q v|v| |]; try (apply Al; exact I); [|exfalso; apply N, in_app_iff; right; now left].
    destruct (log_step _ _ _ St) as (dd & ws & ws' & Pk & W & _). exists (tr' ++ [YBoth (HProc (XLog v)) (MLog dd)]). split; [|rewrite hosts_app, H'; reflexivity].
    eapply exec_act; [exact E'|]. split; [exact L|]. rewrite <- (set_file_twice m (x_file (h_proc s1)) (x_file (h_proc s2))). eapply writes_; [exact St|exact Pk| |reflexivity]. split; [apply L|]. eapply log_; [reflexivity|exact W].
Qed.
(* The master on its own. *)
Definition quietly m l m' : Prop := Master.step m l m' /\ m_file m' = m_file m /\ (master_alone l \/ l = Some MStop).
Lemma lift_master x m tr m' : x_gone (h_proc x) = false -> s_crash (x_srv (h_proc x)) = false -> (In MStop tr -> s_stop (x_srv (h_proc x)) = XShut) -> exec quietly m tr m' -> exec System.step (mkY x m) (map YMaster tr) (mkY x m').
Proof.
  intros G C X E. induction E as [|tr s1 s2 E IH (St & F & A)|tr s1 a s2 E IH (St & F & A)]; [apply exec_start| |].
  - eapply exec_tau; [auto|]. split; [split; [exact G|split; [exact C|exact (proj1 St)]]|]. exact (serves x s1 None s2 St I F).
  - rewrite map_app. eapply exec_act; [apply IH; intros H; apply X, in_app_iff; auto|]. split; [split; [exact G|split; [exact C|exact (proj1 St)]]|].
    destruct A as [A|A]; [exact (serves x s1 (Some a) s2 St A F)|]. inversion A; subst. apply System.stop_master; [apply X, in_app_iff; right; now left|exact St].
Qed.
Tactic Notation "qstep" tactic3(K) "by" tactic3(J) := split; [split; [assumption|K]|split; [reflexivity|J]].
(* the mutex becomes free *)
Lemma frees tr m : Master.runs tr m -> m_crash m = false -> exists z m', exec quietly m z m' /\ m_busy m' = None /\ m_crash m' = false /\ m_file m' = m_file m /\ m_stop m' = m_stop m /\ m_shut m' = m_shut m /\ ~ In MStop z /\
  (forall h, m_h m h = HAsk -> m_h m' h = HAsk) /\ m_open m' = m_open m.
Proof.
  intros R C. destruct (m_busy m) as [g|] eqn:B.
  - pose proof (proj1 (MasterProofs.busy_ok _ _ R g) B) as K. destruct (m_h m g) eqn:G; try discriminate K.
    + exists [MPutDone g]. eexists. split; [apply exec_one; qstep (apply put_done; exact G) by (left; exact I)|]. cbn. repeat (split; [auto; fail|]). split; [intros [X|[]]; discriminate|]. split; [|reflexivity]. intros h Hh. rewrite upd_ne; [exact Hh|congruence].
    + exists [MDelDone g]. eexists. split; [apply exec_one; qstep (apply del_done; exact G) by (left; exact I)|]. cbn. repeat (split; [auto; fail|]). split; [intros [X|[]]; discriminate|]. split; [|reflexivity]. intros h Hh. rewrite upd_ne; [exact Hh|congruence].
  - exists [], m. split; [apply exec_start|]. repeat (split; [auto; fail|]). auto.
Qed.
(* the loop over the connections begins *)
Lemma begins_loop tr m : Master.runs tr m -> m_crash m = false -> m_stop m = SNone -> m_shut m = false ->
  exists z m', exec quietly m z m' /\ In MStop z /\ m_stop m' = SRange (m_conn m') [] /\ m_busy m' = None /\ m_crash m' = false /\ m_file m' = m_file m /\ (forall h, m_h m h = HAsk -> m_h m' h = HAsk).
Proof.
  intros R C S H. destruct (frees _ _ R C) as (z & m1 & E & B1 & C1 & F1 & S1 & H1 & _ & A1 & _). exists (z ++ [MStop]). eexists. split.
  - eapply exec_tau; [eapply exec_tau; [eapply exec_act; [exact E|]|]|].
    + qstep (apply Master.stop_; congruence) by (right; reflexivity).
    + qstep (apply stop_lock; [reflexivity|exact B1]) by (left; exact I).
    + qstep (apply stop_loop; reflexivity) by (left; exact I).
  - split; [apply in_app_iff; right; now left|]. cbn. auto 10.
Qed.
(* it ends *)
Lemma visits l0 : forall m s l, m_crash m = false -> m_stop m = SRange l s -> (forall h, In h l0 -> In h (m_conn m)) ->
  exists z m' s', exec quietly m z m' /\ m_stop m' = SRange l s' /\ m_conn m' = m_conn m /\ (forall h, In h s \/ In h l0 -> In h s') /\ m_crash m' = false /\ m_file m' = m_file m /\ ~ In MStop z.
Proof.
  induction l0 as [|g l0 IH]; intros m s l C S A.
  - exists [], m, s. split; [apply exec_start|]. repeat (split; [auto; fail|]). split; [intros h [X|[]]; exact X|]. auto.
  - destruct (in_dec Nat.eq_dec g s) as [D|D].
    + destruct (IH m s l C S ltac:(intros h Hh; apply A; now right)) as (z & m' & s' & E & S' & K & V & C' & F & N). exists z, m', s'. split; [exact E|]. repeat (split; [auto; fail|]). split; [|auto]. intros h [X|[<-|X]]; apply V; auto.
    + destruct (IH (set_open (set_stop m (SRange l (g :: s))) g false) (g :: s) l C eq_refl ltac:(intros h Hh; apply A; now right)) as (z & m' & s' & E & S' & K & V & C' & F & N). exists (MVisit g :: z), m', s'. split.
      * eapply exec_cons; [|exact E]. qstep (eapply stop_visit; [exact S|apply A; now left|exact D]) by (left; exact I).
      * repeat (split; [auto; fail|]). split; [intros h [X|[<-|X]]; apply V; cbn; auto|]. split; [exact C'|]. split; [exact F|]. intros [X|X]; [discriminate|contradiction].
Qed.
Lemma stops_master tr m : Master.runs tr m -> m_crash m = false -> m_stop m = SNone -> m_shut m = false -> exists z m', exec quietly m z m' /\ m_stop m' = SOver /\ m_crash m' = false /\ m_file m' = m_file m.
Proof.
  intros R C S H. destruct (begins_loop _ _ R C S H) as (z & m1 & E & _ & S1 & _ & C1 & F1 & _). destruct (visits (m_conn m1) m1 [] _ C1 S1 ltac:(auto)) as (z2 & m2 & s2 & E2 & S2 & K2 & V & C2 & F2 & _).
  exists ((z ++ z2) ++ [MStopped]). eexists. split; [eapply exec_act; [eapply exec_app; eassumption|]|].
  - qstep (eapply stop_end; [exact S2|intros h Hh _; apply V; auto]) by (left; exact I).
  - cbn. split; [reflexivity|]. split; [exact C2|congruence].
Qed.
(* Nothing of the master is stopped before the server is. *)
Lemma not_stopped d input f tr y : System.runs d input f tr y -> s_stop (y_srv y) = XNone -> m_stop (y_mast y) = SNone /\ m_shut (y_mast y) = false.
Proof.
  apply (runs_ind' d input f (fun tr y => s_stop (y_srv y) = XNone -> m_stop (y_mast y) = SNone /\ m_shut (y_mast y) = false)); [auto|].
  intros tr0 y0 l y' R I [L M] X.
  assert (Hs : forall a x x', Signals.step true x a x' -> s_stop (x_srv (h_proc x')) = XNone -> s_stop (x_srv (h_proc x)) = XNone).
  { intros a x x' St Z. destruct a as [b|]; [pose proof (SignalProofs.to_server true _ _ _ (exec_one _ _ _ _ St)) as T|pose proof (SignalProofs.to_server true _ _ _ (exec_one_tau _ _ _ St)) as T]; exact (proj1 (SignalProofs.none_before _ _ _ _ T Z)). }
  destruct M as [x l x' m St H|x m l m' [_ St] H Fe|x x' m m' v dd St Pk [_ Sm] Fe|x x' m m' h b St Sv Hh Hb [_ Sm] Fe|x m m' Y [_ Sm]|x x' m St Y X' So]; unfold y_srv in *; cbn [y_host y_mast] in *.
  - apply I. eapply Hs; eassumption.
  - destruct (I X) as [I1 I2]. destruct St; cbn in *; try (split; assumption); try congruence; destruct H.
  - destruct (I (Hs _ _ _ St X)) as [I1 I2]. inversion Sm; subst; auto.
  - destruct (I (Hs _ _ _ St X)) as [I1 I2]. destruct Hb as [-> | ->]; inversion Sm; subst; auto.
  - congruence.
  - congruence.
Qed.

Lemma live_parts y : live y -> x_gone (h_proc (y_host y)) = false /\ s_crash (x_srv (h_proc (y_host y))) = false /\ m_crash (y_mast y) = false.
Proof. auto. Qed.
Lemma in_step d input f tr y : System.runs d input f tr y -> live y -> set_file (y_mast y) (x_file (h_proc (y_host y))) = y_mast y.
Proof.
  intros R (G & _ & C). destruct (system_parts _ _ _ _ _ R) as (Sg & _ & F). apply set_file_same; [exact F|]. rewrite C. symmetry. eapply not_dead; eassumption.
Qed.
Lemma no_flush_in tr (h : Signals.handler) : SignalProofs.still tr -> ~ In (HProc XFlush) ((if match h with HWaits => true | _ => false end then [HSignal] else []) ++ map HProc tr).
Proof. intros [S _] X. apply in_app_iff in X as [X|X]; [destruct h; cbn in X; intuition discriminate|]. apply in_map_iff in X as (a & E & X). inversion E; subst. contradiction. Qed.
Lemma signal_in y w y' : exec System.step y w y' -> In HSignal (hosts w) -> In (YHost HSignal) w.
Proof.
  induction 1 as [|tr0 s1 s2 E IH [_ M]|tr0 s1 e s2 E IH [_ M]]; [intros []|exact IH|]. intros H. rewrite hosts_app in H. apply in_app_iff. apply in_app_iff in H as [H|H]; [left; auto|right].
  destruct e as [b0|b0|b0 c0]; cbn in H; [destruct H as [->|[]]; now left|destruct H|]. destruct H as [->|[]]. exfalso. inversion M; subst; destruct l; discriminate.
Qed.
(* The program can end while replicas are served, with its records in the file. *)
Theorem system_ends d input f tr y : System.runs d input f tr y -> live y -> h_sig (y_host y) = HWaits -> s_stop (y_srv y) = XNone -> unblocked (y_srv y) ->
  exists tr' y', exec System.step y tr' y' /\ In (YHost HSignal) tr' /\ In (YHost (HProc XExit)) tr' /\ x_gone (h_proc (y_host y')) = true /\ x_pend (h_proc (y_host y')) = [] /\
    (p_err (y_file y) = false -> p_err (y_file y') = false /\ p_file (y_file y') = f ++ List.concat (map pack (logged (of_proc (hosts (tr ++ tr')))))).
Proof.
  intros R L W X U. pose proof (in_step _ _ _ _ _ R L) as F. destruct (system_parts _ _ _ _ _ R) as (Sg & _). destruct (not_stopped _ _ _ _ _ R X) as [Ms1 Ms2]. pose proof L as (G & C & Cm).
  destruct y as [[x h] m]. unfold y_file, y_srv in *. cbn [y_host y_mast h_proc h_sig] in *. subst h.
  destruct (SignalProofs.can_shut _ _ _ _ _ _ Sg G C X U (or_introl eq_refl)) as (w & s & b & f4 & a & E & Sw & X3 & W3 & C3 & D4 & Er4).
  destruct (lift_host _ _ _ _ _ _ _ Sg E (no_flush_in _ HWaits Sw) eq_refl C3 m F) as (w' & E1 & H1). cbn [h_proc x_file] in E1. set (m1 := set_file m f4) in *.
  pose proof (exec_app _ _ _ _ _ _ R E1) as R1. destruct (system_parts _ _ _ _ _ R1) as (Sg1 & Rm1 & _). cbn [y_mast y_host] in *.
  destruct (stops_master _ m1 Rm1 D4 Ms1 Ms2) as (z & m2 & E2 & S2 & C2 & F2).
  pose proof (lift_master (mkH (mkX s b [] f4 a false) HStops) m1 z m2 eq_refl C3 (fun _ => X3) E2) as E2'.
  destruct (SignalProofs.flushes_out s b f4 a X3 C3 D4) as (f5 & St & D5 & Er5).
  set (s5 := Server.set_stop s XFlushed (s_reqs s) (s_rsps s)) in *.
  assert (St' : System.step (mkY (mkH (mkX s b [] f4 a false) HStops) m2) (Some (YHost (HProc XFlush))) (mkY (mkH (mkX s5 b [] f5 a false) HStops) (set_file m2 f5))).
  { split; [split; [reflexivity|split; [exact C3|exact C2]]|]. apply (System.stop_flush _ (mkH (mkX s5 b [] f5 a false) HStops)); [exact (proceeds true _ (Some XFlush) _ HStops St eq_refl)|exact X3|reflexivity|exact S2]. }
  assert (Ex : exec System.step (mkY (mkH (mkX s5 b [] f5 a false) HStops) (set_file m2 f5)) [YHost (HProc XExit)] (mkY (mkH (mkX s5 b [] f5 false true) HStops) (set_file m2 f5))).
  { destruct a.
    - eapply exec_cons_tau; [split; [split; [reflexivity|split; [exact C3|exact D5]]|exact (alone _ None _ _ (proceeds true _ None _ HStops (accept_ends true s5 b [] f5 C3 I) eq_refl) I)]|].
      apply exec_one. split; [split; [reflexivity|split; [exact C3|exact D5]]|]. exact (alone _ (Some (HProc XExit)) _ _ (proceeds true _ (Some XExit) _ HStops (exits true s5 b [] f5 C3 W3) eq_refl) I).
    - apply exec_one. split; [split; [reflexivity|split; [exact C3|exact D5]]|]. exact (alone _ (Some (HProc XExit)) _ _ (proceeds true _ (Some XExit) _ HStops (exits true s5 b [] f5 C3 W3) eq_refl) I). }
  pose proof (exec_app _ _ _ _ _ _ E1 E2') as E3. pose proof (exec_act _ _ _ _ _ _ E3 St') as E4. pose proof (exec_app _ _ _ _ _ _ E4 Ex) as E5.
  exists (((w' ++ map YMaster z) ++ [YHost (HProc XFlush)]) ++ [YHost (HProc XExit)]). eexists. split; [exact E5|].
  split; [|split; [apply in_app_iff; right; now left|]].
  { apply in_app_iff. left. apply in_app_iff. left. apply in_app_iff. left.
    eapply signal_in; [exact E1|rewrite H1; now left]. }
  split; [reflexivity|]. split; [reflexivity|]. intros Er. split; [cbn; congruence|]. cbn [y_host h_proc x_file].
  pose proof (proc_part _ _ _ _ _ (exec_app _ _ _ _ _ _ R E3)) as P3. cbn [y_host h_proc] in P3. pose proof (SignalProofs.flushed_all _ _ _ _ _ _ P3 St) as Fl. cbn [x_file] in Fl. rewrite Fl by congruence. unfold stream. do 3 f_equal.
  rewrite !hosts_app, !SignalProofs.of_app. unfold logged. rewrite !flat_map_app. cbn. now rewrite !app_nil_r.
Qed.
(* If a replica connects just then, it crashes, with nothing more in the file than before. *)
Theorem system_races d input f tr y h : System.runs d input f tr y -> live y -> h_sig (y_host y) = HWaits -> s_stop (y_srv y) = XNone -> unblocked (y_srv y) -> m_h (y_mast y) h = HAsk ->
  exists tr' y', exec System.step y (tr' ++ [YMaster MCrash]) y' /\ In (YHost HSignal) tr' /\ In (YMaster (MPut h)) tr' /\ m_crash (y_mast y') = true /\ y_file y' = y_file y.
Proof.
  intros R L W X U A. pose proof (in_step _ _ _ _ _ R L) as F. destruct (system_parts _ _ _ _ _ R) as (Sg & _). destruct (not_stopped _ _ _ _ _ R X) as [Ms1 Ms2]. pose proof L as (G & C & Cm).
  destruct y as [[x h0] m]. unfold y_file, y_srv in *. cbn [y_host y_mast h_proc h_sig] in *. subst h0.
  destruct (SignalProofs.can_shut_raw _ _ _ _ _ _ Sg G C X U (or_introl eq_refl)) as (w & s & b & p & a & E & Sw & X3 & W3 & C3).
  destruct (lift_host _ _ _ _ _ _ _ Sg E (no_flush_in _ HWaits Sw) eq_refl C3 m F) as (w' & E1 & H1). cbn [h_proc x_file] in E1. rewrite F in E1.
  pose proof (exec_app _ _ _ _ _ _ R E1) as R1. destruct (system_parts _ _ _ _ _ R1) as (Sg1 & Rm1 & _). cbn [y_mast y_host] in *.
  destruct (begins_loop _ m Rm1 Cm Ms1 Ms2) as (z & m2 & E2 & _ & S2 & B2 & C2 & F2 & A2).
  assert (E3 : exec quietly m (z ++ [MPut h]) (set_map (set_h m2 h HPut) (m_conn m2) (Some h))).
  { eapply exec_act; [exact E2|]. qstep (apply put; [apply A2; exact A|exact B2]) by (left; exact I). }
  assert (exists m3, exec quietly m ((z ++ [MPut h]) ++ [MCrash]) m3 /\ m_crash m3 = true) as (m3 & E4 & C4).
  { eexists. split; [eapply exec_act; [exact E3|split; [split; [exact C2|eapply stop_race; [exact S2|reflexivity]]|split; [reflexivity|left; exact I]]]|reflexivity]. }
  pose proof (lift_master (mkH (mkX s b p (x_file x) a false) HStops) m _ _ eq_refl C3 (fun _ => X3) E4) as E5. rewrite map_app in E5.
  exists (w' ++ map YMaster (z ++ [MPut h])). eexists. split; [rewrite <- app_assoc; eapply exec_app; [exact E1|exact E5]|]. split; [apply in_app_iff; left; eapply signal_in; [exact E1|rewrite H1; now left]|]. split; [|split; [exact C4|reflexivity]].
  apply in_app_iff. right. rewrite map_app. apply in_app_iff. right. now left.
Qed.
Lemma lift_quiet m tr m' : exec quietly m tr m' -> exec Master.step m tr m'.
Proof. induction 1 as [|tr s1 s2 E IH (St & _)|tr s1 a s2 E IH (St & _)]; [apply exec_start|eapply exec_tau; eassumption|eapply exec_act; eassumption]. Qed.
Lemma hosts_masters l : hosts (map YMaster l) = [].
Proof. induction l as [|e l IH]; [reflexivity|exact IH]. Qed.
(* A replica that has connected can be sent all that was logged. *)
Theorem can_serve d input f tr y h : System.runs d input f tr y -> live y -> m_h (y_mast y) h = HAsk -> m_open (y_mast y) h = true -> p_err (y_file y) = false ->
  exists tr' y', exec System.step y tr' y' /\ live y' /\ In (YMaster (MDelDone h)) tr' /\ hosts tr' = [HProc XFlush] /\ Master.sent h (masters f (tr ++ tr')) = replica_stream (f ++ List.concat (map pack (logged (of_proc (hosts tr))))).
Proof.
  intros R L A O Er. pose proof (in_step _ _ _ _ _ R L) as F. destruct (system_parts _ _ _ _ _ R) as (Sg & Rm & Fm). pose proof L as (G & C & Cm).
  destruct y as [x m]. unfold y_file, y_srv in *. cbn [y_host y_mast] in *.
  destruct (frees _ _ Rm Cm) as (z & m1 & E1 & B1 & C1 & F1 & _ & _ & Nz & A1 & O1).
  set (ma := set_map (set_h m1 h HPut) (m_conn m1) (Some h)). set (m2 := set_map (set_h ma h HFlush) (h :: m_conn ma) None).
  assert (E2 : exec quietly m ((z ++ [MPut h]) ++ [MPutDone h]) m2).
  { eapply exec_act; [eapply exec_act; [exact E1|]|].
    - qstep (apply put; [apply A1; exact A|exact B1]) by (left; exact I).
    - qstep (apply put_done; cbn; apply upd_eq) by (left; exact I). }
  assert (M2h : m_h m2 h = HFlush) by (cbn; apply upd_eq). assert (M2f : m_file m2 = Some (x_file (h_proc x))) by (cbn; congruence). assert (M2o : m_open m2 h = true) by (cbn; congruence).
  assert (Nz2 : ~ In MStop ((z ++ [MPut h]) ++ [MPutDone h])) by (rewrite !in_app_iff; cbn; intuition discriminate).
  pose proof (lift_master x m _ m2 G C (fun X => False_ind _ (Nz2 X)) E2) as E2'.
  (* the flush *)
  destruct (SignalProofs.flush_live _ (not_dead _ _ _ _ _ _ Sg G)) as [D5 Er5]. destruct (flush (x_file (h_proc x)) []) as [f5 w5] eqn:Fl. cbn in D5, Er5. rewrite Er in Er5.
  destruct x as [[s b p pf a g] hs]. cbn [h_proc x_file x_gone x_srv] in *. subst g.
  assert (St : Process.step true (mkX s b p pf a false) (Some XFlush) (mkX s b p f5 a false)) by (pose proof (flushes true s b p pf a [] f5 w5 C Fl) as Q; rewrite D5 in Q; exact Q).
  set (m3 := set_file (set_h m2 h (HCopy [])) f5).
  assert (St' : System.step (mkY (mkH (mkX s b p pf a false) hs) m2) (Some (YBoth (HProc XFlush) (MFlush h))) (mkY (mkH (mkX s b p f5 a false) hs) m3)).
  { split; [split; [reflexivity|split; [exact C|exact C1]]|]. apply (flush_for _ (mkH (mkX s b p f5 a false) hs) _ _ h (MFlush h)); [exact (proceeds true _ (Some XFlush) _ hs St eq_refl)|reflexivity|exact M2h|left; reflexivity| |reflexivity].
    split; [exact C1|]. eapply flush_ok_; [exact M2h|exact M2f|exact Fl|exact Er5]. }
  assert (Fi : p_file f5 = stream f (logged (of_proc (hosts tr)))).
  { pose proof (SignalProofs.flushed_all _ _ _ _ _ _ (proc_part _ _ _ _ _ R) St) as Q. cbn [x_file] in Q. exact (Q Er5). }
  remember (p_file f5) as t eqn:Et.
  (* the copy *)
  assert (exists m4, exec quietly m3 [] m4 /\ m_h m4 h = HCopy t /\ m_file m4 = Some f5 /\ m_crash m4 = false /\ m_open m4 h = true /\ m_busy m4 = None) as (m4 & E4 & H4 & F4 & C4 & O4 & B4).
  { destruct t as [|c t'].
    - exists m3. split; [apply exec_start|]. cbn. rewrite !upd_eq. auto.
    - exists (set_h m3 h (HCopy (c :: t'))). split; [|cbn; rewrite !upd_eq; auto]. apply exec_one_tau.
      pose proof (copy m3 h [] f5 (List.length (p_file f5))) as Q. rewrite firstn_all, <- Et in Q. split; [split; [exact D5|apply Q; [cbn; apply upd_eq|reflexivity|cbn; lia]]|]. split; [reflexivity|left; exact I]. }
  set (m5 := set_h (set_h (set_h m4 h (HHead t)) h (HBody t)) h HDone).
  set (m6 := set_map (set_h m5 h HDel) (m_conn m5) (Some h)). set (m7 := set_map (set_h m6 h HClose) (List.remove Nat.eq_dec h (m_conn m6)) None).
  assert (E5 : exec quietly m4 [MCopied h; MOut h (le32 (blen t)); MOut h t; MDel h; MDelDone h] m7).
  { eapply exec_cons; [qstep (eapply copied; [exact H4|exact F4|now rewrite Et]) by (left; exact I)|].
    eapply exec_cons; [qstep (apply head; [cbn; apply upd_eq|exact O4]) by (left; exact I)|].
    eapply exec_cons; [qstep (apply body; [cbn; apply upd_eq|exact O4]) by (left; exact I)|].
    eapply exec_cons; [qstep (apply del; [cbn; apply upd_eq|exact B4]) by (left; exact I)|].
    eapply exec_one. qstep (apply del_done; cbn; apply upd_eq) by (left; exact I). }
  assert (N5 : ~ In MStop [MCopied h; MOut h (le32 (blen t)); MOut h t; MDel h; MDelDone h]) by (cbn; intuition discriminate).
  pose proof (lift_master (mkH (mkX s b p f5 a false) hs) m3 _ _ eq_refl C (fun X => False_ind _ (N5 X)) (exec_app _ _ _ _ _ _ E4 E5)) as E6. cbn [app map] in E6.
  eexists. eexists. split; [eapply exec_app; [eapply exec_act; [exact E2'|exact St']|exact E6]|].
  split; [split; [reflexivity|split; [exact C|exact C4]]|]. split; [rewrite !in_app_iff; right; cbn; auto 10|]. split; [rewrite !hosts_app, hosts_masters; reflexivity|].
  assert (Sz : Master.sent h (masters f tr) = [] /\ Master.sent h z = []).
  { split.
    - pose proof (MasterProofs.runs_hand _ _ Rm h) as Q. unfold MasterProofs.hand in Q. rewrite A in Q. tauto.
    - pose proof (exec_app _ _ _ _ _ _ Rm (lift_quiet _ _ _ E1)) as Rz. pose proof (MasterProofs.runs_hand _ _ Rz h) as Q. unfold MasterProofs.hand in Q. rewrite (A1 _ A) in Q. destruct Q as [Q _]. unfold Master.sent in *. rewrite flat_map_app in Q. now apply app_eq_nil in Q. }
  destruct Sz as [S1 S2]. rewrite masters_app. unfold Master.sent in *. rewrite flat_map_app, S1. cbn [app]. rewrite !flat_map_app. rewrite !map_app, !flat_map_app.
  assert (Hz : forall l : list Master.event, flat_map (fun e => match e with YMaster b0 | YBoth _ b0 => [b0] | YHost _ => [] end) (map YMaster l) = l) by (induction l as [|e l IH]; [reflexivity|cbn; now rewrite IH]).
  rewrite Hz, S2. cbn. rewrite !Nat.eqb_refl, !app_nil_r. unfold replica_stream. now rewrite Fi.
Qed.

(* The flush of the stop comes when the master has stopped. *)
Lemma over_stopped tr m : Master.runs tr m -> m_stop m = SOver -> In MStopped tr.
Proof.
  revert tr m. apply (MasterProofs.runs_ind' (fun tr m => m_stop m = SOver -> In MStopped tr)); [intros H; vm_compute in H; congruence|]. intros tr m l m' R I M X.
  assert (m_stop m = SOver \/ l = Some MStopped) as [Y| ->]; [destruct M; cbn in X; auto; congruence|apply MasterProofs.in_ext; auto|]. cbn. apply in_app_iff. right. now left.
Qed.
Lemma flush_last d input f u v y : System.runs d input f (u ++ YHost (HProc XFlush) :: v) y -> In (YMaster MStopped) u /\ In (YHost HSignal) u.
Proof.
  intros R. destruct (exec_split _ _ _ _ _ _ R) as (s1 & s2 & R1 & [L M] & _).
  assert (X : m_stop (y_mast s1) = SOver).
  { inversion M; subst; auto; try discriminate; destruct l as [l|]; cbn in *; try discriminate; match goal with Q : Some _ = Some _ |- _ => inversion Q; subst end; contradiction. }
  assert (In (YMaster MStopped) u) as S.
  { destruct (system_parts _ _ _ _ _ R1) as (_ & Rm & _). pose proof (over_stopped _ _ Rm X) as H. unfold masters in H. destruct H as [H|H]; [discriminate|]. apply masters_in in H as [H|[a H]]; [exact H|].
    exfalso. clear - R1 H. revert H. refine (runs_ind' d input f (fun u _ => In (YBoth a MStopped) u -> False) _ _ u s1 R1); [intros []|]. intros tr y l y' _ I [_ M] H.
    destruct l as [e|]; cbn [ext] in *; [|auto]. apply in_app_iff in H as [H|[->|[]]]; [auto|]. inversion M; subst; try (destruct l; discriminate). match goal with Q : _ \/ _ |- _ => destruct Q; discriminate end. }
  split; [exact S|]. apply (stop_after_signal d input f u s1 R1).
  destruct (system_parts _ _ _ _ _ R1) as (_ & Rm & _).
  assert (Y : In MStop (masters f u)) by (eapply MasterProofs.stop_called; [exact Rm|congruence]). destruct Y as [Y|Y]; [discriminate|]. apply masters_in in Y as [Y|[a Y]]; [exact Y|].
  exfalso. clear - R1 Y. revert Y. refine (runs_ind' d input f (fun u _ => In (YBoth a MStop) u -> False) _ _ u s1 R1); [intros []|]. intros tr y l y' _ I [_ M] H.
  destruct l as [e|]; cbn [ext] in *; [|auto]. apply in_app_iff in H as [H|[->|[]]]; [auto|]. inversion M; subst; try (destruct l; discriminate). match goal with Q : _ \/ _ |- _ => destruct Q; discriminate end.
Qed.
