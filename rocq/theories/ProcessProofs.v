(* Invariants of the whole process. *)
From Coq Require Import List Bool Arith Lia String ZArith Permutation.
From Verif Require Import Base Lts Resp Command Db Engine Log LogSpec LogProofs Persist PersistSpec PersistProofs Recovery Topic DataChannel Conn ServerSpec Server ServerProofs Process.
Import ListNotations.
Local Open Scope nat_scope.

Notation runs := Process.runs.
Definition ext (tr : list Process.event) (l : option Process.event) : list Process.event := match l with None => tr | Some a => tr ++ [a] end.
Lemma runs_ind' cl d input f (I : list Process.event -> process -> Prop) : I [] (start d input f) ->
  (forall tr x l x', runs cl d input f tr x -> I tr x -> Process.step cl x l x' -> I (ext tr l) x') -> forall tr x, runs cl d input f tr x -> I tr x.
Proof.
  intros H0 Hs tr x H. unfold runs in H. induction H as [|tr s1 s2 H IH St|tr s1 a s2 H IH St]; [exact H0| |].
  - exact (Hs tr s1 None s2 H IH St).
  - exact (Hs tr s1 (Some a) s2 H IH St).
Qed.
Definition one {B} (f : Process.event -> list B) (l : option Process.event) : list B := match l with Some a => f a | None => [] end.
Lemma flat_one {B} (f : Process.event -> list B) tr l : flat_map f (ext tr l) = flat_map f tr ++ one f l.
Proof. destruct l; cbn; [|now rewrite app_nil_r]. rewrite flat_map_app. cbn. now rewrite app_nil_r. Qed.

(* The server's part of a run is a run of the server. *)
Theorem served_runs cl d input f tr x : runs cl d input f tr x -> Server.runs cl d input (served tr) (x_srv x).
Proof.
  apply (runs_ind' cl d input f (fun tr x => Server.runs cl d input (served tr) (x_srv x))); [apply exec_start|].
  intros tr0 x0 l x' _ I St. unfold served in *. rewrite flat_one. destruct St; cbn [x_srv one] in *; rewrite ?app_nil_r; try exact I.
  - destruct l as [e|]; cbn; rewrite ?app_nil_r; [eapply exec_act|eapply exec_tau]; eassumption.
  - destruct l as [e|]; cbn; rewrite ?app_nil_r; [eapply exec_act|eapply exec_tau]; eassumption.
  - eapply exec_tau; eassumption.
Qed.

(* The file. *)
Definition stream (f : bytes) (vs : list vlog) : bytes := f ++ List.concat (map pack vs).
Lemma file_inv cl d input f tr x : runs cl d input f tr x -> PersistProofs.inv (x_file x) (stream f (logged tr)).
Proof.
  apply (runs_ind' cl d input f (fun tr x => PersistProofs.inv (x_file x) (stream f (logged tr)))).
  - cbn. unfold stream. cbn. rewrite app_nil_r. apply inv_open.
  - intros tr0 x0 l x' _ I St. unfold logged, stream in *. rewrite flat_one. destruct St; cbn [x_file one] in *; rewrite ?app_nil_r; try exact I.
    + destruct l; cbn; now rewrite ?app_nil_r.
    + destruct l; cbn; now rewrite ?app_nil_r.
    + rewrite map_app, List.concat_app, app_assoc. cbn. rewrite app_nil_r. pose proof (write_ok _ ws _ d0 I) as W. rewrite H1 in W. unfold pack. rewrite H0. apply W.
    + pose proof (flush_ok _ ws _ I) as W. rewrite H0 in W. apply W.
    + pose proof (flush_ok _ ws _ I) as W. rewrite H2 in W. apply W.
Qed.
Theorem file_prefix cl d input f tr x : runs cl d input f tr x -> begins (p_file (x_file x)) (stream f (logged tr)).
Proof. intros R. apply (file_inv _ _ _ _ _ _ R). Qed.
Lemma write_err p ws d : p_err p = true -> write p d ws = (p, ws).
Proof. intros E. unfold write. now rewrite E. Qed.
Lemma flush_err p ws : p_err p = true -> flush p ws = (p, ws).
Proof. intros E. unfold flush. now rewrite E. Qed.
Lemma step_grows cl d input f tr x l x' : runs cl d input f tr x -> Process.step cl x l x' -> begins (p_file (x_file x)) (p_file (x_file x')) /\ (p_err (x_file x) = true -> p_err (x_file x') = true).
Proof.
  intros R St. pose proof (file_inv _ _ _ _ _ _ R) as I. destruct St; cbn [x_file] in *; auto using begins_refl.
  - pose proof (write_ok _ ws _ d0 I) as W. rewrite H1 in W. split; [apply W|]. intros E. rewrite (write_err _ _ _ E) in H1. congruence.
  - pose proof (flush_ok _ ws _ I) as W. rewrite H0 in W. split; [apply W|]. intros E. rewrite (flush_err _ _ E) in H0. congruence.
  - pose proof (flush_ok _ ws _ I) as W. rewrite H2 in W. split; [apply W|]. intros E. rewrite (flush_err _ _ E) in H2. congruence.
Qed.
Lemma later_grows cl d input f tr x : runs cl d input f tr x -> forall tr' x', exec (Process.step cl) x tr' x' -> begins (p_file (x_file x)) (p_file (x_file x')) /\ (p_err (x_file x) = true -> p_err (x_file x') = true).
Proof.
  intros R tr' x' E. induction E as [|tr1 s1 s2 E IH St|tr1 s1 a s2 E IH St]; [auto using begins_refl| |]; destruct IH as [A B];
    (destruct (step_grows _ _ _ _ _ _ _ _ (exec_app _ _ _ _ _ _ R E) St) as [C D]); (split; [exact (begins_trans _ _ _ A C)|auto]).
Qed.
Theorem flushed cl d input f y z x : runs cl d input f (y ++ XFlush :: z) x -> p_err (x_file x) = false -> begins (stream f (logged y)) (p_file (x_file x)).
Proof.
  intros R E. destruct (exec_split _ _ _ _ _ _ R) as (s1 & s2 & R1 & St & R2).
  assert (R1' : runs cl d input f (y ++ [XFlush]) s2) by (eapply exec_act; eassumption).
  destruct (later_grows _ _ _ _ _ _ R1' _ _ R2) as [A B]. eapply begins_trans; [|exact A].
  pose proof (file_inv _ _ _ _ _ _ R1) as I.
  assert (E2 : p_err (x_file s2) = false) by (destruct (p_err (x_file s2)); [rewrite B in E by reflexivity; discriminate|reflexivity]).
  inversion St; subst; cbn [x_file] in *; try (destruct l; discriminate).
  - match goal with H : flush _ ?ws = _ |- _ => pose proof (flush_ok _ ws _ I) as W; rewrite H in W end. destruct W as (_ & _ & W). rewrite (proj1 (W E2)). apply begins_refl.
  - match goal with H : flush _ ?ws = _ |- _ => pose proof (flush_ok _ ws _ I) as W; rewrite H in W end. destruct W as (_ & _ & W). rewrite (proj1 (W E2)). apply begins_refl.
Qed.

(* The records. *)
Theorem records_kept cl d input f tr x : runs cl d input f tr x -> exists dropped, Permutation (spawned tr) (logged tr ++ x_pend x ++ dropped) /\ Forall (fun v => pack_log v = None) dropped.
Proof.
  apply (runs_ind' cl d input f (fun tr x => exists dropped, Permutation (spawned tr) (logged tr ++ x_pend x ++ dropped) /\ Forall (fun v => pack_log v = None) dropped)).
  - exists []. split; [apply perm_nil|constructor].
  - intros tr0 x0 l x' _ (dr & I & D) St. unfold logged, spawned in *. rewrite !flat_one. destruct St; cbn [x_pend one option_map] in *; rewrite ?app_nil_r; try (now exists dr).
    + exists dr. destruct l; cbn; rewrite ?app_nil_r; auto.
    + exists dr. split; [|exact D]. rewrite I, <- !app_assoc. do 2 apply Permutation_app_head. apply Permutation_app_comm.
    + exists dr. destruct l; cbn; rewrite ?app_nil_r; auto.
    + exists dr. split; [|exact D]. rewrite I. rewrite <- !app_assoc. apply Permutation_app_head. cbn. symmetry. apply Permutation_middle.
    + exists (v :: dr). split; [|constructor; auto]. rewrite I. apply Permutation_app_head. rewrite <- !app_assoc. apply Permutation_app_head. cbn. apply Permutation_middle.
Qed.
Lemma has_read cl d input tr s c k q : Server.runs cl d input tr s -> s_eng s = EHas c k q -> exists i, In (SRead c i k q) tr.
Proof.
  intros R E. assert (G : In (c, k, q) (got tr)) by (rewrite (runs_eng _ _ _ _ _ R), E; apply in_app_iff; right; now left).
  destruct (got_pub _ _ _ _ _ _ _ _ R G) as (p & P). destruct (proj1 (runs_pubs _ _ _ _ _ R) _ _ _ _ P) as [Q _]. apply reads_in. exact Q.
Qed.
Lemma served_in tr a : In a (served tr) <-> In (XSrv a) tr.
Proof.
  unfold served. rewrite in_flat_map. split.
  - intros (b & Hb & X). destruct b; try easy. destruct X as [->|[]]. exact Hb.
  - intros H. eexists. split; [exact H|now left].
Qed.
Theorem spawn_read cl d input f y c k q v z x : runs cl d input f (y ++ XSpawn c k q v :: z) x -> (exists i, In (XSrv (SRead c i k q)) y) /\ exists t, log_of t q = Some v.
Proof.
  intros R. destruct (exec_split _ _ _ _ _ _ R) as (s1 & s2 & R1 & St & _). pose proof (served_runs _ _ _ _ _ _ R1) as S.
  inversion St; subst; try (destruct l; discriminate). cbn [x_srv] in S. split; [|eauto].
  edestruct has_read as (i & Hi); [exact S|eassumption|]. exists i. now apply served_in.
Qed.
Definition spawn_key (a : Process.event) : list (nat * nat) := match a with XSpawn c k _ _ => [(c, k)] | _ => [] end.
Lemma step_has cl s l s' c k q : move cl s l s' -> s_eng s = EHas c k q -> (exists e o, l = Some (SHandle c k e q o)) \/ s_eng s' = EHas c k q.
Proof. intros M E. destruct M; cbn; try congruence; auto. left. assert (c0 = c /\ k0 = k /\ q0 = q) as (-> & -> & ->) by (split; [|split]; congruence). eauto. Qed.
Lemma not_handles l c k e q o : ~ handles l -> l <> Some (SHandle c k e q o).
Proof. intros N ->. apply N. exact I. Qed.
Definition once_inv (tr : list Process.event) (x : process) : Prop :=
  (x_spawned x = true -> exists c k q, s_eng (x_srv x) = EHas c k q) /\
  NoDup (flat_map spawn_key tr) /\
  (forall c k, In (c, k) (flat_map spawn_key tr) -> (exists e q o, In (SHandle c k e q o) (served tr)) \/ (x_spawned x = true /\ exists q, s_eng (x_srv x) = EHas c k q)) /\
  (forall c k q, x_spawned x = true -> s_eng (x_srv x) = EHas c k q -> (exists t v, log_of t q = Some v) -> exists v', In (XSpawn c k q v') tr) /\
  (forall c k e q o, In (XSrv (SHandle c k e q o)) tr -> (exists t v, log_of t q = Some v) -> exists v', before tr (XSpawn c k q v') (XSrv (SHandle c k e q o))).
Lemma in_ext tr l a : In a tr -> In a (ext tr l).
Proof. destruct l; cbn; auto. intros H. apply in_app_iff. auto. Qed.
Lemma before_ext tr l a b : before tr a b -> before (ext tr l) a b.
Proof. destruct l; cbn; auto. intros H. apply before_snoc. auto. Qed.
Lemma in_ext_inv tr l a : In a (ext tr l) -> In a tr \/ l = Some a.
Proof. destruct l; cbn; auto. intros H. apply in_app_iff in H as [H|[->|[]]]; auto. Qed.
Lemma log_of_stamp t t' q v : log_of t q = Some v -> exists v', log_of t' q = Some v'.
Proof. unfold log_of. destruct q; try discriminate; destruct l as [|o args]; try discriminate. destruct (str_arg o); [|discriminate]. destruct (new_command _ _); [|discriminate]. destruct (is_modify _); [|discriminate]. eauto. Qed.
Lemma once_step cl d input f tr x l x' : runs cl d input f tr x -> once_inv tr x -> Process.step cl x l x' -> once_inv (ext tr l) x'.
Proof.
  intros R (A & B & C & D & E) St. pose proof (served_runs _ _ _ _ _ _ R) as S.
  (* the steps that leave the engine and its request alone *)
  assert (Frame : one spawn_key l = [] -> x_spawned x' = x_spawned x -> (forall c k e q o, l <> Some (XSrv (SHandle c k e q o))) ->
    (forall c k q, s_eng (x_srv x) = EHas c k q -> s_eng (x_srv x') = EHas c k q) -> once_inv (ext tr l) x').
  { intros N F H G. unfold once_inv. rewrite flat_one, N, app_nil_r, F. split; [|split; [exact B|split; [|split]]].
    - intros X. destruct (A X) as (c & k & q & Q). eauto.
    - intros c k X. destruct (C c k X) as [(e & q & o & Y)|(Y & q & Z)]; [left|right; eauto]. exists e, q, o. apply served_in in Y. apply served_in. now apply in_ext.
    - intros c k q X Y Z. destruct (A X) as (c1 & k1 & q1 & Q). pose proof (G _ _ _ Q) as Q'. rewrite Y in Q'. assert (c1 = c /\ k1 = k /\ q1 = q) as (-> & -> & ->) by (split; [|split]; congruence).
      destruct (D _ _ _ X Q Z) as (v' & W). exists v'. now apply in_ext.
    - intros c k e q o X Z. apply in_ext_inv in X as [X|X]; [|now apply H in X]. destruct (E _ _ _ _ _ X Z) as (v' & W). exists v'. now apply before_ext. }
  destruct St as [s l s' b p fl a [_ M] NH _|s p fl a c k q t v _ G L|s p fl a c k q t _ G L|s l s' p fl a [_ M] Hd|s b p1 v p2 fl a dd ws f' ws' _ _ _|s b p1 v p2 fl a _ _|s b p fl a ws f' ws' _ _|s s' b p fl a ws f' ws' [_ M] _ _ _|s b p fl _ _|s b p fl _ _];
    cbn [x_spawned x_srv] in *; try (apply Frame; cbn; congruence || reflexivity || auto; fail).
  - apply Frame; cbn; [now destruct l|reflexivity| |].
    + intros c k e q o X. destruct l as [a'|]; [|discriminate]. cbn in X. eapply not_handles; [exact NH|]. assert (a' = SHandle c k e q o) as -> by congruence. reflexivity.
    + intros c k q Q. destruct (step_has _ _ _ _ _ _ _ M Q) as [(e & o & X)|X]; [|exact X]. now apply not_handles in X.
  - unfold once_inv. cbn [ext x_spawned x_srv]. rewrite flat_map_app. cbn [flat_map spawn_key app]. split; [|split; [|split; [|split]]].
    + intros _. eauto.
    + apply TopicProofs.nodup_snoc; [exact B|]. intros X. destruct (C _ _ X) as [(e & q' & o & Y)|[Y _]]; [|discriminate]. eapply handled_fresh; eassumption.
    + intros c' k' X. apply in_app_iff in X as [X|[X|[]]].
      * destruct (C _ _ X) as [(e & q' & o & Y)|[Y _]]; [|discriminate]. left. exists e, q', o. apply served_in. apply served_in in Y. apply in_app_iff. auto.
      * assert (c = c' /\ k = k') as [-> ->] by (split; congruence). right. eauto.
    + intros c' k' q' _ X _. rewrite G in X. assert (c = c' /\ k = k' /\ q = q') as (-> & -> & ->) by (split; [|split]; congruence). exists v. apply in_app_iff. right. now left.
    + intros c' k' e q' o X Z. apply in_app_iff in X as [X|[X|[]]]; [|discriminate]. destruct (E _ _ _ _ _ X Z) as (v' & W). exists v'. apply before_snoc. auto.
  - unfold once_inv. cbn [ext x_spawned x_srv]. split; [|split; [exact B|split; [|split]]].
    + intros _. eauto.
    + intros c' k' X. destruct (C _ _ X) as [Y|[Y _]]; [|discriminate]. auto.
    + intros c' k' q' _ X (t' & v & Z). rewrite G in X. assert (q = q') as -> by congruence. destruct (log_of_stamp _ t _ _ Z) as (v' & Z'). congruence.
    + exact E.
  - destruct (A eq_refl) as (c & k & q & Q). destruct (step_has _ _ _ _ _ _ _ M Q) as [(e & o & ->)|X].
    2:{ destruct l as [[]|]; try easy. exfalso. inversion M; subst; cbn in X; try (destruct l; discriminate). destruct o; discriminate. }
    unfold once_inv. cbn [option_map ext x_spawned x_srv]. rewrite flat_map_app. cbn [flat_map spawn_key app]. rewrite app_nil_r.
    split; [discriminate|]. split; [exact B|]. split; [|split; [discriminate|]].
    + intros c' k' X. left. destruct (C _ _ X) as [(e' & q' & o' & Y)|(_ & q' & Y)].
      * exists e', q', o'. apply served_in. apply served_in in Y. apply in_app_iff. auto.
      * rewrite Q in Y. assert (c' = c /\ k' = k /\ q' = q) as (-> & -> & ->) by (split; [|split]; congruence). exists e, q, o. apply served_in. apply in_app_iff. right. now left.
    + intros c' k' e' q' o' X Z. apply in_app_iff in X as [X|[X|[]]].
      * destruct (E _ _ _ _ _ X Z) as (v' & W). exists v'. apply before_snoc. auto.
      * assert (c = c' /\ k = k' /\ q = q' /\ e = e' /\ o = o') as (-> & -> & -> & -> & ->) by (repeat split; congruence).
        destruct (D _ _ _ eq_refl Q Z) as (v' & W). exists v'. apply before_snoc. auto.
  - apply Frame; cbn; try discriminate; auto. intros c k q Q. destruct (step_has _ _ _ _ _ _ _ M Q) as [(e & o & X)|X]; [discriminate|exact X].
Qed.
Lemma once cl d input f tr x : runs cl d input f tr x -> once_inv tr x.
Proof.
  apply (runs_ind' cl d input f once_inv).
  - split; [discriminate|]. split; [constructor|]. split; [easy|]. split; [discriminate|easy].
  - intros tr0 x0 l x' R I St. eapply once_step; eassumption.
Qed.
Theorem spawn_once cl d input f tr x : runs cl d input f tr x -> NoDup (flat_map spawn_key tr).
Proof. intros R. apply (once _ _ _ _ _ _ R). Qed.
Theorem handled_spawned cl d input f tr x c k e q o t v : runs cl d input f tr x -> In (XSrv (SHandle c k e q o)) tr -> log_of t q = Some v ->
  exists v', before tr (XSpawn c k q v') (XSrv (SHandle c k e q o)).
Proof. intros R H L. apply (once _ _ _ _ _ _ R); eauto. Qed.

(* The end of the process. *)
Lemma gone_over cl x : x_gone x = true -> forall tr x', exec (Process.step cl) x tr x' -> tr = [].
Proof. intros G tr x' E. assert (tr = [] /\ x_gone x' = true) as [A _]; [|exact A]. induction E as [|tr s1 s2 E IH St|tr s1 a s2 E IH St]; [auto| |]; destruct IH as [_ IH]; destruct St; discriminate. Qed.
Theorem exit_last cl d input f y z x : runs cl d input f (y ++ XExit :: z) x -> z = [].
Proof.
  intros R. destruct (exec_split _ _ _ _ _ _ R) as (s1 & s2 & _ & St & R2). eapply gone_over; [|exact R2].
  inversion St; subst; try (destruct l; discriminate); reflexivity.
Qed.
Definition begun (tr : list Process.event) : Prop := exists p, In (XSrv (SReq (TPublish p QGone))) tr.
Lemma stop_begun cl d input tr s : Server.runs cl d input tr s -> s_stop s <> XNone -> exists p, In (SReq (TPublish p QGone)) tr.
Proof.
  revert tr s. apply (ServerProofs.runs_ind' cl d input (fun tr s => s_stop s <> XNone -> exists p, In (SReq (TPublish p QGone)) tr)); [easy|].
  intros tr s l s' _ I M H. assert (s_stop s <> XNone \/ exists p, l = Some (SReq (TPublish p QGone))) as [X|(p & ->)].
  { destruct M; cbn in H; auto. all: try (left; congruence). right. eauto. }
  - destruct (I X) as (p & P). exists p. now apply ext_in.
  - exists p. cbn. apply in_app_iff. right. now left.
Qed.
Lemma shut_stays cl s l s' : move cl s l s' -> shut s -> shut s'.
Proof. unfold shut. intros M H. destruct M; cbn; auto; match goal with P : s_stop _ = _ |- _ => rewrite P in H end; auto. Qed.
Lemma accepts_shut cl d input f tr x : runs cl d input f tr x -> x_accepts x = false -> shut (x_srv x).
Proof.
  apply (runs_ind' cl d input f (fun tr x => x_accepts x = false -> shut (x_srv x))); [discriminate|].
  intros tr0 x0 l x' R I St. destruct St; cbn [x_accepts x_srv] in *; auto.
  all: try (intros X; match goal with H : Server.step _ _ _ _ |- _ => destruct H as [_ H] end; eapply shut_stays; [eassumption|auto]).
Qed.
Theorem exit_after_stop cl d input f tr x : runs cl d input f tr x -> In XExit tr -> begun tr.
Proof.
  intros R H. apply in_split in H as (y & z & ->). destruct (exec_split _ _ _ _ _ _ R) as (s1 & s2 & R1 & St & _).
  inversion St; subst; try (destruct l; discriminate). pose proof (accepts_shut _ _ _ _ _ _ R1 eq_refl) as S. cbn in S.
  destruct (stop_begun _ _ _ _ _ (served_runs _ _ _ _ _ _ R1)) as (pp & PP); [unfold shut in S; intros X; cbn in X; rewrite X in S; exact S|]. exists pp. apply in_app_iff. left. now apply served_in.
Qed.
(* The end of the process does not cut a reply off. *)
Lemma write_over cl d input tr s c0 i0 k0 r0 : Server.runs cl d input tr s -> In (SWrite c0 i0 k0 r0) tr -> s_wrk s = WIn c0 i0 k0 r0 \/ exists y, In (SConn c0 (Conn.ERet i0 (Conn.OWrite (Resp.encode r0)) y)) tr.
Proof.
  revert tr s. apply (ServerProofs.runs_ind' cl d input (fun tr s => In (SWrite c0 i0 k0 r0) tr -> s_wrk s = WIn c0 i0 k0 r0 \/ exists y, In (SConn c0 (Conn.ERet i0 (Conn.OWrite (Resp.encode r0)) y)) tr)); [easy|].
  intros tr s l s' _ I0 M H. apply ServerProofs.ext_inv in H as [H|H].
  - destruct (I0 H) as [B|[y B]]; [|right; exists y; now apply ServerProofs.ext_in]. destruct M; cbn in *; auto; try congruence.
    right. exists x. assert (c = c0 /\ i = i0 /\ r = r0) as (-> & -> & ->) by (split; [|split]; congruence). apply in_app_iff. right. now left.
  - left. destruct M; cbn in *; try discriminate; try (destruct l; discriminate). inversion H; subst. reflexivity.
Qed.
Theorem exit_replies cl d input f tr x : runs cl d input f tr x -> In XExit tr -> forall c i k r, In (XSrv (SWrite c i k r)) tr -> exists y, In (XSrv (SConn c (Conn.ERet i (Conn.OWrite (Resp.encode r)) y))) tr.
Proof.
  intros R H c i k r W. apply in_split in H as (y & z & ->). destruct (exec_split _ _ _ _ _ _ R) as (s1 & s2 & R1 & St & R2).
  assert (x_gone s2 = true /\ s_wrk (x_srv s1) = WOver) as [Gn Wo] by (inversion St; subst; try (destruct l; discriminate); auto).
  assert (z = []) as ->. { clear - R2 Gn. assert (z = [] /\ x_gone x = true) as [Z _]; [|exact Z]. induction R2 as [|tr u v E IH St|tr u a v E IH St]; [auto| |]; destruct IH as [_ IH]; inversion St; subst; discriminate. }
  apply in_app_iff in W as [W|[W|[]]]; [|discriminate]. apply served_in in W.
  destruct (write_over _ _ _ _ _ _ _ _ _ (served_runs _ _ _ _ _ _ R1) W) as [X|[u X]]; [congruence|]. exists u. apply in_app_iff. left. now apply served_in.
Qed.

(* Runs of the server alone. *)
Definition past_flush (s : Server.state) : Prop := match s_stop s with XFlushed | XDone => True | _ => False end.
Lemma past_stays cl s l s' : move cl s l s' -> past_flush s -> past_flush s'.
Proof. unfold past_flush. intros M H. destruct M; cbn; auto; match goal with P : s_stop _ = _ |- _ => rewrite P in H end; auto. Qed.
Lemma lift cl s tr s' b p f a : exec (Server.step cl) s tr s' -> ~ past_flush s' -> (forall c k e q o, ~ In (SHandle c k e q o) tr) ->
  exec (Process.step cl) (mkX s b p f a false) (map XSrv tr) (mkX s' b p f a false).
Proof.
  intros E. induction E as [|tr s1 s2 E IH St|tr s1 e s2 E IH St]; intros D N; [apply exec_start| |].
  - eapply exec_tau; [apply IH; [|exact N]|].
    + intros X. apply D. destruct St as [_ M]. eapply past_stays; eassumption.
    + apply (srv cl s1 None s2); [exact St|easy|]. intros [_ X]. apply D. unfold past_flush. now rewrite X.
  - rewrite map_app. eapply exec_act; [apply IH|].
    + intros X. apply D. destruct St as [_ M]. eapply past_stays; eassumption.
    + intros c k e' q o X. apply (N c k e' q o). apply in_app_iff. auto.
    + apply (srv cl s1 (Some e) s2); [exact St| |].
      * destruct e; cbn; auto. intros _. eapply N. apply in_app_iff. right. left. reflexivity.
      * intros [_ X]. apply D. unfold past_flush. now rewrite X.
Qed.
