(* The server with a clock: invariants of runs in which its own work takes no time. *)
From Coq Require Import List Arith Bool String ZArith Lia.
From Verif Require Import Base Lts Resp RequestSpec Engine EngineProofs Db DataChannel Topic Conn Server ServerSpec ServerProofs ServerRuns ProgressProofs NodeProofs Props_Server Props_Progress BoundSpec BoundProofs RestSpec RestProofs FuelProofs Props_Rest IdleSpec IdleProofs Props_Idle Timed TimedSpec.
From Verif Require ConnProofs WaitConn LinProofs.
Import ListNotations.
Local Open Scope nat_scope.

(* ---- one step of one connection ---- *)
Definition pend (p : Conn.pc) : Prop := match p with PResetR | PResetW _ | PChkW _ => True | _ => False end.
Ltac cupd := repeat match goal with
  | |- context[upd ?f ?i ?x ?j] => destruct (upd_case f i j x) as [[? ->]|[? ->]]
  | H : context[upd ?f ?i ?x ?j] |- _ => destruct (upd_case f i j x) as [[? Hupd]|[? Hupd]]; rewrite Hupd in H; clear Hupd
  end; subst.
Lemma loop_gone t l t' : Conn.step t l t' -> c_pc t 0 <> Conn.PLoop -> c_pc t' 0 <> Conn.PLoop.
Proof.
  intros St N. inversion St; subst; cbn [c_pc Conn.set_pc]; try exact N; cupd; try exact N; try discriminate; try congruence;
    try (destruct o; discriminate); try (destruct x; discriminate); try (destruct (c_flag t); discriminate).
Qed.
Lemma flag_stays t l t' : Conn.step t l t' -> c_flag t = true -> c_flag t' = true.
Proof. intros St F. inversion St; subst; cbn [c_flag Conn.set_pc]; auto. Qed.
Lemma pend_on t l t' i : Conn.step t l t' -> pend (c_pc t i) -> pend (c_pc t' i) \/ resets t t' \/ c_flag t' = true.
Proof.
  intros St P. inversion St; subst; cbn [c_pc c_flag Conn.set_pc]; auto; cupd; auto;
    try (match goal with Q : c_pc t _ = _ |- _ => rewrite Q in P; contradiction end).
  - right. left. exists i0. left. cbn [c_pc Conn.set_pc]. rewrite upd_eq. auto.
  - right. left. exists i0. right. exists b. cbn [c_pc Conn.set_pc]. rewrite upd_eq. auto.
  - destruct (c_flag t); auto. left. exact I.
Qed.
Lemma pend_new t l t' i : Conn.step t l t' -> pend (c_pc t' i) -> pend (c_pc t i) \/ exists o, l = Some (Conn.ECall i o) /\ (o = ORead \/ exists b, o = OWrite b).
Proof.
  intros St P. inversion St; subst; cbn [c_pc Conn.set_pc] in P; auto; cupd; auto; try contradiction; try (destruct x; contradiction); try (destruct (c_flag t); contradiction).
  - right. destruct o; [| |contradiction]; eauto.
  - left. match goal with Q : c_pc t _ = _ |- _ => rewrite Q end. exact I.
Qed.
Lemma resets_loop t l t' : Conn.step t l t' -> resets t t' -> c_pc t 0 = Conn.PLoop /\ c_pc t' 0 = Conn.PLoop /\ exists i, pend (c_pc t i).
Proof.
  intros St (i & D). assert (N : pend (c_pc t i) /\ ~ pend (c_pc t' i)) by (destruct D as [[D1 D2]|(b & D1 & D2)]; rewrite D1, D2; cbn; auto). destruct N as [N1 N2].
  inversion St; subst; cbn [c_pc Conn.set_pc] in *; try contradiction; cupd; try contradiction;
    try (match goal with Q : c_pc t _ = _ |- _ => rewrite Q in N1; contradiction end);
    try (split; [assumption|]; split; [assumption|eauto]; fail);
    exfalso; destruct (c_flag t); destruct D as [[D1 D2]|(b' & D1 & D2)]; discriminate.
Qed.
Lemma resets_dec t l t' : Conn.step t l t' -> resets t t' \/ ~ resets t t'.
Proof.
  intros St. destruct St as [s i o|s i o r|s i K P L|s i b K P L|s|s|s i|s i|s i j|s i|s i b|s i b|s i b p|s i b|s i x|s i x|s i x p|s i x|s i x|s i x];
    try (left; exists i; first [left; cbn [c_pc Conn.set_pc]; rewrite upd_eq; now auto|right; exists b; cbn [c_pc Conn.set_pc]; rewrite upd_eq; now auto]);
    right; intros (i' & D); assert (N : pend (c_pc s i')) by (destruct D as [[D1 D2]|(b' & D1 & D2)]; rewrite D1; exact I);
    cbn [c_pc Conn.set_pc] in D; cupd;
    try (match goal with Q : c_pc s _ = _ |- _ => rewrite Q in N; contradiction end);
    try (destruct D as [[D1 D2]|(b' & D1 & D2)]; congruence);
    destruct (c_flag s); destruct D as [[D1 D2]|(b' & D1 & D2)]; discriminate.
Qed.
Lemma loop_from t l t' : Conn.step t l t' -> c_pc t' 0 = Conn.PLoop \/ c_pc t' 0 = Conn.PCas false -> c_pc t 0 = Conn.PLoop \/ c_pc t 0 = Conn.PCas false \/ c_pc t 0 = PChk.
Proof.
  intros St D. inversion St; subst; cbn [c_pc Conn.set_pc] in D; try tauto; cupd; try tauto; try (destruct D; discriminate);
    try (destruct o; destruct D; discriminate); try (destruct x; destruct D; discriminate); try (match goal with Q : 0 = ?i |- _ => subst i | Q : ?i = 0 |- _ => subst i end; tauto).
  destruct (c_flag t); destruct D; discriminate.
Qed.

(* ---- one step of the server, seen from one connection ---- *)
Lemma conn_of cl s l s' z : Server.step cl s l s' ->
  (s_conn s' z = s_conn s z /\ l <> Some (SConn z Conn.ETimer)) \/
  exists l', Conn.step (s_conn s z) l' (s_conn s' z) /\ (l' = Some Conn.ETimer <-> l = Some (SConn z Conn.ETimer)) /\
    forall i o, l' = Some (Conn.ECall i o) -> (o = ORead /\ l = Some (SConn z (Conn.ECall i ORead))) \/ exists k r, o = OWrite (encode r) /\ l = Some (SWrite z i k r).
Proof.
  intros [_ M]. moves M; unf; try (left; split; [reflexivity|]; try discriminate; destruct l as [l|]; discriminate);
    match goal with St : Conn.step (s_conn s ?c1) ?l1 ?t |- _ =>
      destruct (Nat.eq_dec z c1) as [->|N]; [rewrite upd_eq; right; exists l1; split; [exact St|]|rewrite upd_ne by exact N; left; split; [reflexivity|]; try discriminate; try (destruct l as [l|]; [|discriminate]; cbn; congruence)] end.
  all: try (split; [split; discriminate|intros ? ? Z; inversion Z; subst; eauto; fail]).
  split.
  - destruct l as [l|]; cbn; [|split; discriminate]. split; congruence.
  - intros j o Z. subst l. contradiction.
Qed.
Lemma rd_of cl s l s' z : Server.step cl s l s' -> s_rd s' z <> RNone -> s_rd s z <> RNone \/ l = Some (SAccept z).
Proof.
  intros [_ M] N. moves M; unf; auto; match goal with _ : context[upd _ ?c1 _] |- _ => destruct (Nat.eq_dec z c1) as [->|E]; [|rewrite upd_ne in N by exact E; auto] end; try (left; congruence). auto.
Qed.
Lemma alive_pend cl s a s' z : Server.step cl s (Some a) s' -> alive z a -> a = SAccept z \/ exists i, pend (c_pc (s_conn s' z) i).
Proof.
  intros [_ M] [->|[(i & ->)|(i & k & r & ->)]]; [auto| |]; right; exists i; inversion M; subst; try (match goal with F : free_conn ?l |- _ => destruct l as [[]|]; cbn in *; try discriminate; contradiction end);
    try (match goal with E : option_map _ ?l = _ |- _ => destruct l; discriminate end);
    match goal with St : Conn.step _ _ _ |- _ => inversion St; subst end; cbn [put_rd put_conn set_wrk s_conn]; rewrite upd_eq; cbn [c_pc Conn.set_pc]; rewrite upd_eq; exact I.
Qed.
(* ---- and from one topic ---- *)
Section OneTopic.
  Context {A : Type}.
  Lemma chan_expired (d d' : DataChannel.state A) l i e : DataChannel.step d l d' -> d_pc d' i = DataChannel.PRet (OSend e) RExpired -> d_pc d i = DataChannel.PRet (OSend e) RExpired \/ d_pc d i = PSend e.
  Proof. intros St D. inversion St; subst; cbn [d_pc DataChannel.set_pc] in D; auto; cupd; auto; try discriminate. injection D as ->. auto. Qed.
  Lemma topic_chan (t t' : Topic.state A) l : t_next t = 1 -> Topic.step t l t' -> t_ch t' 0 = t_ch t 0 \/ exists l', DataChannel.step (t_ch t 0) l' (t_ch t' 0).
  Proof.
    intros N St. inversion St; subst; cbn [t_ch put_ch put_pub put_g]; auto; cupd; eauto.
    - left. lia.
    - match goal with E : 0 = _ |- _ => rewrite E end. eauto.
    - match goal with E : 0 = _ |- _ => rewrite E end. eauto.
  Qed.
End OneTopic.
Lemma req_of cl s l s' : t_next (s_req s) = 1 -> Server.step cl s l s' -> (t_ch (s_req s') 0 = t_ch (s_req s) 0 \/ exists l', DataChannel.step (t_ch (s_req s) 0) l' (t_ch (s_req s') 0)).
Proof. intros N [_ M]. moves M; unf; auto; eapply topic_chan; eassumption. Qed.
Lemma rsp_of cl s l s' : t_next (s_rsp s) = 1 -> Server.step cl s l s' -> (t_ch (s_rsp s') 0 = t_ch (s_rsp s) 0 \/ exists l', DataChannel.step (t_ch (s_rsp s) 0) l' (t_ch (s_rsp s') 0)).
Proof. intros N [_ M]. moves M; unf; auto; eapply topic_chan; eassumption. Qed.
Lemma topic_ret {A} (t t' : Topic.state A) j o r : Topic.step t (Some (TChan 0 (DataChannel.ERet j o r))) t' -> d_pc (t_ch t 0) j = DataChannel.PRet o r.
Proof.
  intros St. inversion St; subst.
  - match goal with E : option_map _ ?l = _ |- _ => destruct l; [|discriminate]; cbn in E; inversion E; subst end. match goal with D : DataChannel.step _ _ _ |- _ => inversion D; subst; assumption end.
  - match goal with D : DataChannel.step _ _ _ |- _ => inversion D; subst; assumption end.
Qed.
Lemma req_ret cl s s' j e : Server.step cl s (Some (SReq (TChan 0 (DataChannel.ERet j (OSend e) RExpired)))) s' -> d_pc (t_ch (s_req s) 0) j = DataChannel.PRet (OSend e) RExpired.
Proof.
  intros [_ M]. inversion M; subst; try (destruct l; discriminate).
  destruct l as [l|]; [|discriminate]. match goal with E : option_map SReq _ = _ |- _ => cbn in E; injection E as -> end. eapply topic_ret; eassumption.
Qed.
Lemma rsp_ret cl s s' j e : Server.step cl s (Some (SRsp (TChan 0 (DataChannel.ERet j (OSend e) RExpired)))) s' -> d_pc (t_ch (s_rsp s) 0) j = DataChannel.PRet (OSend e) RExpired.
Proof.
  intros [_ M]. inversion M; subst; try (destruct l; discriminate).
  destruct l as [l|]; [|discriminate]. match goal with E : option_map SRsp _ = _ |- _ => cbn in E; injection E as -> end. eapply topic_ret; eassumption.
Qed.

(* ---- what is true of a run is true of its beginning ---- *)
Lemma blocked_conn t l t' i b : Conn.step t l t' -> c_pc t i = PResetW b -> c_pc t 0 <> Conn.PLoop -> c_pc t' i = PResetW b.
Proof. intros St P N. inversion St; subst; cbn [c_pc Conn.set_pc]; try exact P; cupd; try exact P; congruence. Qed.
Lemma blocked_on cl s l s' : Server.step cl s l s' -> blocked s -> blocked s'.
Proof.
  intros St (c0 & i0 & k0 & r0 & b0 & W & P0 & N0). assert (Y : c_pc (s_conn s' c0) i0 = PResetW b0 /\ c_pc (s_conn s' c0) 0 <> Conn.PLoop).
  { destruct (conn_of _ _ _ _ c0 St) as [[-> _]|(l' & Sc & _)]; [auto|]. split; [exact (blocked_conn _ _ _ _ _ Sc P0 N0)|exact (loop_gone _ _ _ Sc N0)]. }
  exists c0, i0, k0, r0, b0. split; [|exact Y]. destruct St as [_ M]. moves M; unf; try congruence. rewrite W in P. injection P as <- <- <- <-. inversion St; subst; congruence.
Qed.
Lemma turns_ext tr l : exists a, turns (ext tr l) = turns tr ++ a.
Proof. unfold turns, handled. rewrite flat_ext, !map_app. eauto. Qed.
Lemma well_back cl h tr s l s' : Server.step cl s l s' -> well h (ext tr l) s' -> well h tr s.
Proof.
  intros St (_ & X & B & F & S). split; [exact (proj1 St)|]. split; [exact (proj1 (not_stopping _ _ _ _ (proj2 St) X))|]. split; [intros Y; exact (B (blocked_on _ _ _ _ St Y))|].
  destruct (turns_ext tr l) as [a E]. rewrite E in F, S. split; [rewrite app_assoc in F; apply Forall_app in F; tauto|].
  intros c i k q H. specialize (S c i k q (ext_in _ _ _ H)). rewrite app_assoc, map_app, !requests_size_app in S. rewrite requests_size_app. pose proof (requests_size_nonneg (map snd a)). lia.
Qed.

(* ---- runs ---- *)
Lemma acts_ext tr l : acts (match option_map Act l with None => tr | Some a => tr ++ [a] end) = ext (acts tr) l.
Proof. destruct l; cbn; [|reflexivity]. unfold acts. rewrite flat_map_app. reflexivity. Qed.
Lemma acts_tick tr : acts (tr ++ [Tick]) = acts tr.
Proof. unfold acts. rewrite flat_map_app. apply app_nil_r. Qed.
Lemma ticks_act tr a : ticks (tr ++ [Act a]) = ticks tr.
Proof. unfold ticks. rewrite filter_app, app_length. cbn. lia. Qed.
Lemma ticks_tick tr : ticks (tr ++ [Tick]) = S (ticks tr).
Proof. unfold ticks. rewrite filter_app, app_length. cbn. lia. Qed.
Lemma happened_snoc tr x t a : happened (tr ++ [x]) t a <-> happened tr t a \/ (x = Act a /\ t = ticks tr).
Proof.
  split.
  - intros (u & v & E & T). destruct (rev v) as [|w p] eqn:R.
    + assert (v = []) as -> by (rewrite <- (rev_involutive v), R; reflexivity). apply app_inj_tail in E as [-> ->]. auto.
    + assert (v = rev p ++ [w]) as -> by (rewrite <- (rev_involutive v), R; reflexivity).
      left. exists u, (rev p). rewrite app_comm_cons, app_assoc in E. apply app_inj_tail in E as [-> ->]. auto.
  - intros [(u & v & -> & T)|[-> ->]]; [exists u, (v ++ [x])|exists tr, []]; rewrite <- ?app_assoc; auto.
Qed.

Section Runs.
  Context (cl : bool) (ttl wait : nat) (h : list (env * robj)) (d0 : db) (rs : list (option robj)) (input : nat -> bytes).
  Hypothesis Hd : run new_db h = Ret (d0, rs).
  Hypothesis Hw : wait > 0.
  Notation truns := (Timed.runs cl ttl wait d0 input).
  Lemma timed_ind (P : list Timed.event -> Timed.state -> Prop) : P [] (start d0 input) ->
    (forall tr s n q p v, truns tr (mkT s n q p v) -> P tr (mkT s n q p v) -> rests cl s -> (forall c, s_rd s c <> RNone -> c_pc (s_conn s c) 0 = Conn.PLoop -> n < v c + ttl) -> P (tr ++ [Tick]) (mkT s (S n) q p v)) ->
    (forall tr s n q p v l s' q' p' v', truns tr (mkT s n q p v) -> P tr (mkT s n q p v) -> Server.step cl s l s' ->
      (forall i, gives_up (s_req s) (s_req s') i -> q i + wait <= n) -> (forall i, gives_up (s_rsp s) (s_rsp s') i -> p i + wait <= n) ->
      (forall c, l = Some (SConn c Conn.ETimer) -> v c + ttl <= n) ->
      stamped (begins (s_req s) (s_req s')) n q q' -> stamped (begins (s_rsp s) (s_rsp s')) n p p' ->
      stamped (fun c => l = Some (SAccept c) \/ resets (s_conn s c) (s_conn s' c)) n v v' ->
      P (match option_map Act l with None => tr | Some a => tr ++ [a] end) (mkT s' n q' p' v')) ->
    forall tr x, truns tr x -> P tr x.
  Proof.
    intros H0 Ht Ha tr x R. induction R as [|tr x1 x2 R IH St|tr x1 a x2 R IH St]; [exact H0| |].
    - inversion St as [|s n q p v l s' q' p' v' S1 G1 G2 G3 S2 S3 S4 E1 E2 E3]; subst. destruct l; [discriminate|]. exact (Ha _ _ _ _ _ _ None _ _ _ _ R IH S1 G1 G2 G3 S2 S3 S4).
    - inversion St as [s n q p v Z D E1 E2 E3|s n q p v l s' q' p' v' S1 G1 G2 G3 S2 S3 S4 E1 E2 E3]; subst; [exact (Ht _ _ _ _ _ _ R IH Z D)|].
      destruct l as [b|]; [|discriminate]. cbn in E2. injection E2 as <-. exact (Ha _ _ _ _ _ _ (Some b) _ _ _ _ R IH S1 G1 G2 G3 S2 S3 S4).
  Qed.
  Lemma timed_runs tr x : truns tr x -> Server.runs cl d0 input (acts tr) (x_srv x) /\ x_now x = ticks tr.
  Proof.
    revert tr x. apply timed_ind.
    - split; [apply exec_start|reflexivity].
    - intros tr s n q p v _ [R N] _ _. cbn in *. rewrite acts_tick, ticks_tick. auto.
    - intros tr s n q p v l s' q' p' v' _ [R N] St _ _ _ _ _ _. cbn in *. rewrite acts_ext. split; [|destruct l; cbn [option_map]; [rewrite ticks_act|]; exact N].
      destruct l; cbn; [exact (exec_act _ _ _ _ _ _ R St)|exact (exec_tau _ _ _ _ _ R St)].
  Qed.
  (* at rest *)
  Lemma still tr s : Server.runs cl d0 input tr s -> rests cl s -> well h tr s ->
    (forall i e, d_pc (t_ch (s_req s) 0) i <> PSend e) /\ (forall i e, d_pc (t_ch (s_rsp s) 0) i <> PSend e) /\ (exists j, s_wrk s = WWait j).
  Proof.
    intros R Z (C & X & B & F & S). destruct (C98_idle cl h d0 rs input tr s Hd R Z C X B F S) as (Q & B1 & B2).
    destruct (Q GoEngine (eng_there _ _ _ _ _ R X)) as (j1 & _ & J1). destruct (Q GoWorker (wrk_there _ _ _ _ _ R X)) as (j2 & W & J2).
    destruct (runs_leans _ _ _ _ _ R) as (L1 & L2 & _). destruct (runs_paired _ _ _ _ _ R) as [P1 P2].
    split; [|split; [|eauto]]; intros i e H.
    - pose proof (settled_pcs _ _ _ L1 P1 (req_settled _ _ Z C) J1 B1 i) as Y. now rewrite H in Y.
    - pose proof (settled_pcs _ _ _ L2 P2 (rsp_settled _ _ Z C) J2 B2 i) as Y. now rewrite H in Y.
  Qed.
  (* no send is given up *)
  Definition calm {A : Type} (t : Topic.state A) (n : nat) (f : nat -> nat) : Prop :=
    (forall i e, d_pc (t_ch t 0) i = PSend e -> f i = n) /\ forall i e, d_pc (t_ch t 0) i <> DataChannel.PRet (OSend e) RExpired.
  Lemma calm_step {A : Type} (t t' : Topic.state A) n f f' : calm t n f -> (t_ch t' 0 = t_ch t 0 \/ exists l', DataChannel.step (t_ch t 0) l' (t_ch t' 0)) ->
    (forall i, gives_up t t' i -> f i + wait <= n) -> stamped (begins t t') n f f' -> calm t' n f'.
  Proof.
    intros [I1 I2] D G S. split; intros i e H.
    - destruct (S i) as [S1 S2]. destruct (d_pc (t_ch t 0) i) as [|e'| | | | |o r|] eqn:E; try (apply S1; split; [eauto|intros e' Y; congruence]).
      rewrite S2; [exact (I1 _ _ E)|]. intros [_ Y]. exact (Y _ E).
    - assert (Y : d_pc (t_ch t 0) i = DataChannel.PRet (OSend e) RExpired \/ d_pc (t_ch t 0) i = PSend e) by (destruct D as [D|[l' D]]; [rewrite D in H; auto|exact (chan_expired _ _ _ _ _ D H)]).
      destruct Y as [Y|Y]; [exact (I2 _ _ Y)|]. pose proof (I1 _ _ Y). assert (gives_up t t' i) by (exists e; auto). specialize (G i H1). lia.
  Qed.
  Lemma calm_tick {A : Type} (t : Topic.state A) n f : calm t n f -> (forall i e, d_pc (t_ch t 0) i <> PSend e) -> calm t (S n) f.
  Proof. intros [_ I2] N. split; [intros i e Y; destruct (N _ _ Y)|exact I2]. Qed.
  Lemma never_expires tr x : truns tr x -> well h (acts tr) (x_srv x) -> (calm (s_req (x_srv x)) (x_now x) (x_ask x) /\ calm (s_rsp (x_srv x)) (x_now x) (x_rep x)) /\
    (forall j e, ~ In (SReq (TChan 0 (DataChannel.ERet j (OSend e) RExpired))) (acts tr)) /\ forall j e, ~ In (SRsp (TChan 0 (DataChannel.ERet j (OSend e) RExpired))) (acts tr).
  Proof.
    revert tr x. refine (timed_ind _ _ _ _).
    - intros _. cbn. split; [split; (split; [intros i e Y; discriminate Y|intros i e Y; discriminate Y])|]. split; intros j e [].
    - intros tr s n q p v T I Z _. cbn in *. rewrite acts_tick. intros W. destruct (I W) as ([I1 I2] & I3). destruct (timed_runs _ _ T) as [R _]. destruct (still _ _ R Z W) as (N1 & N2 & _).
      split; [|exact I3]. split; apply calm_tick; assumption.
    - intros tr s n q p v l s' q' p' v' T I St G1 G2 _ S1 S2 _. cbn in *. rewrite acts_ext. intros W. destruct (I (well_back _ _ _ _ _ _ St W)) as ([I1 I2] & I3 & I4). destruct (timed_runs _ _ T) as [R _].
      destruct (runs_leans _ _ _ _ _ R) as ((L1 & _) & (L2 & _) & _). cbn in R, L1, L2.
      split; [split; [exact (calm_step _ _ _ _ _ I1 (req_of _ _ _ _ L1 St) G1 S1)|exact (calm_step _ _ _ _ _ I2 (rsp_of _ _ _ _ L2 St) G2 S2)]|].
      split; intros j e H; apply ext_inv in H as [H|H]; [exact (I3 _ _ H)| |exact (I4 _ _ H)|]; subst l.
      + exact (proj2 I1 _ _ (req_ret _ _ _ _ _ St)).
      + exact (proj2 I2 _ _ (rsp_ret _ _ _ _ _ St)).
  Qed.
  (* ---- the timers ---- *)
  Lemma still_conn tr s c : Server.runs cl d0 input tr s -> rests cl s -> well h tr s ->
    (c_pc (s_conn s c) 0 = Conn.PLoop -> c_flag (s_conn s c) = false /\ forall i, ~ pend (c_pc (s_conn s c) i)) /\ c_pc (s_conn s c) 0 <> Conn.PCas false.
  Proof.
    intros R Z W. destruct (still _ _ R Z W) as (_ & _ & Wk). destruct W as (C & X & B & F & S). destruct (reader_dec (s_rd s c)) as [N|N].
    - destruct (runs_leans _ _ _ _ _ R) as (_ & _ & L). rewrite (L c N). split; [|discriminate]. intros _. split; [reflexivity|]. intros [|i]; cbn; auto.
    - pose proof (conn_pcs _ _ _ _ _ _ R Z C N Wk) as P. split; [|intros Y; specialize (P 0); rewrite Y in P; exact P]. intros L. destruct (C98_idle cl h d0 rs input tr s Hd R Z C X B F S) as (Q & _).
      assert (H : here s (GoExpiry c)) by (split; [exact N|rewrite L; discriminate]). apply Q in H as [_ H]. split.
      + destruct (c_flag (s_conn s c)) eqn:E; [|reflexivity]. exfalso. apply H. apply won_conn. destruct (runs_parts _ _ _ _ _ R) as (_ & _ & PC). now apply (ConnProofs.i_flag _ _ (ConnProofs.runs_inv _ _ (PC c))).
      + intros i Y. specialize (P i). destruct (c_pc (s_conn s c) i); cbn in Y; try contradiction.
  Qed.
  Definition watched (c : nat) (tr : list Timed.event) (x : Timed.state) : Prop :=
    let t := s_conn (x_srv x) c in let n := x_now x in let v := x_seen x c in
    v <= n /\
    (forall m a, happened tr m a -> alive c a -> m <= v \/ (m = n /\ (c_flag t = true \/ exists i, pend (c_pc t i))) \/ c_pc t 0 <> Conn.PLoop) /\
    (forall i, pend (c_pc t i) -> c_pc t 0 <> Conn.PLoop \/ exists a, alive c a /\ happened tr n a) /\
    (s_rd (x_srv x) c <> RNone -> c_pc t 0 = Conn.PLoop \/ c_pc t 0 = Conn.PCas false -> n <= v + ttl /\ exists a, alive c a /\ happened tr v a).
  Lemma loop_dec (p : Conn.pc) : p = Conn.PLoop \/ p <> Conn.PLoop.
  Proof. destruct p; auto; right; discriminate. Qed.
  Lemma on_watch c tr x : truns tr x -> well h (acts tr) (x_srv x) -> watched c tr x.
  Proof.
    clear Hw. revert tr x. refine (timed_ind _ _ _ _).
    - intros _. unfold watched. cbn. split; [lia|]. split; [intros m a ([|? ?] & y & E & _); discriminate|]. split; [intros [|i] []|]. intros Y. now destruct Y.
    - intros tr s n q p v T I Z D. cbn [x_srv]. rewrite acts_tick. intros W. destruct (I W) as (V & A & B & E). destruct (timed_runs _ _ T) as [R Nn]. cbn [x_srv x_now x_seen] in *. destruct (still_conn _ _ c R Z W) as [Q1 Q2].
      unfold watched. cbn [x_srv x_now x_seen]. split; [lia|]. split; [|split].
      + intros m a H Al. apply happened_snoc in H as [H|[H _]]; [|discriminate]. destruct (A _ _ H Al) as [Y|[[-> Y]|Y]]; auto. destruct (loop_dec (c_pc (s_conn s c) 0)) as [L|L]; auto. destruct (Q1 L) as [F Np]. destruct Y as [Y|[i Y]]; [congruence|destruct (Np _ Y)].
      + intros i Y. left. intros L. exact (proj2 (Q1 L) _ Y).
      + intros N [L|L]; [|contradiction]. destruct (E N (or_introl L)) as [_ (a & Al & H)]. specialize (D c N L). split; [lia|]. exists a. split; [exact Al|]. apply happened_snoc. auto.
    - intros tr s n q p v l s' q' p' v' T I St _ _ G _ _ S. cbn [x_srv]. rewrite acts_ext. intros W. destruct (I (well_back _ _ _ _ _ _ St W)) as (V & A & B & E). destruct (timed_runs _ _ T) as [R Nn]. cbn [x_srv x_now x_seen] in *.
      specialize (S c). assert (Keep : forall m a, happened tr m a -> happened (match option_map Act l with None => tr | Some a => tr ++ [a] end) m a) by (intros m a H; destruct l; cbn [option_map]; [apply happened_snoc; auto|exact H]).
      assert (New : forall a, l = Some a -> happened (match option_map Act l with None => tr | Some a => tr ++ [a] end) n a) by (intros a ->; cbn [option_map]; apply happened_snoc; auto).
      assert (Old : forall m a, happened (match option_map Act l with None => tr | Some a => tr ++ [a] end) m a -> happened tr m a \/ (l = Some a /\ m = n)).
      { intros m a H. destruct l; cbn [option_map] in H; [|auto]. apply happened_snoc in H as [H|[H ->]]; [auto|]. injection H as ->. auto. }
      assert (Dc : (l = Some (SAccept c) \/ resets (s_conn s c) (s_conn s' c)) \/ ~ (l = Some (SAccept c) \/ resets (s_conn s c) (s_conn s' c))).
      { assert (Ac : l = Some (SAccept c) \/ l <> Some (SAccept c)). { destruct l as [[c1| | | | | | |]|]; try (right; discriminate). destruct (Nat.eq_dec c1 c) as [->|Y]; [auto|right; congruence]. }
        destruct Ac as [Ac|Ac]; [auto|]. destruct (conn_of _ _ _ _ c St) as [[Y _]|(l' & Y & _)].
        - right. intros [Q|(i & Q)]; [exact (Ac Q)|]. rewrite Y in Q. destruct Q as [[Q1 Q2]|(b & Q1 & Q2)]; congruence.
        - destruct (resets_dec _ _ _ Y) as [Q|Q]; [auto|]. right. tauto. }
      assert (V' : v' c <= n /\ v c <= v' c) by (destruct S as [S1 S2]; destruct Dc as [Dc|Dc]; [rewrite (S1 Dc)|rewrite (S2 Dc)]; lia). unfold watched. cbn [x_srv x_now x_seen]. split; [lia|]. split; [|split].
      + intros m a H Al. apply Old in H as [H|[-> ->]].
        * destruct (A _ _ H Al) as [Y|[[-> Y]|Y]]; [left; lia| |].
          -- destruct (conn_of _ _ _ _ c St) as [[-> _]|(l' & Sc & _)]; [auto|]. destruct Y as [Y|[i Y]]; [right; left; split; [reflexivity|]; left; exact (flag_stays _ _ _ Sc Y)|].
             destruct (pend_on _ _ _ _ Sc Y) as [Q|[Q|Q]]; [right; left; eauto| |right; left; auto]. left. rewrite (proj1 S (or_intror Q)). lia.
          -- right. right. destruct (conn_of _ _ _ _ c St) as [[-> _]|(l' & Sc & _)]; [exact Y|exact (loop_gone _ _ _ Sc Y)].
        * destruct (alive_pend _ _ _ _ _ St Al) as [->|Y]; [left; rewrite (proj1 S (or_introl eq_refl)); lia|right; left; auto].
      + intros i Y. assert (Q : pend (c_pc (s_conn s c) i) \/ exists a, alive c a /\ l = Some a).
        { destruct (conn_of _ _ _ _ c St) as [[Q _]|(l' & Sc & _ & Lb)]; [rewrite Q in Y; auto|]. destruct (pend_new _ _ _ _ Sc Y) as [Q|(o & -> & _)]; [auto|].
          right. destruct (Lb _ _ eq_refl) as [[_ ->]|(k & r & _ & ->)]; eexists; (split; [|reflexivity]); [right; left; eauto|right; right; eauto]. }
        destruct Q as [Q|(a & Al & Q)]; [|right; exists a; split; [exact Al|exact (New _ Q)]]. destruct (B _ Q) as [L|(a & Al & H)]; [|right; exists a; split; [exact Al|exact (Keep _ _ H)]].
        left. destruct (conn_of _ _ _ _ c St) as [[-> _]|(l' & Sc & _)]; [exact L|exact (loop_gone _ _ _ Sc L)].
      + intros N L. assert (L0 : c_pc (s_conn s c) 0 = Conn.PLoop \/ c_pc (s_conn s c) 0 = Conn.PCas false).
        { destruct (conn_of _ _ _ _ c St) as [[Q _]|(l' & Sc & _)]; [rewrite Q in L; exact L|]. destruct (loop_from _ _ _ Sc L) as [Q|[Q|Q]]; [auto|auto|]. destruct (runs_parts _ _ _ _ _ R) as (_ & _ & PC). pose proof (WaitConn.worker_gone _ _ (PC c)) as Y. rewrite Q in Y. contradiction. }
        destruct Dc as [Dc|Dc].
        * rewrite (proj1 S Dc). split; [lia|]. destruct Dc as [Dc|Dc]; [exists (SAccept c); split; [left; reflexivity|exact (New _ Dc)]|].
          destruct (conn_of _ _ _ _ c St) as [[Q _]|(l' & Sc & _)]; [destruct Dc as (i & [[Q1 Q2]|(b & Q1 & Q2)]); congruence|]. destruct (resets_loop _ _ _ Sc Dc) as (L1 & _ & i & Pi).
          destruct (B _ Pi) as [Y|(a & Al & H)]; [contradiction|]. exists a. split; [exact Al|exact (Keep _ _ H)].
        * rewrite (proj2 S Dc). destruct (rd_of _ _ _ _ c St N) as [Y|Y]; [|tauto]. destruct (E Y L0) as [E1 (a & Al & H)]. split; [exact E1|]. exists a. split; [exact Al|exact (Keep _ _ H)].
  Qed.
  (* ---- what is said at the end holds on the way ---- *)
  Lemma acts_app a b : acts (a ++ b) = acts a ++ acts b.
  Proof. apply flat_map_app. Qed.
  Lemma ticks_app a b : ticks (a ++ b) = ticks a + ticks b.
  Proof. unfold ticks. now rewrite filter_app, app_length. Qed.
  Lemma well_exec x tr y : exec (Timed.step cl ttl wait) x tr y -> forall a, well h (a ++ acts tr) (x_srv y) -> well h a (x_srv x).
  Proof.
    intros E. induction E as [|tr y1 y2 E IH St|tr y1 b y2 E IH St]; intros a W.
    - cbn in W. now rewrite app_nil_r in W.
    - inversion St as [|s n q p v l s' q' p' v' S1 G1 G2 G3 S2 S3 S4 E1 E2 E3]; subst. destruct l; [discriminate|]. apply IH. exact (well_back _ _ _ _ None _ S1 W).
    - rewrite acts_app in W. inversion St as [s n q p v Z D E1 E2 E3|s n q p v l s' q' p' v' S1 G1 G2 G3 S2 S3 S4 E1 E2 E3]; subst.
      + cbn in W. rewrite app_nil_r in W. exact (IH _ W).
      + destruct l as [c|]; [|discriminate]. cbn in E2. injection E2 as <-. cbn in W. rewrite app_assoc in W. apply IH. exact (well_back _ _ _ _ (Some c) _ S1 W).
  Qed.
  Lemma first_tick b : 0 < ticks b -> exists b1 b2, b = b1 ++ Tick :: b2 /\ ticks b1 = 0.
  Proof.
    clear Hd Hw. induction b as [|[|a] b IH]; cbn; [lia| |].
    - intros _. exists [], b. auto.
    - intros H. destruct (IH H) as (b1 & b2 & -> & Z). exists (Act a :: b1), b2. auto.
  Qed.
  Lemma in_acts tr a : In a (acts tr) -> exists u v, tr = u ++ Act a :: v.
  Proof.
    unfold acts. rewrite in_flat_map. intros ([|b] & H & Y); [destruct Y|]. destruct Y as [->|[]]. now apply in_split.
  Qed.
  Theorem answered_at_once tr x m c i k l : truns tr x -> well h (acts tr) (x_srv x) -> happened tr m (SRead c i k (RArr l)) -> m < x_now x -> exists i' r, happened tr m (SWrite c i' k r).
  Proof.
    intros T W (a & b & E & Ta) Lt. destruct (timed_runs _ _ T) as [R Nn]. rewrite Nn, E, ticks_app in Lt. change (ticks (Act (SRead c i k (RArr l)) :: b)) with (ticks b) in Lt. destruct (first_tick b ltac:(lia)) as (b1 & b2 & Eb & Zb).
    assert (Et : tr = (a ++ Act (SRead c i k (RArr l)) :: b1) ++ Tick :: b2) by (rewrite E, Eb, <- app_assoc; reflexivity). pose proof T as T0. unfold Timed.runs in T0. rewrite Et in T0. apply exec_split in T0 as (x1 & x2 & T1 & St & T2).
    assert (W1 : well h (acts (a ++ Act (SRead c i k (RArr l)) :: b1)) (x_srv x1)).
    { apply (well_exec _ (Tick :: b2) _ (exec_cons _ _ _ _ _ _ St T2)). rewrite <- acts_app, <- Et. exact W. }
    destruct (timed_runs _ _ T1) as [R1 _]. inversion St as [s n q p v Z D E1 E2 E3|s n q p v l' s' q' p' v' S1 G1 G2 G3 S2 S3 S4 E1 E2 E3]; subst x1; [|destruct l'; discriminate]. cbn [x_srv] in *.
    destruct (never_expires _ _ T1 W1) as (_ & N1 & N2). pose proof W1 as (C & X & B & F & S).
    assert (Hr : In (SRead c i k (RArr l)) (acts (a ++ Act (SRead c i k (RArr l)) :: b1))) by (rewrite acts_app; apply in_or_app; right; left; reflexivity).
    destruct (C85_rest cl h d0 rs input _ s c i k l Hd R1 Z C X B F S Hr) as (i' & r & Hw'); [intros (j & [Y|(r & Y)]); [exact (N1 _ _ Y)|exact (N2 _ _ Y)]|].
    exists i', r. rewrite acts_app in Hw'. apply in_app_or in Hw' as [Hw'|Hw'].
    - exfalso. pose proof T1 as T3. unfold Timed.runs in T3. apply exec_split in T3 as (y1 & y2 & T3 & _ & _). destruct (timed_runs _ _ T3) as [R3 _]. destruct (written_handled _ _ _ _ _ _ _ _ _ R3 Hw') as (e & q0 & H1). apply before_in in H1 as [H1 _].
      destruct (handled_read _ _ _ _ _ _ _ _ _ _ R3 H1) as (i0 & H0). apply before_in in H0 as [H0 _]. pose proof (read_in_order _ _ _ _ _ c R1) as O.
      assert (Nd : NoDup (map fst (reads c (acts (a ++ Act (SRead c i k (RArr l)) :: b1))))) by (rewrite O; apply seq_NoDup). rewrite acts_app in Nd. unfold reads in Nd. rewrite flat_map_app, map_app in Nd. cbn in Nd. rewrite Nat.eqb_refl in Nd. cbn in Nd.
      apply NoDup_remove_2 in Nd. apply Nd, in_or_app. left. apply in_map_iff. exists (k, q0). split; [reflexivity|]. apply ServerProofs.reads_in. eauto.
    - cbn in Hw'. destruct Hw' as [Hw'|Hw']; [discriminate|]. apply in_acts in Hw' as (u & v' & ->). exists (a ++ Act (SRead c i k (RArr l)) :: u), (v' ++ Tick :: b2). split; [rewrite Et, <- !app_assoc; cbn; now rewrite <- app_assoc|].
      rewrite ticks_app in Zb |- *. change (ticks (Act (SRead c i k (RArr l)) :: u)) with (ticks u). lia.
  Qed.
  Lemma happened_before tr m m' a b : happened tr m a -> happened tr m' b -> m < m' -> before (acts tr) a b.
  Proof.
    clear. intros (x & y & -> & E) (u & v & Z & F) L. revert u Z m m' E F L. induction x as [|z x IH]; intros [|w u] Z m m' E F L; cbn [app] in Z; injection Z as Z1 Z2.
    - cbn in *. lia.
    - subst w. cbn in E, F. exists [], (acts u), (acts v). rewrite Z2. cbn. unfold acts. rewrite flat_map_app. reflexivity.
    - subst z. cbn in F. lia.
    - subst w. destruct z as [|c].
      + change (ticks (Tick :: x)) with (S (ticks x)) in E. change (ticks (Tick :: u)) with (S (ticks u)) in F. exact (IH u Z2 (ticks x) (ticks u) eq_refl eq_refl ltac:(lia)).
      + destruct (IH u Z2 m m' E F L) as (p & q & r & Q). exists (c :: p), q, r. cbn. cbn in Q. unfold acts in *. cbn. now rewrite Q.
  Qed.
  Theorem in_order tr x m m' c i k l c' i' k' q' : truns tr x -> well h (acts tr) (x_srv x) -> happened tr m (SRead c i k (RArr l)) -> happened tr m' (SRead c' i' k' q') -> m < m' ->
    exists j r, before (acts tr) (SWrite c j k r) (SRead c' i' k' q') /\ forall e' o', In (SHandle c' k' e' q' o') (acts tr) -> exists e q, before (acts tr) (SHandle c k e q (Some r)) (SHandle c' k' e' q' o').
  Proof.
    intros T W H H' L. destruct (timed_runs _ _ T) as [R Nn]. assert (L' : m' <= x_now x). { rewrite Nn. destruct H' as (u & v & -> & <-). rewrite ticks_app. lia. }
    destruct (answered_at_once _ _ _ _ _ _ _ T W H ltac:(lia)) as (j & r & Q). exists j, r. pose proof (happened_before _ _ _ _ _ Q H' L) as B. split; [exact B|].
    intros e' o' Hh. exact (LinProofs.decided _ _ _ _ _ _ _ _ _ _ _ _ _ _ _ R B Hh).
  Qed.
  Theorem fires_in_time a b x c m z : truns (a ++ Act (SConn c Conn.ETimer) :: b) x -> well h (acts (a ++ Act (SConn c Conn.ETimer) :: b)) (x_srv x) -> happened a m z -> alive c z -> m = ticks a \/ m + ttl <= ticks a.
  Proof.
    clear Hw. intros T W H Al. apply exec_split in T as (x1 & x2 & T1 & St & T2). assert (W1 : well h (acts a) (x_srv x1)) by (apply (well_exec _ _ _ (exec_cons _ _ _ _ _ _ St T2)); rewrite <- acts_app; exact W).
    destruct (timed_runs _ _ T1) as [_ Nn]. destruct (on_watch c _ _ T1 W1) as (V & A & _). specialize (A _ _ H Al).
    inversion St as [|s n q p v l s' q' p' v' S1 G1 G2 G3 S2 S3 S4 E1 E2 E3]; subst. destruct l as [l|]; [|discriminate]. cbn in E2. injection E2 as ->. cbn [x_srv x_now x_seen] in *. specialize (G3 c eq_refl).
    destruct A as [A|[[A _]|A]]; [right; lia|left; lia|]. exfalso. apply A. destruct S1 as [_ M]. inversion M; subst; try (destruct l; discriminate). destruct l as [l|]; [|discriminate]. match goal with E : option_map _ _ = _ |- _ => cbn in E; injection E as -> -> end. match goal with Sc : Conn.step _ _ _ |- _ => inversion Sc; subst; assumption end.
  Qed.
  Theorem closed_in_time tr x c : truns tr x -> well h (acts tr) (x_srv x) -> In (SAccept c) (acts tr) -> ~ closed_by_us (acts tr) c -> exists m a, alive c a /\ happened tr m a /\ x_now x <= m + ttl.
  Proof.
    intros T W Ac N. destruct (timed_runs _ _ T) as [R _]. destruct (on_watch c _ _ T W) as (_ & _ & _ & E).
    destruct (reads_bound _ _ _ _ _ R) as (_ & Q & _). assert (Rd : s_rd (x_srv x) c <> RNone).
    { intros Y. apply Q in Y. apply Y. unfold accepted. apply in_flat_map. exists (SAccept c). split; [exact Ac|left; reflexivity]. }
    destruct (runs_parts _ _ _ _ _ R) as (_ & _ & PC). pose proof (WaitConn.worker_gone _ _ (PC c)) as G.
    assert (L : c_pc (s_conn (x_srv x) c) 0 = Conn.PLoop \/ c_pc (s_conn (x_srv x) c) 0 = Conn.PCas false).
    { destruct (c_pc (s_conn (x_srv x) c) 0) as [| | | | | | | |[]|[]|[]|[]| |]; auto; try contradiction; exfalso; apply N; now apply won_conn. }
    destruct (E Rd L) as [E1 (a & Al & H)]. eauto.
  Qed.
End Runs.

(* ---- the clock stops nothing ---- *)
Definition at_most_one (P : nat -> Prop) : Prop := (exists i, forall j, P j <-> j = i) \/ forall j, ~ P j.
Lemma stamp P n f : at_most_one P -> exists f', stamped P n f f'.
Proof.
  intros [(i & H)|H].
  - exists (upd f i n). intros j. split; intros Y.
    + apply H in Y as ->. apply upd_eq.
    + apply upd_ne. intros ->. apply Y. now apply H.
  - exists f. intros j. split; [intros Y; destruct (H _ Y)|reflexivity].
Qed.
Lemma chan_begins {A} (d d' : DataChannel.state A) l : DataChannel.step d l d' -> at_most_one (fun i => (exists e, d_pc d' i = PSend e) /\ forall e, d_pc d i <> PSend e).
Proof.
  intros St. destruct St as [d i e K P|d i K P|d i K P|d i o r K P|d i e K P C|d i e K P|d i e K P C|d i j e K P P' C|d i K P F|d i K P F|d i e b K P B|d i K P F|d i K P F|d i K P C|d i K P C].
  1: { left. exists i. intros z. cbn [d_pc DataChannel.set_pc]. split.
       - intros [[e0 D] N]. cupd; [reflexivity|destruct (N _ D)].
       - intros ->. rewrite upd_eq. split; [eauto|]. intros e0. congruence. }
  all: right; intros z [[e0 D] N]; cbn [d_pc DataChannel.set_pc] in D; cupd; first [discriminate|exact (N _ D)].
Qed.
Lemma begins_one {A} (t t' : Topic.state A) : (t_ch t' 0 = t_ch t 0 \/ exists l', DataChannel.step (t_ch t 0) l' (t_ch t' 0)) -> at_most_one (begins t t').
Proof. intros [E|[l St]]; [right; intros j [[e H] N]; rewrite E in H; exact (N _ H)|exact (chan_begins _ _ _ St)]. Qed.
Lemma resets_same t : ~ resets t t.
Proof. intros (i & [[D1 D2]|(b & D1 & D2)]); congruence. Qed.
Lemma resets_one cl s l s' : Server.step cl s l s' -> at_most_one (fun c => l = Some (SAccept c) \/ resets (s_conn s c) (s_conn s' c)).
Proof.
  intros [_ M]. moves M; unf;
    try (right; intros z [Y|Y]; [try discriminate; destruct l as [l|]; discriminate|exact (resets_same _ Y)]);
    try (match goal with Sc : Conn.step (s_conn s ?c1) ?l1 ?t |- _ => destruct (resets_dec _ _ _ Sc) as [D|D];
      [left; exists c1; intros z; split; [intros [Y|Y]; [try discriminate; destruct l as [l|]; discriminate|]; destruct (Nat.eq_dec z c1) as [->|N]; [reflexivity|rewrite upd_ne in Y by exact N; destruct (resets_same _ Y)]|intros ->; right; now rewrite upd_eq]
      |right; intros z [Y|Y]; [try discriminate; destruct l as [l|]; discriminate|]; destruct (Nat.eq_dec z c1) as [->|N]; [rewrite upd_eq in Y; exact (D Y)|rewrite upd_ne in Y by exact N; exact (resets_same _ Y)]] end).
  left. exists c. intros z. split; [intros [Y|Y]; [congruence|destruct (resets_same _ Y)]|intros ->; auto].
Qed.
Section Goes.
  Context (cl : bool) (ttl wait : nat) (d0 : db) (input : nat -> bytes).
  Lemma act_any tr s l s' n q p v : Server.runs cl d0 input tr s -> Server.step cl s l s' ->
    (forall i, gives_up (s_req s) (s_req s') i -> q i + wait <= n) -> (forall i, gives_up (s_rsp s) (s_rsp s') i -> p i + wait <= n) ->
    (forall c, l = Some (SConn c Conn.ETimer) -> v c + ttl <= n) -> exists q' p' v', Timed.step cl ttl wait (mkT s n q p v) (option_map Act l) (mkT s' n q' p' v').
  Proof.
    intros R St G1 G2 G3. destruct (runs_leans _ _ _ _ _ R) as ((L1 & _) & (L2 & _) & _).
    destruct (stamp _ n q (begins_one _ _ (req_of _ _ _ _ L1 St))) as [q' S1]. destruct (stamp _ n p (begins_one _ _ (rsp_of _ _ _ _ L2 St))) as [p' S2]. destruct (stamp _ n v (resets_one _ _ _ _ St)) as [v' S3].
    exists q', p', v'. now apply act.
  Qed.
  (* the server's own steps are possible at once *)
  Theorem own_now tr x l s' : Timed.runs cl ttl wait d0 input tr x -> own cl (x_srv x) l s' -> exists x', Timed.step cl ttl wait x (option_map Act l) x' /\ x_srv x' = s'.
  Proof.
    intros T [St O]. destruct (timed_runs _ _ _ _ _ _ _ T) as [R _]. destruct x as [s n q p v]. cbn [x_srv] in *. destruct (act_any _ _ _ _ n q p v R St) as (q' & p' & v' & Y).
    - intros i (e & P & Q). exfalso. apply O. right. right. right. right. left. exists i, e. auto.
    - intros i (e & P & Q). exfalso. apply O. right. right. right. right. right. left. exists i, e. auto.
    - intros c ->. exfalso. apply O. right. right. right. left. eauto.
    - eexists. split; [exact Y|reflexivity].
  Qed.
  Lemma due_dec (cs : list nat) s n (v : nat -> nat) : (exists c, In c cs /\ c_pc (s_conn s c) 0 = Conn.PLoop /\ v c + ttl <= n) \/ forall c, In c cs -> c_pc (s_conn s c) 0 = Conn.PLoop -> n < v c + ttl.
  Proof.
    induction cs as [|c cs IH]; [right; easy|]. destruct IH as [(c' & H & Y)|IH]; [left; exists c'; split; [right; exact H|exact Y]|].
    destruct (loop_dec (c_pc (s_conn s c) 0)) as [L|L]; [destruct (le_lt_dec (v c + ttl) n) as [D|D]; [left; exists c; split; [left; reflexivity|auto]|]|]; right; intros c' [<-|H]; auto. contradiction.
  Qed.
  (* when it has none, a timer fires or time goes on *)
  Theorem goes_on tr x : Timed.runs cl ttl wait d0 input tr x -> rests cl (x_srv x) -> s_crash (x_srv x) = false ->
    (exists c x', Timed.step cl ttl wait x (Some (Act (SConn c Conn.ETimer))) x') \/ exists x', Timed.step cl ttl wait x (Some Tick) x'.
  Proof.
    intros T Z C. destruct (timed_runs _ _ _ _ _ _ _ T) as [R _]. destruct x as [s n q p v]. cbn [x_srv] in *. destruct (reads_bound _ _ _ _ _ R) as (_ & A & _).
    destruct (due_dec (accepted (acts tr)) s n v) as [(c & H & L & D)|D].
    - left. exists c. assert (N : s_rd s c <> RNone) by (intros Y; apply A in Y; contradiction). destruct (runs_parts _ _ _ _ _ R) as (_ & _ & PC).
      pose proof (Conn.w_timer _ (proj1 (ConnProofs.i_alive _ _ (ConnProofs.runs_inv _ _ (PC c)))) L) as Sc. assert (St : Server.step cl s (Some (SConn c Conn.ETimer)) (put_conn s c (Conn.set_pc (s_conn s c) 0 (Conn.PCas false)))).
      { split; [exact C|]. exact (conn_free cl s c (Some Conn.ETimer) _ N I Sc). }
      destruct (act_any _ _ _ _ n q p v R St) as (q' & p' & v' & Y); [intros i (e & P & Q); cbn in Q; congruence|intros i (e & P & Q); cbn in Q; congruence|intros c' E; injection E as <-; exact D|]. eauto.
    - right. eexists. apply tick; [exact Z|]. intros c N. apply D. destruct (in_dec Nat.eq_dec c (accepted (acts tr))) as [Y|Y]; [exact Y|apply A in Y; contradiction].
  Qed.
  (* a run of the server in which no timer fires takes no time *)
  Definition timeless (tr : list Server.event) (s : Server.state) : Prop :=
    (forall c, ~ In (SConn c Conn.ETimer) tr) /\ (forall j e, ~ In (SReq (TChan 0 (DataChannel.ERet j (OSend e) RExpired))) tr) /\ (forall j e, ~ In (SRsp (TChan 0 (DataChannel.ERet j (OSend e) RExpired))) tr) /\
    (forall i e, d_pc (t_ch (s_req s) 0) i <> DataChannel.PRet (OSend e) RExpired) /\ (forall i e, d_pc (t_ch (s_rsp s) 0) i <> DataChannel.PRet (OSend e) RExpired).
  Lemma chan_keeps {A} (d d' : DataChannel.state A) l i e : DataChannel.step d l d' -> d_pc d i = DataChannel.PRet (OSend e) RExpired -> d_pc d' i = DataChannel.PRet (OSend e) RExpired \/ l = Some (DataChannel.ERet i (OSend e) RExpired).
  Proof. intros St P. inversion St; subst; cbn [d_pc DataChannel.set_pc]; auto; cupd; auto; try congruence. right. congruence. Qed.
  Lemma topic_keeps {A} (t t' : Topic.state A) l i e : t_next t = 1 -> Topic.step t l t' -> d_pc (t_ch t 0) i = DataChannel.PRet (OSend e) RExpired ->
    d_pc (t_ch t' 0) i = DataChannel.PRet (OSend e) RExpired \/ l = Some (TChan 0 (DataChannel.ERet i (OSend e) RExpired)).
  Proof.
    intros N St P. inversion St; subst; cbn [t_ch put_ch put_pub put_g]; auto; cupd; auto; try lia.
    - match goal with D : DataChannel.step _ _ _ |- _ => destruct (chan_keeps _ _ _ _ _ D P) as [Y|Y] end; [auto|subst; auto].
    - match goal with E : 0 = _, D : DataChannel.step _ _ _ |- _ => rewrite <- E in *; destruct (chan_keeps _ _ _ _ _ D P) as [Y|Y] end; [auto|discriminate].
    - match goal with E : 0 = _, D : DataChannel.step _ _ _ |- _ => rewrite <- E in *; destruct (chan_keeps _ _ _ _ _ D P) as [Y|Y] end; [auto|injection Y as -> -> ->; auto].
  Qed.
  Lemma req_keeps s l s' i0 e0 : t_next (s_req s) = 1 -> Server.step cl s l s' -> d_pc (t_ch (s_req s) 0) i0 = DataChannel.PRet (OSend e0) RExpired ->
    d_pc (t_ch (s_req s') 0) i0 = DataChannel.PRet (OSend e0) RExpired \/ l = Some (SReq (TChan 0 (DataChannel.ERet i0 (OSend e0) RExpired))).
  Proof.
    intros N [_ M] P0. moves M; unf; auto; match goal with D : Topic.step _ _ _ |- _ => destruct (topic_keeps _ _ _ _ _ N D P0) as [Y|Y] end; auto; try discriminate. subst l. auto.
  Qed.
  Lemma rsp_keeps s l s' i0 e0 : t_next (s_rsp s) = 1 -> Server.step cl s l s' -> d_pc (t_ch (s_rsp s) 0) i0 = DataChannel.PRet (OSend e0) RExpired ->
    d_pc (t_ch (s_rsp s') 0) i0 = DataChannel.PRet (OSend e0) RExpired \/ l = Some (SRsp (TChan 0 (DataChannel.ERet i0 (OSend e0) RExpired))).
  Proof.
    intros N [_ M] P0. moves M; unf; auto; match goal with D : Topic.step _ _ _ |- _ => destruct (topic_keeps _ _ _ _ _ N D P0) as [Y|Y] end; auto; try discriminate. subst l. auto.
  Qed.
  Lemma timeless_back tr s l s' : t_next (s_req s) = 1 -> t_next (s_rsp s) = 1 -> Server.step cl s l s' -> timeless (ext tr l) s' -> timeless tr s.
  Proof.
    intros N1 N2 St (T & Q & P & D1 & D2). split; [intros c H; exact (T c (ext_in _ _ _ H))|]. split; [intros j e H; exact (Q j e (ext_in _ _ _ H))|]. split; [intros j e H; exact (P j e (ext_in _ _ _ H))|]. split; intros i e H.
    - destruct (req_keeps _ _ _ _ _ N1 St H) as [Y| ->]; [exact (D1 _ _ Y)|]. apply (Q i e). cbn. apply in_snoc. auto.
    - destruct (rsp_keeps _ _ _ _ _ N2 St H) as [Y| ->]; [exact (D2 _ _ Y)|]. apply (P i e). cbn. apply in_snoc. auto.
  Qed.
  Theorem in_no_time tr s : Server.runs cl d0 input tr s -> timeless tr s -> exists q p v, Timed.runs cl ttl wait d0 input (map Act tr) (mkT s 0 q p v).
  Proof.
    intros R. unfold Server.runs in R. induction R as [|tr s1 s2 R IH St|tr s1 a s2 R IH St]; intros Z.
    - exists (fun _ => 0), (fun _ => 0), (fun _ => 0). apply exec_start.
    - destruct (runs_leans _ _ _ _ _ R) as ((L1 & _) & (L2 & _) & _). destruct (IH (timeless_back tr _ None _ L1 L2 St Z)) as (q & p & v & T). destruct Z as (Z0 & _ & _ & Z1 & Z2).
      destruct (act_any _ _ None _ 0 q p v R St) as (q' & p' & v' & Y); [intros i (e & _ & Q); destruct (Z1 _ _ Q)|intros i (e & _ & Q); destruct (Z2 _ _ Q)|discriminate|].
      exists q', p', v'. exact (exec_tau _ _ _ _ _ T Y).
    - destruct (runs_leans _ _ _ _ _ R) as ((L1 & _) & (L2 & _) & _). destruct (IH (timeless_back tr _ (Some a) _ L1 L2 St Z)) as (q & p & v & T). destruct Z as (Z0 & _ & _ & Z1 & Z2).
      destruct (act_any _ _ (Some a) _ 0 q p v R St) as (q' & p' & v' & Y); [intros i (e & _ & Q); destruct (Z1 _ _ Q)|intros i (e & _ & Q); destruct (Z2 _ _ Q)|intros c E; injection E as ->; destruct (Z0 c); apply in_snoc; auto|].
      exists q', p', v'. rewrite map_app. exact (exec_act _ _ _ _ _ _ T Y).
  Qed.
  (* ... from wherever it starts *)
  Theorem on_in_no_time tr0 s0 n q0 p0 v0 tr s : Timed.runs cl ttl wait d0 input tr0 (mkT s0 n q0 p0 v0) -> exec (Server.step cl) s0 tr s -> timeless tr s ->
    exists q p v, Timed.runs cl ttl wait d0 input (tr0 ++ map Act tr) (mkT s n q p v).
  Proof.
    intros T0 R. destruct (timed_runs _ _ _ _ _ _ _ T0) as [R0 _]. cbn [x_srv] in R0. unfold Server.runs in R0. induction R as [|tr s1 s2 R IH St|tr s1 a s2 R IH St]; intros Z.
    - exists q0, p0, v0. now rewrite app_nil_r.
    - pose proof (exec_app _ _ _ _ _ _ R0 R) as R1. destruct (runs_leans _ _ _ _ _ R1) as ((L1 & _) & (L2 & _) & _). destruct (IH (timeless_back tr _ None _ L1 L2 St Z)) as (q & p & v & T). destruct Z as (Z0 & _ & _ & Z1 & Z2).
      destruct (act_any _ _ None _ n q p v R1 St) as (q' & p' & v' & Y); [intros i (e & _ & Q); destruct (Z1 _ _ Q)|intros i (e & _ & Q); destruct (Z2 _ _ Q)|discriminate|].
      exists q', p', v'. exact (exec_tau _ _ _ _ _ T Y).
    - pose proof (exec_app _ _ _ _ _ _ R0 R) as R1. destruct (runs_leans _ _ _ _ _ R1) as ((L1 & _) & (L2 & _) & _). destruct (IH (timeless_back tr _ (Some a) _ L1 L2 St Z)) as (q & p & v & T). destruct Z as (Z0 & _ & _ & Z1 & Z2).
      destruct (act_any _ _ (Some a) _ n q p v R1 St) as (q' & p' & v' & Y); [intros i (e & _ & Q); destruct (Z1 _ _ Q)|intros i (e & _ & Q); destruct (Z2 _ _ Q)|intros c E; injection E as ->; destruct (Z0 c); apply in_snoc; auto|].
      exists q', p', v'. rewrite map_app, app_assoc. exact (exec_act _ _ _ _ _ _ T Y).
  Qed.
  Lemma ticks_pass tr s n q p v m : Timed.runs cl ttl wait d0 input tr (mkT s n q p v) -> rests cl s -> (forall c, s_rd s c <> RNone -> c_pc (s_conn s c) 0 = Conn.PLoop -> n + m <= v c + ttl) ->
    Timed.runs cl ttl wait d0 input (tr ++ repeat Tick m) (mkT s (n + m) q p v).
  Proof.
    intros T Z. induction m as [|m IH]; intros D; [now rewrite app_nil_r, Nat.add_0_r|]. assert (E : repeat Tick (S m) = repeat Tick m ++ [Tick]) by (clear; induction m; [reflexivity|cbn in *; now rewrite <- IHm]).
    rewrite E, app_assoc, Nat.add_succ_r. eapply exec_act; [apply IH; intros c N L; specialize (D c N L); lia|]. apply tick; [exact Z|]. intros c N L. specialize (D c N L). lia.
  Qed.
End Goes.
