(* From any state in which the response worker is not blocked, the server can be stopped. *)
From Coq Require Import List Arith Bool String Lia.
From Verif Require Import Base Lts Resp Engine Db DataChannel DataChannelProofs Topic TopicProofs Conn ServerSpec Server ServerProofs StopProofs ProgressProofs.
Import ListNotations.
Local Open Scope nat_scope.
Local Open Scope list_scope.

Section OneTopic.
  Context {A : Type}.
  Implicit Types (s : Topic.state A) (e : A).
  Definition freely s (l : option (Topic.event A)) s' : Prop := Topic.step s l s' /\ free l.
  Definition published s p e := put_pub s p (mkP DStart (Some e) [] [] [] 0 0 [] None []).
  (* the channels and the subscribers are left alone *)
  Definition still s s' : Prop := t_ch s' = t_ch s /\ t_next s' = t_next s /\ t_subs s' = t_subs s.
  Lemma wrap s p g b : g_pc (t_g s g) = GWg b -> g_pub (t_g s g) = p -> p_phase (t_pub s p) = DRange -> p_must (t_pub s p) = [] -> p_wg (t_pub s p) = 1 ->
    exists tr s', exec freely s tr s' /\ distributed (t_pub s' p) /\ still s s'.
  Proof.
    intros Pg Gp Ph Mu Wg. eexists. eexists. split.
    - eapply exec_cons_tau; [split; [eapply (g_done _ g); exact Pg|exact I]|]. rewrite Gp.
      eapply exec_cons_tau; [split; [apply (range_end _ p); cbn; rewrite upd_eq; assumption|exact I]|].
      eapply exec_cons_tau; [split; [apply (wait_over _ p); cbn; rewrite upd_eq; cbn; [reflexivity|rewrite upd_eq; cbn; rewrite Wg; reflexivity]|exact I]|].
      eapply exec_one; split; [apply (result _ p); cbn; rewrite upd_eq; reflexivity|exact I].
    - split; [unfold distributed; cbn; rewrite upd_eq; exact I|]. split; [reflexivity|]. split; reflexivity.
  Qed.
  Lemma through s n p g e (ok : bool) : t_subs s = [(n, 0)] -> g_pc (t_g s g) = GNone -> d_pc (t_ch s 0) (sid g) = DataChannel.PIdle -> d_crash (t_ch s 0) = false -> 0 < t_next s ->
    (ok = true -> List.length (d_buf (t_ch s 0)) < d_cap (t_ch s 0)) ->
    exists tr s', exec freely (published s p e) tr s' /\ distributed (t_pub s' p) /\ d_buf (t_ch s' 0) = (if ok then d_buf (t_ch s 0) ++ [e] else d_buf (t_ch s 0)) /\
      odds s s' /\ t_next s' = t_next s /\ t_subs s' = t_subs s /\ d_crash (t_ch s' 0) = false /\ d_flag (t_ch s' 0) = d_flag (t_ch s 0).
  Proof.
    intros Sb Pg Id C Lt B.
    assert (Ap : forall P Q, (exists tr s1, exec freely (published s p e) tr s1 /\ P s1) -> (forall s1, P s1 -> exists tr s2, exec freely s1 tr s2 /\ Q s2) -> exists tr s2, exec freely (published s p e) tr s2 /\ Q s2).
    { intros P Q (tr & s1 & E & H) F. destruct (F s1 H) as (tr2 & s2 & E2 & H2). exists (tr ++ tr2), s2. split; [eapply exec_app; eassumption|exact H2]. }
    (* the goroutine is in Send *)
    eapply (Ap (fun s1 => g_pc (t_g s1 g) = GWait /\ g_pub (t_g s1 g) = p /\ g_chan (t_g s1 g) = 0 /\ p_phase (t_pub s1 p) = DRange /\ p_must (t_pub s1 p) = [] /\ p_wg (t_pub s1 p) = 1 /\
      t_next s1 = t_next s /\ t_subs s1 = t_subs s /\ t_ch s1 0 = DataChannel.set_pc (t_ch s 0) (sid g) (PSend e))).
    { eexists. eexists. split.
      - eapply exec_cons_tau; [split; [apply (range _ p); cbn; rewrite upd_eq; reflexivity|exact I]|].
        eapply exec_cons; [split; [apply (visit _ p g n 0); [cbn; rewrite upd_eq; reflexivity|cbn; rewrite upd_eq; cbn; rewrite Sb; now left|cbn; rewrite upd_eq; cbn; auto|exact Pg]|exact I]|].
        eapply exec_one. split; [apply (g_call _ g e); [cbn; rewrite upd_eq; reflexivity|cbn; rewrite upd_eq; cbn; rewrite upd_eq; cbn; rewrite upd_eq; cbn; rewrite upd_eq; reflexivity|]|exact I].
        cbn. rewrite upd_eq. cbn. apply c_send; assumption.
      - cbn. rewrite !upd_eq. cbn. rewrite ?upd_eq. cbn. rewrite Sb. cbn. rewrite String.eqb_refl. cbn. rewrite ?upd_eq. do 8 (split; [reflexivity|]). reflexivity. }
    intros s1 (G1 & G2 & G3 & P1 & P2 & P3 & N1 & S1 & D1).
    assert (Od : forall f x i, Nat.odd i = true -> upd f (sid g) x i = (f i : DataChannel.pc A)) by (intros f x i O; apply upd_ne; intros ->; rewrite odd_sid in O; discriminate).
    destruct ok.
    - pose proof (B eq_refl) as L.
      assert (exists tr s2, exec freely s1 tr s2 /\ g_pc (t_g s2 g) = GWg true /\ g_pub (t_g s2 g) = p /\ p_phase (t_pub s2 p) = DRange /\ p_must (t_pub s2 p) = [] /\ p_wg (t_pub s2 p) = 1 /\
        t_next s2 = t_next s /\ t_subs s2 = t_subs s /\ d_buf (t_ch s2 0) = d_buf (t_ch s 0) ++ [e] /\ odds s s2 /\ d_crash (t_ch s2 0) = false /\ d_flag (t_ch s2 0) = d_flag (t_ch s 0)) as (tr & s2 & E & H1 & H2 & H3 & H4 & H5 & H6 & H7 & H8 & H9 & H10 & H11).
      { eexists. eexists. split.
        - eapply exec_cons; [split; [apply (chan s1 0 (Some (EPut (sid g) e))); [lia|exact I|rewrite D1; apply s_put; [exact C|cbn; apply upd_eq|exact L]]|exact I]|].
          eapply exec_cons; [split; [eapply (g_ret _ g e RSuccess); [exact G1|]|exact I]|].
          { cbn. rewrite G3, upd_eq. apply c_ret; [reflexivity|cbn; apply upd_eq]. }
          eapply exec_one_tau; split; [apply (g_add _ g); cbn; rewrite upd_eq; reflexivity|exact I].
        - cbn. rewrite G3. rewrite !upd_eq. cbn. rewrite G2. rewrite ?upd_eq. cbn. do 8 (split; [first [reflexivity|assumption]|]). split; [|split; reflexivity]. intros i O. cbn. rewrite ?G3, ?upd_eq. cbn.  rewrite !Od by exact O. reflexivity. }
      destruct (wrap s2 p g true H1 H2 H3 H4 H5) as (tr3 & s3 & E3 & Di & (K1 & K2 & K3)). exists (tr ++ tr3), s3. split; [eapply exec_app; eassumption|]. rewrite K1, K2, K3. split; [exact Di|]. split; [exact H8|].
      split; [intros i O; rewrite K1; now apply H9|]. auto.
    - assert (exists tr s2, exec freely s1 tr s2 /\ g_pc (t_g s2 g) = GWg false /\ g_pub (t_g s2 g) = p /\ p_phase (t_pub s2 p) = DRange /\ p_must (t_pub s2 p) = [] /\ p_wg (t_pub s2 p) = 1 /\
        t_next s2 = t_next s /\ t_subs s2 = t_subs s /\ d_buf (t_ch s2 0) = d_buf (t_ch s 0) /\ odds s s2 /\ d_crash (t_ch s2 0) = false /\ d_flag (t_ch s2 0) = d_flag (t_ch s 0)) as (tr & s2 & E & H1 & H2 & H3 & H4 & H5 & H6 & H7 & H8 & H9 & H10 & H11).
      { eexists. eexists. split.
        - eapply exec_cons_tau; [split; [apply (chan s1 0 None); [lia|exact I|rewrite D1; apply (s_expired _ (sid g) e); [exact C|cbn; apply upd_eq]]|exact I]|].
          eapply exec_one; split; [eapply (g_ret _ g e RExpired); [exact G1|]|exact I].
          cbn. rewrite G3, upd_eq. apply c_ret; [exact C|cbn; apply upd_eq].
        - cbn. rewrite G3. rewrite !upd_eq. cbn. do 8 (split; [first [reflexivity|assumption]|]). split; [|split; [exact C|reflexivity]]. intros i O. cbn. rewrite ?G3, ?upd_eq. cbn. rewrite !Od by exact O. reflexivity. }
      destruct (wrap s2 p g false H1 H2 H3 H4 H5) as (tr3 & s3 & E3 & Di & (K1 & K2 & K3)). exists (tr ++ tr3), s3. split; [eapply exec_app; eassumption|]. rewrite K1, K2, K3. split; [exact Di|]. split; [exact H8|].
      split; [intros i O; rewrite K1; now apply H9|]. auto.
  Qed.
End OneTopic.

(* ---- the server ---- *)
Lemma subs_keep {A} (t : Topic.state A) l t' n : Topic.step t l t' -> (forall m c k, l <> Some (TSubscribe m c k)) -> t_subs t = [(n, 0)] \/ t_subs t = [] -> t_subs t' = [(n, 0)] \/ t_subs t' = [].
Proof.
  intros St N H. destruct St; cbn [put_pub put_g put_ch t_subs]; try exact H.
  - exfalso. exact (N _ _ _ eq_refl).
  - destruct H as [-> | ->]; [|now right]. unfold without. cbn. destruct (negb _); auto.
Qed.
Lemma runs_subs cl d input tr s : runs cl d input tr s -> (t_subs (s_req s) = [("engine"%string, 0)] \/ t_subs (s_req s) = []) /\ (t_subs (s_rsp s) = [("server"%string, 0)] \/ t_subs (s_rsp s) = []).
Proof.
  revert tr s. apply (runs_ind' cl d input (fun tr s => (t_subs (s_req s) = [("engine"%string, 0)] \/ t_subs (s_req s) = []) /\ (t_subs (s_rsp s) = [("server"%string, 0)] \/ t_subs (s_rsp s) = []))); [cbn; auto|].
  intros tr s l s' _ [I1 I2] M. split.
  - assert (s_req s' = s_req s \/ exists x, Topic.step (s_req s) x (s_req s') /\ forall m c k, x <> Some (TSubscribe m c k)) as [->|(x & St & N)]; [|exact I1|exact (subs_keep _ _ _ _ St N I1)].
    destruct M; unf; auto; right; (eexists; split; [eassumption|]); try discriminate; intros ? ? ? ->; contradiction.
  - assert (s_rsp s' = s_rsp s \/ exists x, Topic.step (s_rsp s) x (s_rsp s') /\ forall m c k, x <> Some (TSubscribe m c k)) as [->|(x & St & N)]; [|exact I2|exact (subs_keep _ _ _ _ St N I2)].
    destruct M; unf; auto; right; (eexists; split; [eassumption|]); try discriminate; intros ? ? ? ->; contradiction.
Qed.
Lemma free_req cl s (tr : list (Topic.event request)) t' : s_crash s = false -> exec freely (s_req s) tr t' -> exec (step cl) s (map SReq tr) (set_req s t').
Proof.
  intros C E. induction E as [|tr t1 t2 E IH (St & F)|tr t1 a t2 E IH (St & F)].
  - destruct s. apply exec_start.
  - eapply exec_tau; [exact IH|]. split; [exact C|exact (req_free cl (set_req s t1) None t2 F St)].
  - rewrite map_app. eapply exec_act; [exact IH|]. split; [exact C|exact (req_free cl (set_req s t1) (Some a) t2 F St)].
Qed.
Lemma free_rsp cl s (tr : list (Topic.event response)) t' : s_crash s = false -> exec freely (s_rsp s) tr t' -> exec (step cl) s (map SRsp tr) (set_rsp s t').
Proof.
  intros C E. induction E as [|tr t1 t2 E IH (St & F)|tr t1 a t2 E IH (St & F)].
  - destruct s. apply exec_start.
  - eapply exec_tau; [exact IH|]. split; [exact C|exact (rsp_free cl (set_rsp s t1) None t2 F St)].
  - rewrite map_app. eapply exec_act; [exact IH|]. split; [exact C|exact (rsp_free cl (set_rsp s t1) (Some a) t2 F St)].
Qed.
(* A server that serves can be stopped up to the point where only the engine is left to stop; the
   response worker and the accept loop are then over. *)
Theorem can_stop cl d input tr s : runs cl d input tr s -> s_crash s = false -> s_stop s = XNone -> unblocked s ->
  exists y p z s1 s2 s3, exec (step cl) s y s1 /\ s_stop s1 = XNone /\ step cl s1 (Some (SReq (TPublish p QGone))) s2 /\ exec (step cl) s2 z s3 /\ s_stop s3 = XShut /\ s_wrk s3 = WOver /\ s_crash s3 = false.
Proof.
  intros R C X U. assert (G : good cl d input tr s) by (split; [exact R|auto]).
  destruct (drain cl d input tr s G U) as (y & s1 & E & _ & (Bu & j & W & Pj)). pose proof (good_exec _ _ _ _ _ _ _ G E) as G1. destruct (good_open _ _ _ _ _ G1) as [O1 O2]. destruct (wrk_pc _ _ _ _ _ j G1 W) as [Od _].
  pose proof (rsp_cap _ _ _ _ _ (proj1 G1)) as [_ Cap]. destruct G1 as (R1 & C1 & X1). destruct (runs_parts _ _ _ _ _ R1) as (T1 & T2 & _).
  destruct (runs_subs _ _ _ _ _ R1) as [B1 B2]. pose proof O1 as (OC & OF & OL & n1 & OI). pose proof O2 as (PC & PF & PL & n2 & PI).
  assert (S1 : t_subs (s_req s1) = [("engine"%string, 0)]) by (destruct B1 as [B|B]; [exact B|rewrite B in OI; destruct OI]).
  assert (S2 : t_subs (s_rsp s1) = [("server"%string, 0)]) by (destruct B2 as [B|B]; [exact B|rewrite B in PI; destruct PI]).
  destruct (fresh _ _ T1) as (p & g & _ & Fp & Fg & Fd & _). destruct (fresh _ _ T2) as (p' & g' & _ & Fp' & Fg' & Fd' & _).
  destruct (through (s_req s1) _ p g QGone false S1 Fg Fd OC OL) as (t1 & q1 & E1 & D1 & _); [discriminate|].
  destruct (through (s_rsp s1) _ p' g' PGone true S2 Fg' Fd' PC PL) as (t2 & q2 & E2 & D2 & Bf & Oo & Nx & Sb & Cr & Fl); [intros _; rewrite Bu, Cap; cbn; lia|]. rewrite Bu in Bf. cbn in Bf.
  set (s2 := set_stop (set_req s1 (published (s_req s1) p QGone)) (XReq p) false (s_rsps s1)).
  set (s3 := set_req s2 q1). set (s4 := set_stop (set_rsp s3 (published (s_rsp s1) p' PGone)) (XRsp p') false false). set (s5 := set_rsp s4 q2). set (s6 := set_stop s5 XShut false false).
  assert (O6 : open_topic (s_rsp s6)). { split; [exact Cr|]. split; [cbn; congruence|]. split; [cbn; rewrite Nx; exact PL|]. exists "server"%string. cbn. rewrite Sb, S2. now left. }
  assert (P6 : d_pc (t_ch (s_rsp s6) 0) j = PRecv) by (cbn; rewrite Oo; assumption).
  pose proof (take_step (s_rsp s6) j PGone [] O6 P6 Bf) as Tk. match type of Tk with Topic.step _ _ ?u => set (q3 := u) in * end. set (s7 := set_rsp s6 q3).
  assert (O7 : open_topic (s_rsp s7)). { destruct O6 as (A1 & A2 & A3 & A4). cbn in A1, A2, A3, A4. unfold q3, open_topic, s7. cbn. rewrite ?upd_eq. cbn. auto. }
  assert (P7 : d_pc (t_ch (s_rsp s7) 0) j = DataChannel.PRet ORecv (REvent PGone)) by (unfold q3, s7; cbn; rewrite ?upd_eq; reflexivity).
  pose proof (got_step (s_rsp s7) j PGone O7 Od P7) as Gt. match type of Gt with Topic.step _ _ ?u => set (q4 := u) in * end. set (s8 := set_wrk (set_rsp s7 q4) WOver).
  exists y, p. eexists. exists s1, s2, s8. split; [exact (exec_plain _ _ _ _ E)|]. split; [exact X1|]. split; [split; [exact C1|apply stop_req; [exact X1|apply Topic.publish; exact Fp]]|]. split; [|split; [reflexivity|split; [reflexivity|exact C1]]].
  eapply exec_app; [apply (free_req cl s2 t1 q1 C1 E1)|].
  eapply exec_cons; [split; [exact C1|apply (stop_rsp cl s3 p p' (published (s_rsp s1) p' PGone)); [reflexivity|exact D1|apply Topic.publish; exact Fp']]|].
  eapply exec_app; [apply (free_rsp cl s4 t2 q2 C1 E2)|].
  eapply exec_cons_tau; [split; [exact C1|apply (stop_shut cl s5 p'); [reflexivity|exact D2]]|].
  eapply exec_cons; [split; [exact C1|exact (rsp_free cl s6 (Some (TChan 0 (ETake j PGone))) q3 I Tk)]|].
  eapply exec_one. split; [exact C1|]. exact (wrk_got cl s7 j PGone q4 W Gt).
Qed.
