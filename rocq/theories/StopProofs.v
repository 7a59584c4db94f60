(* One client and the others; what a stop leaves. *)
From Coq Require Import List Arith Bool String Lia.
From Verif Require Import Base Lts Resp RespSpec RespProofs Engine Db DataChannel DataChannelProofs Topic TopicProofs Conn ConnProofs ServerSpec Server ServerProofs.
Import ListNotations.
Local Open Scope nat_scope.

(* ---- the response worker stuck in a Write ---- *)
Lemma stuck_step t i l t' : stuck (c_pc t i) -> c_pc t 0 = Conn.PDone -> Conn.step t l t' ->
  stuck (c_pc t' i) /\ c_pc t' 0 = Conn.PDone /\ forall o r, l <> Some (Conn.ERet i o r).
Proof.
  intros K W St. assert (E : exists tr, exec Conn.step t tr t' /\ forall a, l = Some a -> In a tr).
  { destruct l as [a|]; [exists [a]|exists []]; (split; [|intros b Hb; inversion Hb; subst; now left]); [now apply exec_one|now apply exec_one_tau]. }
  destruct E as (tr & E & Hin). destruct (blocked_forever t i K W tr t' E) as (P & P0 & N). rewrite P. split; [exact K|]. split; [exact P0|].
  intros o r ->. exact (N o r (Hin _ eq_refl)).
Qed.
Definition silent (s : state) : Prop := exists c i k r, s_wrk s = WIn c i k r /\ stuck (c_pc (s_conn s c) i) /\ c_pc (s_conn s c) 0 = Conn.PDone.
Lemma silent_step cl s l s' : silent s -> move cl s l s' -> silent s' /\ forall c i k r, l <> Some (SWrite c i k r).
Proof.
  intros (c0 & i0 & k0 & r0 & W & K & D) M.
  assert (G : forall c t l0, Conn.step (s_conn s c) l0 t -> stuck (c_pc (upd (s_conn s) c t c0) i0) /\ c_pc (upd (s_conn s) c t c0) 0 = Conn.PDone).
  { intros c t l0 St. destruct (upd_case (s_conn s) c c0 t) as [[-> ->]|[_ ->]]; [|auto]. destruct (stuck_step _ _ _ _ K D St) as (A & B & _). auto. }
  moves M; try congruence; try (split; [exists c0, i0, k0, r0; unf; split; [exact W|]; first [now split|eapply G; eassumption]|first [easy|now destruct l]]).
  exfalso. assert (X : WIn c i k r = WIn c0 i0 k0 r0) by congruence. inversion X; subst. destruct (stuck_step _ _ _ _ K D St) as (_ & _ & N). exact (N _ _ eq_refl).
Qed.
Theorem silent_forever cl s : silent s -> forall tr s', exec (step cl) s tr s' -> s_wrk s' <> WOver /\ forall c i k r, ~ In (SWrite c i k r) tr.
Proof.
  intros H tr s' E. assert (silent s' /\ forall c i k r, ~ In (SWrite c i k r) tr) as [(c & i & k & r & W & _) X]; [|split; [congruence|exact X]].
  induction E as [|tr s1 s2 E IH [_ M]|tr s1 a s2 E IH [_ M]]; [easy| |]; destruct IH as [IH X]; destruct (silent_step _ _ _ _ IH M) as [A B]; (split; [exact A|]); [exact X|].
  intros c i k r Hin. apply in_snoc in Hin as [Hin|Hin]; [exact (X _ _ _ _ Hin)|]. exact (B c i k r (f_equal Some (eq_sym Hin))).
Qed.

(* ---- the response worker otherwise ---- *)
Lemma wrk_in cl d input tr s c1 i1 k1 r1 : runs cl d input tr s -> In (SWrite c1 i1 k1 r1) tr ->
  s_wrk s = WIn c1 i1 k1 r1 \/ exists x, In (SConn c1 (Conn.ERet i1 (OWrite (encode r1)) x)) tr.
Proof.
  revert tr s. apply (runs_ind' cl d input (fun tr s => In (SWrite c1 i1 k1 r1) tr -> s_wrk s = WIn c1 i1 k1 r1 \/ exists x, In (SConn c1 (Conn.ERet i1 (OWrite (encode r1)) x)) tr)); [easy|].
  intros tr s l s' _ I M H. apply ext_inv in H as [H|H].
  - destruct (I H) as [W|[x0 X]]; [|right; exists x0; now apply ext_in]. clear I H. moves M; unf; try (left; congruence); try (exfalso; congruence).
    right. assert (E : WIn c i k r = WIn c1 i1 k1 r1) by congruence. inversion E; subst. exists x. cbn. apply in_snoc. auto.
  - subst l. inversion M; subst; unf; [auto|..]; destruct l; discriminate.
Qed.
Lemma path (t : Conn.state) i b : c_crash t = false -> c_pc t 0 = Conn.PLoop -> c_flag t = false ->
  (c_pc t i = PChkW b \/ c_pc t i = PResetW b \/ c_pc t i = PWriting b) ->
  exists t', exec Conn.step t [] t' /\ c_pc t' i = Conn.PRet (OWrite b) RErr /\ c_crash t' = false.
Proof.
  intros C W F P. assert (N : 0 <> i) by (intros <-; destruct P as [P|[P|P]]; congruence).
  assert (P3 : forall t, c_crash t = false -> c_pc t i = PWriting b -> exists t', exec Conn.step t [] t' /\ c_pc t' i = Conn.PRet (OWrite b) RErr /\ c_crash t' = false).
  { intros u Cu Pu. eexists. split; [apply exec_one_tau; exact (wr_fail u i b Cu Pu)|]. cbn. rewrite upd_eq. auto. }
  assert (P2 : forall t, c_crash t = false -> c_pc t i = PResetW b -> c_pc t 0 = Conn.PLoop -> exists t', exec Conn.step t [] t' /\ c_pc t' i = Conn.PRet (OWrite b) RErr /\ c_crash t' = false).
  { intros u Cu Pu Wu. destruct (P3 (Conn.set_pc u i (PWriting b))) as (t' & E & X); [exact Cu|cbn; apply upd_eq|]. exists t'. split; [|exact X].
    eapply exec_cons_tau; [exact (reset_w u i b Cu Pu Wu)|exact E]. }
  destruct P as [P|[P|P]]; [|now apply P2|now apply P3].
  destruct (P2 (Conn.set_pc t i (PResetW b))) as (t' & E & X); [exact C|cbn; apply upd_eq|cbn; now rewrite upd_ne|]. exists t'. split; [|exact X].
  eapply exec_cons_tau; [|exact E]. pose proof (wr_chk t i b C P) as Q. now rewrite F in Q.
Qed.
Lemma write_at tr t i b : Conn.runs tr t -> In (Conn.ECall i (OWrite b)) tr ->
  (exists r, In (Conn.ERet i (OWrite b) r) tr) \/ c_pc t i = PChkW b \/ c_pc t i = PResetW b \/ c_pc t i = PWriting b \/ exists r, c_pc t i = Conn.PRet (OWrite b) r.
Proof.
  intros H Hin. pose proof (ConnProofs.runs_inv _ _ H) as I. pose proof (i_stage _ _ I i) as S2.
  assert (Z : In (Conn.ECall i (OWrite b)) (ConnProofs.proj i tr)) by (apply in_proj; cbn; now rewrite Nat.eqb_refl).
  assert (A : forall o r h, at_ret i o r h -> In (Conn.ECall i (OWrite b)) h -> o = OWrite b).
  { intros o r h A Hh. destruct o as [|b0|]; cbn in A.
    - rewrite A in Hh. cbn in Hh. intuition discriminate.
    - destruct A as [[-> _]|[[-> _]|(p & _ & -> & _)]]; cbn in Hh; intuition congruence.
    - destruct A as [[-> _]|(p & -> & _)]; cbn in Hh; intuition discriminate. }
  destruct (c_pc t i) as [| | |b0| |b0|b0| |x|x|x|x|o r|]; cbn in S2; try (rewrite S2 in Z; cbn in Z; intuition discriminate).
  - rewrite S2 in Z; cbn in Z; destruct Z as [Z|[]]. inversion Z; subst. auto.
  - rewrite S2 in Z; cbn in Z; destruct Z as [Z|[]]. inversion Z; subst. auto.
  - rewrite S2 in Z; cbn in Z; destruct Z as [Z|[]]. inversion Z; subst. auto.
  - destruct x; rewrite S2 in Z; cbn in Z; intuition discriminate.
  - destruct x; rewrite S2 in Z; cbn in Z; intuition discriminate.
  - destruct S2 as [q S2]; destruct x; rewrite S2 in Z; cbn in Z; intuition discriminate.
  - destruct S2 as [q S2]; destruct x; rewrite S2 in Z; cbn in Z; intuition discriminate.
  - pose proof (A _ _ _ S2 Z) as ->. eauto 10.
  - destruct S2 as [S2|[(q & S2)|(o & r & h & S2 & A')]].
    + rewrite S2 in Z. contradiction.
    + rewrite S2 in Z. cbn in Z. intuition discriminate.
    + assert (Y : In (Conn.ERet i o r) (ConnProofs.proj i tr)) by (rewrite S2; apply in_snoc; auto). rewrite S2 in Z. apply in_snoc in Z as [Z|Z]; [|discriminate].
      pose proof (A _ _ _ A' Z) as ->. left. exists r. now apply in_about in Y.
Qed.
(* Silent steps of a connection are silent steps of the server. *)
Lemma lift_conn cl c t tr t' : exec Conn.step t tr t' -> tr = [] -> forall s, s_crash s = false -> s_rd s c <> RNone -> s_conn s c = t ->
  exists s', exec (step cl) s [] s' /\ s_conn s' c = t' /\ s_crash s' = false /\ s_wrk s' = s_wrk s /\ s_rd s' = s_rd s.
Proof.
  intros E. induction E as [|tr t1 t2 E IH St|tr t1 a t2 E IH St]; [|intros Et s C N H|now destruct tr].
  - intros _ s C N H. exists s. split; [apply exec_start|auto].
  - destruct (IH Et s C N H) as (s1 & E1 & H1 & C1 & W1 & N1). exists (put_conn s1 c t2). split; [|unf; rewrite upd_eq; auto].
    eapply exec_tau; [exact E1|]. split; [exact C1|]. apply (conn_free cl s1 c None t2); [congruence|exact I|now rewrite H1].
Qed.
Lemma rd_none cl d input tr s c i k q : runs cl d input tr s -> In (SRead c i k q) tr -> s_rd s c <> RNone.
Proof.
  intros R H E. destruct (runs_reads _ _ _ _ _ R c) as (_ & _ & D). rewrite E in D. cbn in D. assert (In (k, q) (reads c tr)) as X by (apply reads_in; eauto). rewrite D in X. contradiction.
Qed.
(* As long as nobody began to close connection [c], the worker can get out of its Write. *)
Theorem worker_goes_on cl d input tr s c i k r : runs cl d input tr s -> s_crash s = false -> ~ In (SConn c Conn.ETimer) tr -> (forall j, ~ In (SConn c (Conn.EWin j)) tr) ->
  In (SWrite c i k r) tr -> (exists x, In (SConn c (Conn.ERet i (OWrite (encode r)) x)) tr) \/
  exists x s', runs cl d input (tr ++ [SConn c (Conn.ERet i (OWrite (encode r)) x)]) s' /\ s_wrk s' = WIdle.
Proof.
  intros R C NT NW H. destruct (wrk_in _ _ _ _ _ _ _ _ _ R H) as [W|X]; [|now left].
  destruct (runs_parts _ _ _ _ _ R) as (_ & _ & PC). specialize (PC c).
  assert (NR : s_rd s c <> RNone).
  { destruct (written_handled _ _ _ _ _ _ _ _ _ R H) as (e & q & B). apply before_in in B as [B _]. destruct (handled_read _ _ _ _ _ _ _ _ _ _ R B) as (j & B'). apply before_in in B' as [B' _].
    eapply rd_none; eassumption. }
  assert (Q : In (Conn.ECall i (OWrite (encode r))) (conn_trace c tr)) by (apply in_conn; right; right; eauto).
  assert (NT' : ~ In Conn.ETimer (conn_trace c tr)) by (intros X; apply in_conn in X as [X|[(? & ? & ? & X & _)|(? & ? & ? & X & _)]]; [auto|discriminate|discriminate]).
  assert (NW' : forall j, ~ In (Conn.EWin j) (conn_trace c tr)) by (intros j X; apply in_conn in X as [X|[(? & ? & ? & X & _)|(? & ? & ? & X & _)]]; [exact (NW j X)|discriminate|discriminate]).
  pose proof (ConnProofs.runs_inv _ _ PC) as I.
  assert (W0 : c_pc (s_conn s c) 0 = Conn.PLoop) by (destruct (i_worker _ _ I) as [W0|[[j W0]|W0]]; [exact W0|exfalso; exact (NW' j W0)|contradiction]).
  assert (F : c_flag (s_conn s c) = false) by (destruct (c_flag (s_conn s c)) eqn:F; [exfalso; apply (i_flag _ _ I) in F as [j F]; exact (NW' j F)|reflexivity]).
  destruct (i_alive _ _ I) as [Al _].
  assert (G : forall s1 x, exec (step cl) s [] s1 -> c_pc (s_conn s1 c) i = Conn.PRet (OWrite (encode r)) x -> c_crash (s_conn s1 c) = false -> s_crash s1 = false -> s_wrk s1 = WIn c i k r ->
    exists x s', runs cl d input (tr ++ [SConn c (Conn.ERet i (OWrite (encode r)) x)]) s' /\ s_wrk s' = WIdle).
  { intros s1 x E P1 Cc C1 W1. pose proof (exec_app _ _ _ _ _ _ R E) as RE. rewrite app_nil_r in RE. exists x. eexists.
    split; [eapply exec_act; [exact RE|split; [exact C1|eapply wrk_done; [exact W1|apply Conn.ret_; eassumption]]]|reflexivity]. }
  destruct (write_at _ _ _ _ PC Q) as [[x X]|P].
  - left. exists x. apply in_conn in X as [X|[(? & ? & ? & X & _)|(? & ? & ? & X & _)]]; [exact X|discriminate|discriminate].
  - right. assert (P' : (exists x, c_pc (s_conn s c) i = Conn.PRet (OWrite (encode r)) x) \/ (c_pc (s_conn s c) i = PChkW (encode r) \/ c_pc (s_conn s c) i = PResetW (encode r) \/ c_pc (s_conn s c) i = PWriting (encode r))) by tauto.
    destruct P' as [[x P']|P'].
    + exact (G s x (exec_start _ _) P' Al C W).
    + destruct (path _ _ _ Al W0 F P') as (t' & E & P1 & C1). destruct (lift_conn cl c _ _ _ E eq_refl s C NR eq_refl) as (s1 & E1 & H1 & C1' & W1 & _).
      refine (G s1 RErr E1 _ _ C1' _); congruence.
Qed.

(* ---- after a stop has begun ---- *)
Lemma gone_step cl s l s' : move cl s l s' -> (s_reqs s = false -> s_reqs s' = false /\ forall p c k q, l <> Some (SReq (TPublish p (QRequest c k q)))) /\
  (s_rsps s = false -> s_rsps s' = false /\ forall p c k r, l <> Some (SRsp (TPublish p (PReply c k r)))).
Proof.
  intros M. moves M; unf; (split; intros G; (split; [first [exact G|reflexivity|congruence]|])); try easy; try congruence; destruct l as [[]|]; try easy; now destruct F.
Qed.
Lemma reqs_gone cl s : s_reqs s = false -> forall tr s', exec (step cl) s tr s' -> s_reqs s' = false /\ forall p c k q, ~ In (SReq (TPublish p (QRequest c k q))) tr.
Proof.
  intros H tr s' E. induction E as [|tr s1 s2 E IH [_ M]|tr s1 a s2 E IH [_ M]]; [easy| |]; destruct IH as [IH X]; destruct (proj1 (gone_step _ _ _ _ M) IH) as [A B]; (split; [exact A|]); [exact X|].
  intros p c k q Hin. apply in_snoc in Hin as [Hin|Hin]; [exact (X _ _ _ _ Hin)|]. exact (B p c k q (f_equal Some (eq_sym Hin))).
Qed.
Lemma rsps_gone cl s : s_rsps s = false -> forall tr s', exec (step cl) s tr s' -> s_rsps s' = false /\ forall p c k r, ~ In (SRsp (TPublish p (PReply c k r))) tr.
Proof.
  intros H tr s' E. induction E as [|tr s1 s2 E IH [_ M]|tr s1 a s2 E IH [_ M]]; [easy| |]; destruct IH as [IH X]; destruct (proj2 (gone_step _ _ _ _ M) IH) as [A B]; (split; [exact A|]); [exact X|].
  intros p c k q Hin. apply in_snoc in Hin as [Hin|Hin]; [exact (X _ _ _ _ Hin)|]. exact (B p c k q (f_equal Some (eq_sym Hin))).
Qed.
Lemma nodup_both {B} (l l' : list B) x : NoDup (l ++ l') -> In x l -> In x l' -> False.
Proof.
  intros D H H'. apply in_split in H as (a & b & ->). rewrite <- app_assoc in D. apply NoDup_remove_2 in D. apply D. rewrite app_assoc. apply in_app_iff. auto.
Qed.
Theorem read_late cl d input x p y s c i k q : runs cl d input (x ++ SReq (TPublish p QGone) :: y) s -> In (SRead c i k q) y -> forall e q' o, ~ In (SHandle c k e q' o) (x ++ SReq (TPublish p QGone) :: y).
Proof.
  intros R Hy e q' o Hh. destruct (exec_split _ _ _ _ _ _ R) as (s1 & s2 & R1 & [_ M] & R2). fold (runs cl d input x s1) in R1.
  assert (G : s_reqs s2 = false) by (inversion M; subst; unf; [reflexivity|..]; destruct l; try discriminate; cbn in *; match goal with Q : Some _ = Some _ |- _ => inversion Q; subst end; easy).
  destruct (reqs_gone _ _ G _ _ R2) as [_ NP].
  apply handled_in in Hh. assert (K : In (c, k, q') (got (x ++ SReq (TPublish p QGone) :: y))).
  { rewrite (runs_eng _ _ _ _ _ R). apply in_app_iff. left. apply in_map_iff. exists (c, k, e, q', o). auto. }
  destruct (got_pub _ _ _ _ _ _ _ _ R K) as (p' & P). apply in_app_iff in P as [P|[P|P]]; [|discriminate|exact (NP _ _ _ _ P)].
  destruct (proj1 (runs_pubs _ _ _ _ _ R1) _ _ _ _ P) as [Q _].
  pose proof (read_in_order _ _ _ _ _ c R) as N. unfold reads in N. rewrite flat_map_app, map_app in N. cbn [flat_map read_of app] in N.
  assert (D : NoDup (map fst (flat_map (read_of c) x) ++ map fst (flat_map (read_of c) y))) by (rewrite N; apply seq_NoDup).
  assert (Y : In (k, q) (reads c y)) by (apply reads_in; eauto).
  apply (in_map fst) in Q. apply (in_map fst) in Y. cbn in Q, Y. exact (nodup_both _ _ _ D Q Y).
Qed.
Theorem reply_dropped cl d input tr s c k : runs cl d input tr s -> s_rsps s = false -> (forall p r, ~ In (SRsp (TPublish p (PReply c k r))) tr) ->
  forall tr' s', exec (step cl) s tr' s' -> forall i r, ~ In (SWrite c i k r) (tr ++ tr').
Proof.
  intros R G N tr' s' E i r H. destruct (rsps_gone _ _ G _ _ E) as [_ NP]. pose proof (exec_app _ _ _ _ _ _ R E) as R'. fold (runs cl d input (tr ++ tr') s') in R'.
  apply written_in in H. assert (K : In (c, k, r) (wgot (tr ++ tr'))).
  { rewrite (runs_wrk _ _ _ _ _ R'). apply in_app_iff. left. apply in_map_iff. exists (c, i, k, r). auto. }
  destruct (wgot_pub _ _ _ _ _ _ _ _ R' K) as (p' & P). apply in_app_iff in P as [P|P]; [exact (N _ _ P)|exact (NP _ _ _ _ P)].
Qed.
