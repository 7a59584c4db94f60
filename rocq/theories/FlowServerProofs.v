(* The server over connections with limited room. *)
From Coq Require Import List Arith Bool Lia.
From Verif Require Import Base Lts Counted CountedFacts Conn ConnProofs ServerSpec Server ServerProofs StopProofs BoundSpec BoundProofs RestSpec Flow FlowProofs FlowServer.
Import ListNotations.

Lemma srv_conn cl s l s' : Server.move cl s l s' -> forall c, (s_conn s' c = s_conn s c /\ match l with Some a => Server.on_conn c a | None => [] end = []) \/
  exists l', Conn.step (s_conn s c) l' (s_conn s' c) /\ match l with Some a => Server.on_conn c a | None => [] end = match l' with Some a => [a] | None => [] end.
Proof.
  intros M c0. moves M; unf; try (left; split; reflexivity);
  try (match goal with |- context[upd _ ?c ?t c0] => dupd c c0 end; [right; eexists; split; [eassumption|cbn; rewrite ?Nat.eqb_refl; reflexivity]|left; split; [reflexivity|cbn; rewrite ?eqb_ne by assumption; reflexivity]]).
  - left. split; [reflexivity|destruct l; reflexivity].
  - left. split; [reflexivity|destruct l; reflexivity].
  - dupd c c0; [right; exists l; split; [exact St|]|left; split; [reflexivity|]]; destruct l; cbn; rewrite ?Nat.eqb_refl, ?eqb_ne by assumption; reflexivity.
Qed.
Lemma calm_lock u u' f : calm u u' f -> lock_ok u f -> lock_ok u' f.
Proof.
  intros [W T] L. unfold lock_ok in *. destruct (f_lock f) as [i|] eqn:E; [|exact L]. destruct L as [Wi Ti]. destruct T as [T|T]; [|discriminate]. split; [|congruence].
  pose proof (W _ _ Wi) as Q. destruct Wi as [Wi|(x & Wi & Hb)]; [left; congruence|right; exists x; split; [congruence|exact Hb]].
Qed.
Definition kept (cap : nat) (got : bytes) (h : list Conn.event) (f : flow) : Prop :=
  f_got f = got /\ got ++ f_buf f = flat_map out h ++ f_sent f /\ length (f_buf f) <= cap.
Lemma kept_moves cap g h u f a f' : lock_ok u f -> kept cap g h f -> moves cap u f a f' -> kept cap (g ++ Flow.taken_of a) h f'.
Proof.
  intros L (G & B & C) St. inversion St; subst; unfold kept; cbn [f_got f_sent f_buf Flow.taken_of]; rewrite ?app_nil_r.
  - unfold lock_ok in L. rewrite H1 in L. destruct L as [L _]. rewrite L, app_nil_r in B. auto.
  - rewrite !app_assoc, B. split; [reflexivity|]. split; [reflexivity|]. now rewrite app_length.
  - rewrite H in *. rewrite <- B, <- !app_assoc. rewrite app_length in C. split; [reflexivity|]. split; [reflexivity|lia].
Qed.
Lemma kept_ends cap g h u f l u' f' : kept cap g h f -> ends u f l u' f' -> kept cap g (h ++ match l with Some a => Flow.on_conn a | None => [] end) f'.
Proof. intros (G & B & C) St. inversion St; subst; unfold kept; cbn [f_got f_sent f_buf Flow.on_conn]; rewrite ?flat_map_app; cbn [flat_map out]; rewrite ?app_nil_r; auto. Qed.

Definition kept_all cap tr (x : FlowServer.state) : Prop := forall c, lock_ok (s_conn (fst x) c) (snd x c) /\ kept cap (taken c tr) (Server.conn_trace c (server_trace tr)) (snd x c).
Lemma server_snoc tr a : server_trace (tr ++ [a]) = server_trace tr ++ on_server a.
Proof. unfold server_trace. rewrite flat_map_app. cbn. now rewrite app_nil_r. Qed.
Lemma taken_snoc c tr a : taken c (tr ++ [a]) = taken c tr ++ FlowServer.taken_of c a.
Proof. unfold taken. rewrite flat_map_app. cbn. now rewrite app_nil_r. Qed.
Lemma conn_app c x y : Server.conn_trace c (x ++ y) = Server.conn_trace c x ++ Server.conn_trace c y.
Proof. apply flat_map_app. Qed.
Lemma conn_of_map c c' es : Server.conn_trace c (map (SConn c') es) = if Nat.eqb c' c then es else [].
Proof. unfold Server.conn_trace. induction es as [|e es IH]; cbn; [now destruct (Nat.eqb c' c)|]. rewrite IH. now destruct (Nat.eqb c' c). Qed.
Lemma exec_ext cl d input tr s l s' es : Server.runs cl d input tr s -> Server.step cl s l s' -> match l with Some a => [a] | None => [] end = es -> Server.runs cl d input (tr ++ es) s'.
Proof. intros R St <-. destruct l; [eapply exec_act; eassumption|]. rewrite app_nil_r. eapply exec_tau; eassumption. Qed.

(* A step of the server with room is one of the server without, or none. *)
Lemma net_end_server cl s f c l u w d input tr : Server.runs cl d input tr s -> s_crash s = false -> s_rd s c <> RNone -> lock_ok (s_conn s c) f -> ends (s_conn s c) f l u w ->
  exists l', Server.step cl s l' (put_conn s c u) /\ match l with Some a => exists e, l' = Some (SConn c e) /\ Flow.on_conn a = [e] | None => l' = None end.
Proof.
  intros R C A L En. destruct (i_alive _ _ (runs_inv _ _ (proj2 (proj2 (runs_parts _ _ _ _ _ R)) c))) as [Cr _].
  destruct (ends_conn _ _ _ _ _ Cr L En) as (l0 & St & Q). exists (option_map (SConn c) l0). split.
  - split; [exact C|]. apply conn_free; [exact A| |exact St]. destruct l0 as [e|]; [|exact I]. inversion En; subst; try discriminate; destruct Q as (e' & [= ->] & Q); cbn in Q; injection Q as <-; exact I.
  - destruct l as [a|]; [destruct Q as (e & -> & Q); exists e; auto|now rewrite Q].
Qed.
Theorem server_inv cl cap d input tr s f : runs cl cap d input tr (s, f) -> Server.runs cl d input (server_trace tr) s /\ kept_all cap tr (s, f).
Proof.
  intros R. remember (s, f) as x eqn:E. revert s f E. induction R as [|tr x1 x2 R IH St|tr x1 a x2 R IH St]; intros s f E.
  - injection E as <- <-. split; [constructor|]. intros c. split; [split; reflexivity|]. split; [reflexivity|]. split; [reflexivity|cbn; lia].
  - destruct x1 as [s1 f1]. destruct (IH _ _ eq_refl) as (A & K). subst x2. inversion St as [? ? l ? SS CM| |? ? c l u w CR RD WS]; subst.
    + destruct l; [discriminate|]. split; [eapply exec_tau; eassumption|]. intros c. destruct (K c) as [L B]. split; [eapply calm_lock; [apply CM|exact L]|exact B].
    + destruct l; [discriminate|]. destruct (K c) as [L B]. destruct (net_end_server _ _ _ _ _ _ _ _ _ _ A CR RD L WS) as (l' & S1 & ->). split; [eapply exec_tau; eassumption|].
      intros c'. cbn [fst snd s_conn put_conn]. dupd c c'; [|exact (K c')]. split; [eapply lock_ends; eassumption|]. pose proof (kept_ends _ _ _ _ _ _ _ _ B WS) as B'. rewrite app_nil_r in B'. exact B'.
  - destruct x1 as [s1 f1]. destruct (IH _ _ eq_refl) as (A & K). subst x2. rewrite server_snoc. inversion St as [? ? l ? SS CM|? ? c ? ? CR RD WS|? ? c l u w CR RD WS]; subst.
    + destruct l as [e|]; [|discriminate]. match goal with E : option_map _ _ = _ |- _ => injection E as <- end. split; [eapply exec_act; eassumption|]. intros c. destruct (K c) as [L B]. cbn [fst snd] in *.
      split; [eapply calm_lock; [apply CM|exact L]|]. rewrite taken_snoc, server_snoc, conn_app. cbn [FlowServer.taken_of]. rewrite app_nil_r.
      unfold kept in *. rewrite flat_map_app. replace (flat_map out (Server.conn_trace c (on_server (VServer e)))) with (@nil Ascii.ascii); [now rewrite app_nil_r|].
      cbn [on_server]. unfold Server.conn_trace. cbn [flat_map]. rewrite app_nil_r. destruct (srv_conn _ _ _ _ (proj2 SS) c) as [[_ Q]|(l' & Sc & Q)]; rewrite Q; [reflexivity|].
      destruct l' as [e'|]; [|reflexivity]. cbn. now rewrite (calm_no_out _ _ _ _ Sc (CM c)).
    + cbn [on_server]. assert (N : Flow.on_conn a0 = []) by (inversion WS; reflexivity). rewrite N. cbn [map]. rewrite app_nil_r. split; [exact A|]. intros c'. cbn [fst snd]. destruct (K c') as [L B]. cbn [fst snd] in *.
      rewrite taken_snoc, server_snoc. cbn [on_server FlowServer.taken_of]. rewrite N. cbn [map]. rewrite app_nil_r. dupd c c'.
      * rewrite Nat.eqb_refl. split; [eapply lock_moves; eassumption|eapply kept_moves; eassumption].
      * rewrite eqb_ne, app_nil_r by assumption. auto.
    + destruct l as [e|]; [|discriminate]. match goal with E : option_map _ _ = _ |- _ => injection E as <- end. destruct (K c) as [L B]. cbn [fst snd] in *.
      destruct (net_end_server _ _ _ _ _ _ _ _ _ _ A CR RD L WS) as (l' & S1 & e' & -> & Q). cbn [on_server]. split; [eapply exec_ext; [exact A|exact S1|rewrite Q; reflexivity]|].
      intros c'. cbn [fst snd s_conn put_conn]. rewrite taken_snoc, server_snoc, conn_app. cbn [on_server FlowServer.taken_of]. rewrite conn_of_map.
      assert (N : Flow.taken_of e = []) by (inversion WS; reflexivity). dupd c c'.
      * rewrite Nat.eqb_refl, N, app_nil_r. split; [eapply lock_ends; eassumption|exact (kept_ends _ _ _ _ _ _ _ _ B WS)].
      * rewrite eqb_ne, !app_nil_r by assumption. exact (K c').
Qed.

(* ---- a client that takes nothing ---- *)
Definition held (cap : nat) (x : FlowServer.state) (c i k : nat) (r : Resp.robj) : Prop :=
  s_wrk (fst x) = WIn c i k r /\ f_lock (snd x c) = Some i /\ lock_ok (s_conn (fst x) c) (snd x c) /\ stuck cap (s_conn (fst x) c) (snd x c).
Lemma wants_ret u i b o r u' : wants u i b -> ~ Conn.step u (Some (Conn.ERet i o r)) u'.
Proof. intros [W|(x & W & _)] St; inversion St; congruence. Qed.
Lemma wrk_same cl s l s' c0 i0 k0 r0 b : s_wrk s = WIn c0 i0 k0 r0 -> wants (s_conn s c0) i0 b -> Server.move cl s l s' ->
  s_wrk s' = s_wrk s /\ forall c' i' k' r', l <> Some (SWrite c' i' k' r').
Proof.
  intros W Wi M. moves M; unf; try (split; [reflexivity|intros; try discriminate; destruct l; discriminate]); try congruence.
  exfalso. assert (X : WIn c i k r = WIn c0 i0 k0 r0) by congruence. injection X as -> -> -> ->. exact (wants_ret _ _ _ _ _ _ Wi St).
Qed.
Lemma held_step cl cap x l y c i k r : held cap x c i k r -> FlowServer.step cl cap x l y -> (forall a, l = Some (VFlow c a) -> ~ FlowServer.peer_does a) ->
  held cap y c i k r /\ (forall c' i' k' r', l <> Some (VServer (SWrite c' i' k' r'))) /\ (forall j p, l <> Some (VFlow c (FConn (Conn.EOut j p)))).
Proof.
  intros (W & E & L & S) St Q. assert (Wi : exists b, wants (s_conn (fst x) c) i b) by (unfold lock_ok in L; rewrite E in L; destruct L; eauto). destruct Wi as [b Wi].
  destruct St as [s f l s' SS CM|s f c1 a w CR RD WS|s f c1 l u w CR RD WS]; cbn [fst snd] in *.
  - assert (Z : s_wrk s' = s_wrk s /\ forall c' i' k' r', l <> Some (SWrite c' i' k' r')).
    { eapply wrk_same; [exact W|exact Wi|exact (proj2 SS)]. }
    split; [|split].
    + split; [cbn; destruct Z; congruence|]. split; [exact E|]. split; [eapply calm_lock; [apply CM|exact L]|]. cbn [fst snd]. destruct S as (S1 & S2 & S3). split; [exact S1|]. split; [exact S2|].
      destruct (srv_conn _ _ _ _ (proj2 SS) c) as [[-> _]|(l' & Sc & _)]; [exact S3|eapply no_new_tcp; [exact Sc|apply CM|exact S3]].
    + intros c' i' k' r' H. destruct l as [e|]; [|discriminate]. injection H as ->. exact (proj2 Z _ _ _ _ eq_refl).
    + intros j p H. destruct l; discriminate.
  - split; [|split; [discriminate|intros j p H; injection H as -> ->; inversion WS]]. destruct (Nat.eq_dec c1 c) as [->|N].
    + exfalso. destruct S as ((j & Ej & Ne) & B & S3). inversion WS; subst; [congruence| |exact (Q _ eq_refl I)]. assert (1 <= length p) by (destruct p; [contradiction|cbn; lia]). lia.
    + unfold held. cbn [fst snd]. rewrite upd_ne by congruence. auto.
  - destruct (Nat.eq_dec c1 c) as [->|N].
    + exfalso. destruct S as ((j & Ej & Ne) & B & S3). inversion WS; subst; [congruence|exact (Q _ eq_refl I)|exact (S3 _ _ H0)|]. unfold lock_ok in L. rewrite E in L. destruct L. congruence.
    + split; [|split; [intros; destruct l; discriminate|intros j p H; destruct l; [injection H as -> _; congruence|discriminate]]].
      unfold held. cbn [fst snd s_wrk s_conn put_conn]. rewrite !upd_ne by congruence. auto.
Qed.
Theorem held_forever cl cap x c i k r : held cap x c i k r -> forall tr y, exec (FlowServer.step cl cap) x tr y -> (forall a, In (VFlow c a) tr -> ~ FlowServer.peer_does a) ->
  held cap y c i k r /\ (forall c' i' k' r', ~ In (VServer (SWrite c' i' k' r')) tr) /\ forall j p, ~ In (VFlow c (FConn (Conn.EOut j p))) tr.
Proof.
  intros H tr y E. induction E as [|tr x1 x2 E IH St|tr x1 a x2 E IH St]; intros Q; [easy| |].
  - destruct (IH Q) as (A & B & C). destruct (held_step _ _ _ _ _ _ _ _ _ A St) as (A' & _); [discriminate|]. auto.
  - destruct IH as (A & B & C); [intros z Hz; apply Q, in_snoc; now left|]. destruct (held_step _ _ _ _ _ _ _ _ _ A St) as (A' & B' & C'); [intros z [= ->]; apply Q, in_snoc; now right|].
    split; [exact A'|]. split.
    + intros c' i' k' r' Hin. apply in_snoc in Hin as [Hin|Hin]; [exact (B _ _ _ _ Hin)|]. exact (B' c' i' k' r' (f_equal Some (eq_sym Hin))).
    + intros j p Hin. apply in_snoc in Hin as [Hin|Hin]; [exact (C _ _ Hin)|]. exact (C' j p (f_equal Some (eq_sym Hin))).
Qed.

(* ---- a server at rest ---- *)
Lemma calm_same u f : calm u u f.
Proof. split; auto. Qed.
Lemma call_calm u i o u' f : Conn.step u (Some (Conn.ECall i o)) u' -> calm u u' f.
Proof. intros St. inversion St; subst. split; [|now left]. intros j b W. cbn. apply upd_ne. intros ->. destruct W as [W|(x & W & _)]; congruence. Qed.
Lemma ret_calm u i o r u' f : Conn.step u (Some (Conn.ERet i o r)) u' -> calm u u' f.
Proof. intros St. inversion St; subst. split; [|now left]. intros j b W. cbn. apply upd_ne. intros ->. destruct W as [W|(x & W & _)]; congruence. Qed.
Lemma srv_calm cl s l s' : Server.move cl s l s' -> (forall f c, calm (s_conn s c) (s_conn s' c) (f c)) \/
  exists c l' t, s_rd s c <> RNone /\ Conn.step (s_conn s c) l' t /\ s' = put_conn s c t /\ l = option_map (SConn c) l'.
Proof.
  intros M. moves M; unf; try (left; intros f' c'; apply calm_same); try (left; intros f' c'; dupd c c'; [first [eapply call_calm; eassumption|eapply ret_calm; eassumption]|apply calm_same]).
  right. exists c, l, t. auto.
Qed.
Theorem server_rest cl cap d input tr s f : runs cl cap d input tr (s, f) -> rests cl cap (s, f) -> s_crash s = false -> (forall c, ~ full cap (f c)) -> RestSpec.rests cl s.
Proof.
  intros R Q C NF. destruct (server_inv _ _ _ _ _ _ _ R) as [A K]. intros l s' [[_ M] N].
  destruct (srv_calm _ _ _ _ M) as [CM|(c & l' & t & RD & Sc & -> & ->)].
  - apply (Q (option_map VServer l) (s', f)). split; [apply srv; [now split|apply CM]|]. destruct l; exact N.
  - destruct (K c) as [L _]. cbn [fst snd] in L. pose proof (proj2 (proj2 (runs_parts _ _ _ _ _ A)) c) as Rc.
    destruct (enabled cap _ _ _ _ L (fun i x => msg_open _ _ i x Rc) Sc (NF c)) as [CM|[(a & w & Mv & Np)|(l0 & u0 & w & En & Lo & Rd)]].
    + apply (Q (option_map VServer (option_map (SConn c) l')) (put_conn s c t, f)). split; [|destruct l'; exact N]. apply srv; [now split|]. intros c'. cbn [s_conn put_conn]. dupd c c'; [exact CM|apply calm_same].
    + apply (Q (Some (VFlow c a)) (s, upd f c w)). split; [now apply net_move|exact Np].
    + apply (Q (option_map (VFlow c) l0) (put_conn s c u0, upd f c w)). split; [now apply net_end|]. destruct l0 as [a|]; cbn [option_map fst].
      * destruct (Lo _ eq_refl) as (i & p & ->). exact (fun z => z).
      * intros [(c' & H)|[(c' & i & P & P')|[(H & _)|[(c' & H)|[(i & e & P & P')|[(i & e & P & P')|(P & P')]]]]]]; try discriminate; cbn [s_conn s_req s_rsp s_stop put_conn] in *; try congruence.
        dupd c c'; [exact (P' (Rd _ P))|congruence].
Qed.
Lemma rd_stays cl s l s' c0 : Server.move cl s l s' -> s_rd s c0 <> RNone -> s_rd s' c0 <> RNone.
Proof. intros M. moves M; unf; auto; match goal with |- context[upd _ ?c1 _ c0] => dupd c1 c0 end; auto; discriminate. Qed.
Lemma lock_rd cl cap d input tr x : runs cl cap d input tr x -> forall c, f_lock (snd x c) <> None -> s_rd (fst x) c <> RNone.
Proof.
  intros R. assert (G : forall l x y, FlowServer.step cl cap x l y -> (forall c, f_lock (snd x c) <> None -> s_rd (fst x) c <> RNone) -> forall c, f_lock (snd y c) <> None -> s_rd (fst y) c <> RNone).
  { intros l x0 y St IH c. destruct St as [s f l s' SS CM|s f c1 a w CR RD WS|s f c1 l u w CR RD WS]; cbn [fst snd s_rd put_conn] in *.
    - intros H. eapply rd_stays; [exact (proj2 SS)|]. now apply IH.
    - dupd c1 c; auto.
    - dupd c1 c; auto. }
  induction R as [|tr x1 x2 R IH St|tr x1 a x2 R IH St]; [intros c N; now contradiction N|exact (G _ _ _ St IH)|exact (G _ _ _ St IH)].
Qed.
Theorem delivered cl cap d input tr s f c : runs cl cap d input tr (s, f) -> rests cl cap (s, f) -> s_crash s = false -> 0 < cap -> f_buf (f c) = [] ->
  taken c tr = flat_map out (Server.conn_trace c (server_trace tr)).
Proof.
  intros R Q C P B. destruct (server_inv _ _ _ _ _ _ _ R) as [A K]. destruct (K c) as [L (_ & O & _)]. cbn [fst snd] in *. rewrite B, app_nil_r in O.
  assert (RD : f_lock (f c) <> None -> s_rd s c <> RNone) by exact (lock_rd _ _ _ _ _ _ R c).
  unfold lock_ok in L. destruct (f_lock (f c)) as [i|] eqn:E; [|destruct L as [L _]; now rewrite L, app_nil_r in O]. exfalso. destruct (f_left (f c)) as [|z q] eqn:Ef.
  - eapply Q. split; [apply (net_end cl cap s f c _ _ _ C (RD ltac:(discriminate)) (all_put _ _ i E Ef))|]. exact (fun z => z).
  - assert (M : moves cap (s_conn s c) (f c) (FPut i [z]) (mkF (Some i) (f_sent (f c) ++ [z]) q (f_buf (f c) ++ [z]) (f_got (f c)))) by (apply (put cap _ _ i [z] q E Ef); [discriminate|rewrite B; cbn; lia]).
    apply (Q _ _ (conj (net_move cl cap s f c _ _ C (RD ltac:(discriminate)) M) (fun z => z))).
Qed.

(* ---- the number of steps ---- *)
Lemma sum_change (g g' : nat -> nat) c l : NoDup l -> In c l -> (forall c', c' <> c -> g' c' = g c') -> list_sum (map g' l) + g c = list_sum (map g l) + g' c.
Proof.
  induction l as [|j l IH]; intros ND Hi H; [contradiction|]. inversion ND as [|? ? Nj ND']; subst. cbn [map]. rewrite !sum_cons. destruct Hi as [->|Hi].
  - rewrite (sum_same g' g); [lia|]. intros j Hj. apply H. intros ->. contradiction.
  - rewrite (H j) by (intros ->; contradiction). specialize (IH ND' Hi H). lia.
Qed.
Definition weight tr (f : nat -> flow) (c : nat) : nat := length (match f_lock (f c) with Some _ => [0] | None => [] end) + length (f_buf (f c)) + 2 * length (taken c tr).
Definition weights tr (x : FlowServer.state) : nat := list_sum (map (weight tr (snd x)) (accepted (server_trace tr))).
Lemma accepted_app x y : accepted (x ++ y) = accepted x ++ accepted y.
Proof. apply flat_map_app. Qed.
Lemma sum_app l l' : list_sum (l ++ l') = list_sum l + list_sum l'.
Proof. apply list_sum_app. Qed.
Lemma accepted_conn c es : accepted (map (SConn c) es) = [].
Proof. induction es; [reflexivity|assumption]. Qed.
Lemma weight_srv tr e f c : weight (tr ++ [VServer e]) f c = weight tr f c.
Proof. unfold weight. rewrite taken_snoc. cbn [FlowServer.taken_of]. now rewrite app_nil_r. Qed.
Lemma weight_other tr c a f w c' : c' <> c -> weight (tr ++ [VFlow c a]) (upd f c w) c' = weight tr f c'.
Proof. intros N. unfold weight. rewrite taken_snoc, upd_ne by exact N. cbn [FlowServer.taken_of]. now rewrite eqb_ne, app_nil_r by congruence. Qed.
Theorem server_steps cl cap d input n tr x : steps (FlowServer.step cl cap) (Server.init d input, fun _ => no_flow) n tr x ->
  exists m, steps (Server.step cl) (Server.init d input) m (server_trace tr) (fst x) /\ n <= 2 * m + weights tr x.
Proof.
  intros H. induction H as [|n tr x1 x2 H IH St|n tr x1 a x2 H IH St]; [exists 0; split; [constructor|cbn; lia]| |]; destruct IH as (m & A & Le); destruct x1 as [s f]; destruct x2 as [s2 f2]; cbn [fst] in *;
  destruct (server_inv cl cap d input tr s f (steps_exec _ _ _ _ _ H)) as [Rs K]; destruct (reads_bound _ _ _ _ _ Rs) as (ND & Acc & _).
  - inversion St as [? ? l ? SS CM| |? ? c l u w CR RD WS]; subst.
    + destruct l; [discriminate|]. exists (S m). split; [eapply steps_tau; eassumption|]. unfold weights in *. cbn [snd] in *. lia.
    + destruct l; [discriminate|]. destruct (net_end_server _ _ _ _ _ _ _ _ _ _ Rs CR RD (proj1 (K c)) WS) as (l' & S1 & ->). exists (S m). split; [eapply steps_tau; eassumption|].
      inversion WS; subst. unfold weights in *. cbn [snd] in *. rewrite (sum_same (weight tr (upd f c (f c))) (weight tr f)); [lia|]. intros c' _. unfold weight. destruct (Nat.eq_dec c' c) as [->|N]; [now rewrite upd_eq|now rewrite upd_ne].
  - rewrite server_snoc. unfold weights in *. rewrite server_snoc, accepted_app, map_app, sum_app. cbn [snd] in *. inversion St as [? ? l ? SS CM|? ? c ? w CR RD WS|? ? c l u w CR RD WS]; subst.
    + destruct l as [e|]; [|discriminate]. match goal with E : option_map _ _ = _ |- _ => injection E as <- end. exists (S m). split; [eapply steps_act; eassumption|].
      rewrite (sum_same (weight (tr ++ [VServer e]) f2) (weight tr f2) (accepted (server_trace tr))) by (intros; apply weight_srv). lia.
    + exists m. cbn [on_server]. assert (N : Flow.on_conn a0 = []) by (inversion WS; reflexivity). rewrite N. cbn [map]. rewrite app_nil_r. split; [exact A|]. cbn [accepted flat_map map list_sum fold_right].
      assert (In c (accepted (server_trace tr))) as Ic by (destruct (in_dec Nat.eq_dec c (accepted (server_trace tr))); [assumption|exfalso; apply RD; now apply Acc]).
      pose proof (sum_change (weight tr f) (weight (tr ++ [VFlow c a0]) (upd f c w)) c _ ND Ic (fun c' Nc => weight_other _ _ _ _ _ _ Nc)) as Z.
      enough (S (weight tr f c) <= weight (tr ++ [VFlow c a0]) (upd f c w) c) by lia. unfold weight. rewrite taken_snoc, upd_eq, app_length. cbn [FlowServer.taken_of]. rewrite Nat.eqb_refl.
      inversion WS; subst; cbn [f_lock f_buf Flow.taken_of length].
      * rewrite H2. cbn. lia.
      * rewrite H0, app_length. assert (1 <= length p) by (destruct p; [contradiction|cbn; lia]). cbn [length]. lia.
      * rewrite H0, app_length. assert (1 <= length p) by (destruct p; [contradiction|cbn; lia]). lia.
    + destruct l as [e|]; [|discriminate]. match goal with E : option_map _ _ = _ |- _ => injection E as <- end.
      destruct (net_end_server _ _ _ _ _ _ _ _ _ _ Rs CR RD (proj1 (K c)) WS) as (l' & S1 & e' & -> & Q). cbn [on_server]. rewrite Q. cbn [map]. exists (S m). split; [eapply steps_act; eassumption|].
      assert (In c (accepted (server_trace tr))) as Ic by (destruct (in_dec Nat.eq_dec c (accepted (server_trace tr))); [assumption|exfalso; apply RD; now apply Acc]).
      pose proof (sum_change (weight tr f) (weight (tr ++ [VFlow c e]) (upd f c w)) c _ ND Ic (fun c' Nc => weight_other _ _ _ _ _ _ Nc)) as Z.
      enough (weight tr f c <= S (weight (tr ++ [VFlow c e]) (upd f c w) c)) by lia. unfold weight. rewrite taken_snoc, upd_eq, app_length. cbn [FlowServer.taken_of]. rewrite Nat.eqb_refl.
      inversion WS; subst; cbn [f_lock f_buf Flow.taken_of length]; destruct (f_lock (f c)); cbn [length]; lia.
Qed.
Lemma weights_le cap tr (x : FlowServer.state) : kept_all cap tr x -> weights tr x <= list_sum (map (fun c => 1 + cap + 2 * length (taken c tr)) (accepted (server_trace tr))).
Proof.
  intros K. unfold weights. induction (accepted (server_trace tr)) as [|c l IH]; [cbn; lia|]. cbn [map]. rewrite !sum_cons. destruct (K c) as [_ (_ & _ & B)].
  assert (weight tr (snd x) c <= 1 + cap + 2 * length (taken c tr)); [|lia]. unfold weight. destruct (f_lock (snd x c)); cbn [length]; lia.
Qed.
Theorem flow_bound cl cap d input n tr x : steps (FlowServer.step cl cap) (Server.init d input, fun _ => no_flow) n tr x ->
  n <= 150 + list_sum (map (fun c => 35 + 104 * length (input c) + cap + 2 * length (taken c tr)) (accepted (server_trace tr))).
Proof.
  intros H. destruct (server_steps _ _ _ _ _ _ _ H) as (m & A & Le). destruct x as [s f]. destruct (server_inv _ _ _ _ _ _ _ (steps_exec _ _ _ _ _ H)) as [_ K].
  pose proof (weights_le _ _ _ K) as W. destruct (input_bound _ _ _ _ _ _ A) as [_ B]. clear - Le W B.
  enough (G : forall l, 2 * list_sum (map (fun c => 17 + 52 * length (input c)) l) + list_sum (map (fun c => 1 + cap + 2 * length (taken c tr)) l)
            = list_sum (map (fun c => 35 + 104 * length (input c) + cap + 2 * length (taken c tr)) l)) by (rewrite <- G; lia).
  induction l as [|c l IH]; [reflexivity|]. cbn [map]. rewrite !sum_cons. lia.
Qed.

(* ---- runs in which nothing is written ---- *)
Lemma quiet_wants tr u i b : Conn.runs tr u -> wants u i b -> (exists b, In (Conn.ECall i (OWrite b)) tr) \/ In (EWin i) tr.
Proof.
  intros R [W|(x & W & _)]; [left|right; eapply msg_won; eauto]. pose proof (i_stage _ _ (runs_inv _ _ R) i) as S. rewrite W in S. cbn in S.
  exists b. apply (in_about i). rewrite S. now left.
Qed.
Lemma quiet_tcp tr u i x : Conn.runs tr u -> c_pc u i = PTcp x -> In (EWin i) tr.
Proof. intros R P. eapply msg_won; eauto. Qed.
Lemma quiet_calm tr u l u' f : Conn.runs tr u -> (forall i b, ~ In (Conn.ECall i (OWrite b)) tr) -> (forall i, ~ In (EWin i) tr) -> Conn.step u l u' -> calm u u' f.
Proof.
  intros R N W St. assert (Z : forall i b, ~ wants u i b) by (intros i b X; destruct (quiet_wants _ _ _ _ R X) as [[b' X']|X']; [exact (N _ _ X')|exact (W _ X')]).
  split; [intros i b X; exfalso; exact (Z _ _ X)|]. left. destruct (conn_cases _ _ _ St) as [(_ & T & _)|[(i & b & X & _)|(_ & (i & x & P & _) & _)]]; [exact T|exfalso; exact (Z _ _ X)|].
  exfalso. exact (W _ (quiet_tcp _ _ _ _ R P)).
Qed.
Theorem lift cl cap d input tr s : Server.runs cl d input tr s -> (forall c i k r, ~ In (SWrite c i k r) tr) -> (forall c i, ~ In (SConn c (EWin i)) tr) ->
  runs cl cap d input (map VServer tr) (s, fun _ => no_flow).
Proof.
  intros R. assert (G : forall tr s l s', Server.runs cl d input tr s -> Server.step cl s l s' -> (forall c i k r, ~ In (SWrite c i k r) tr) -> (forall c i, ~ In (SConn c (EWin i)) tr) ->
    forall c f, calm (s_conn s c) (s_conn s' c) f).
  { clear. intros tr s l s' R St N W c f. destruct (srv_conn _ _ _ _ (proj2 St) c) as [[-> _]|(l' & Sc & _)]; [apply calm_same|].
    eapply (quiet_calm (Server.conn_trace c tr)); [exact (proj2 (proj2 (runs_parts _ _ _ _ _ R)) c)| | |exact Sc].
    - intros i b X. apply in_conn in X as [X|[(i' & k & q & X & _)|(i' & k & r & _ & X)]]; [exact (no_write_calls _ _ _ _ _ _ _ _ R X)|discriminate|exact (N _ _ _ _ X)].
    - intros i X. apply in_conn in X as [X|[(i' & k & q & X & _)|(i' & k & r & X & _)]]; [exact (W _ _ X)|discriminate|discriminate]. }
  induction R as [|tr s1 s2 R IH St|tr s1 a s2 R IH St]; intros N W; [constructor| |].
  - eapply exec_tau; [exact (IH N W)|]. apply (srv cl cap s1 _ None); [exact St|]. intros c. exact (G _ _ _ _ R St N W c _).
  - assert (N' : forall c i k r, ~ In (SWrite c i k r) tr) by (intros c i k r X; apply (N c i k r), in_snoc; auto). assert (W' : forall c i, ~ In (SConn c (EWin i)) tr) by (intros c i X; apply (W c i), in_snoc; auto).
    rewrite map_app. eapply exec_act; [exact (IH N' W')|]. apply (srv cl cap s1 _ (Some a)); [exact St|]. intros c. exact (G _ _ _ _ R St N' W' c _).
Qed.
