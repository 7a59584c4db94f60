(* From any healthy state a request that was not dropped can still be answered. *)
From Coq Require Import List Arith Bool String Lia.
From Verif Require Import Base Lts Resp RespSpec RespProofs Engine Db DataChannel DataChannelProofs Topic TopicProofs Conn ConnProofs ServerSpec Server ServerProofs StopProofs RestSpec.
Import ListNotations.
Local Open Scope nat_scope.
Local Open Scope list_scope.

(* ---- a topic whose subscriber never leaves ---- *)
Section OneTopic.
  Context {A : Type}.
  Implicit Types (d : DataChannel.state A) (s : Topic.state A) (tr : list (Topic.event A)) (e : A).

  (* only finitely many calls, publications and goroutines are there *)
  Lemma chan_finite d l d' : DataChannel.step d l d' -> exists m, forall i, m <= i -> d_pc d' i = d_pc d i.
  Proof.
    intros St. destruct St; cbn [DataChannel.set_pc d_pc]; try (exists (S i); intros k Hk; rewrite upd_ne by lia; reflexivity).
    - exists (S (i + j)). intros k Hk. rewrite !upd_ne by lia. reflexivity.
    - exists 0. reflexivity.
  Qed.
  Lemma topic_finite s l s' : Topic.step s l s' -> exists m, forall i, m <= i -> p_phase (t_pub s' i) = p_phase (t_pub s i) /\ g_pc (t_g s' i) = g_pc (t_g s i) /\
    forall c, d_pc (t_ch s' c) i = d_pc (t_ch s c) i \/ d_pc (t_ch s' c) i = DataChannel.PIdle.
  Proof.
    intros St. destruct St; cbn [put_pub put_g put_ch t_subs t_next t_ch t_pub t_g];
      try (exists (S p); intros k Hk; rewrite ?upd_ne by lia; auto; fail);
      try (exists (S (g + g_pub (t_g s g))); intros k Hk; rewrite ?upd_ne by lia; auto; fail).
    - exists 0. intros k _. rewrite phase_store. split; [reflexivity|]. split; [reflexivity|]. intros c.
      destruct (upd_case (t_ch s) (t_next s) c (DataChannel.init cap)) as [[-> ->]|[_ ->]]; auto.
    - destruct (chan_finite _ _ _ H1) as [m Hm]. exists m. intros k Hk. split; [reflexivity|]. split; [reflexivity|]. intros c'.
      destruct (upd_case (t_ch s) c c' d) as [[-> ->]|[_ ->]]; auto.
    - exists (S (p + g)). intros k Hk. rewrite !upd_ne by lia. auto.
    - exists (S p). intros k Hk. rewrite upd_ne by lia. rewrite phase_delete. auto.
    - destruct (chan_finite _ _ _ H1) as [m Hm]. exists (S (g + m)). intros k Hk. rewrite upd_ne by lia. split; [reflexivity|]. split; [reflexivity|]. intros c'.
      destruct (upd_case (t_ch s) (g_chan (t_g s g)) c' d) as [[-> ->]|[_ ->]]; [|auto]. left. apply Hm. lia.
    - destruct (chan_finite _ _ _ H0) as [m Hm]. exists (S (g + m)). intros k Hk. rewrite upd_ne by lia. split; [reflexivity|]. split; [reflexivity|]. intros c'.
      destruct (upd_case (t_ch s) (g_chan (t_g s g)) c' d) as [[-> ->]|[_ ->]]; [|auto]. left. apply Hm. lia.
  Qed.
  Lemma runs_finite tr s : Topic.runs tr s -> exists n, forall i, n <= i -> p_phase (t_pub s i) = DNone /\ g_pc (t_g s i) = GNone /\ forall c, d_pc (t_ch s c) i = DataChannel.PIdle.
  Proof.
    revert tr s. apply (TopicProofs.runs_ind' (fun tr s => exists n, forall i, n <= i -> p_phase (t_pub s i) = DNone /\ g_pc (t_g s i) = GNone /\ forall c, d_pc (t_ch s c) i = DataChannel.PIdle)).
    - exists 0. cbn. auto.
    - intros tr s l s' _ [n I] St. destruct (topic_finite _ _ _ St) as [m M]. exists (n + m). intros i Hi. destruct (I i) as (I1 & I2 & I3); [lia|]. destruct (M i) as (M1 & M2 & M3); [lia|].
      rewrite M1, M2. split; [exact I1|]. split; [exact I2|]. intros c. destruct (M3 c) as [E|E]; rewrite E; auto.
  Qed.

  Lemma must_seen tr s : Topic.runs tr s -> forall p n, p_phase (t_pub s p) = DRange -> In n (p_must (t_pub s p)) -> (exists c, In (n, c) (p_seen (t_pub s p))) /\ ~ In n (p_visited (t_pub s p)).
  Proof.
    revert tr s. apply (TopicProofs.runs_ind' (fun tr s => forall p n, p_phase (t_pub s p) = DRange -> In n (p_must (t_pub s p)) -> (exists c, In (n, c) (p_seen (t_pub s p))) /\ ~ In n (p_visited (t_pub s p)))); [discriminate|].
    intros tr s l s' _ I St p' n'. destruct St; cbn [put_pub put_g put_ch t_subs t_next t_ch t_pub t_g]; auto;
      try (destruct (upd_case (t_pub s) p p' (mkP DStart (Some e) [] [] [] 0 0 [] None [])) as [[-> ->]|[_ ->]]; [discriminate|auto]; fail);
      try (match goal with |- context [upd (t_pub s) ?p0 ?x p'] => destruct (upd_case (t_pub s) p0 p' x) as [[-> ->]|[_ ->]] end; [cbn|auto]; try discriminate; try apply I; fail).
    - unfold note_store. destruct (p_phase (t_pub s p')) eqn:E; rewrite ?E; try discriminate. cbn. intros _ H. destruct (I _ _ E H) as [[c X] Y]. eauto.
    - destruct (upd_case (t_pub s) p p' (mkP DRange (p_event (t_pub s p)) (t_subs s) (map fst (t_subs s)) [] 0 0 [] None [])) as [[-> ->]|[_ ->]]; [cbn|auto].
      intros _ Hn. split; [|auto]. apply in_map_iff in Hn as ([n2 c] & E & Hn). cbn in E. subst. eauto.
    - match goal with |- context [upd (t_pub s) p ?x p'] => destruct (upd_case (t_pub s) p p' x) as [[-> ->]|[_ ->]] end; [cbn|auto].
      intros _ Hn. apply in_drop in Hn as [Hn Ne]. destruct (I _ _ H Hn) as [X Y]. split; [exact X|]. intros [Z|Z]; [congruence|auto].
    - match goal with |- context [upd ?f p ?x p'] => destruct (upd_case f p p' x) as [[-> ->]|[_ ->]] end; [discriminate|].
      rewrite phase_delete. unfold note_delete. destruct (p_phase (t_pub s p')) eqn:E; try discriminate. cbn. intros _ Hn. apply in_drop in Hn as [Hn _]. auto.
  Qed.
  Lemma odd_call tr s c i (o : DataChannel.op A) : Topic.runs tr s -> In (TChan c (DataChannel.ECall i o)) tr -> (exists e, o = OSend e) \/ Nat.odd i = true.
  Proof.
    revert tr s. apply (TopicProofs.runs_ind' (fun tr s => In (TChan c (DataChannel.ECall i o)) tr -> (exists e, o = OSend e) \/ Nat.odd i = true)); [contradiction|].
    intros tr s l s' _ I St H. apply TopicProofs.ext_inv in H as [H|H]; [auto|]. subst l. inversion St; subst; [|eauto].
    destruct l as [l|]; [|discriminate]. cbn in *. match goal with Q : Some _ = Some _ |- _ => inversion Q; subst end. cbn in *. tauto.
  Qed.

  (* where an event that was published, and not dropped, can be *)
  Inductive loc s e : Prop :=
  | l_start p : p_phase (t_pub s p) = DStart -> p_event (t_pub s p) = Some e -> loc s e
  | l_range p n : p_phase (t_pub s p) = DRange -> p_event (t_pub s p) = Some e -> In (n, 0) (p_seen (t_pub s p)) -> ~ In n (p_visited (t_pub s p)) -> loc s e
  | l_call g : g_pc (t_g s g) = GSend -> g_chan (t_g s g) = 0 -> p_event (t_pub s (g_pub (t_g s g))) = Some e -> d_pc (t_ch s 0) (sid g) = DataChannel.PIdle -> loc s e
  | l_send g : d_pc (t_ch s 0) (sid g) = PSend e -> loc s e.
  Lemma locate tr s n cap p e : Topic.runs tr s -> lone tr -> before tr (TSubscribe n 0 cap) (TPublish p e) -> (forall j, ~ In (TChan 0 (DataChannel.ECall j DataChannel.OClose)) tr) ->
    (forall i, ~ In (TChan 0 (DataChannel.ERet i (OSend e) RExpired)) tr) -> (forall i, d_pc (t_ch s 0) i <> DataChannel.PRet (OSend e) RExpired) ->
    loc s e \/ exists i, In (i, e) (puts (chan_trace 0 tr)).
  Proof.
    intros R L B NC NE NE'. pose proof (before_in _ _ _ B) as [Sb P].
    assert (K : TopicProofs.kept tr n).
    { intros q. refine (never_removed tr s n R _ q). intros c k j S1. rewrite (L _ _ _ S1). apply NC. }
    pose proof (runs_offers _ _ R p n e 0 cap B K) as O. destruct (runs_events _ _ R) as [Ev Ev']. pose proof (proj2 (Ev p e) P) as Pe.
    assert (lt0 : 0 < t_next s) by (apply (n_less _ _ (runs_names _ _ R) n); exists cap; exact Sb).
    destruct (proj1 (runs_chans _ _ R) 0 lt0) as [k0 D]. pose proof (DataChannelProofs.runs_inv _ _ _ D) as Iv.
    assert (NCl : ~ DataChannelProofs.closing (chan_trace 0 tr) (t_ch s 0)).
    { intros C. destruct (closed_called _ _ _ D C) as [j Hj]. apply ct_in in Hj. exact (NC _ Hj). }
    assert (V : In n (p_visited (t_pub s p)) -> loc s e \/ exists i, In (i, e) (puts (chan_trace 0 tr))).
    { intros Hv. apply (runs_visits _ _ R p n) in Hv as (g & c & Hv). destruct (visit_sub _ _ _ _ _ _ R Hv) as [k S1]. pose proof (L _ _ _ S1) as ->. clear k S1.
      destruct (visit_gor _ _ _ _ _ _ R Hv) as (G0 & G1 & G2 & G3). pose proof (gstage_inv _ _ _ (runs_gors _ _ R g)) as G. rewrite G1, G2, G3 in G.
      assert (Se : forall e', In (TChan 0 (DataChannel.ECall (sid g) (OSend e'))) (gproj g tr) -> e' = e).
      { intros e' X. apply in_gproj in X as [X _]. destruct (send_from _ _ R _ _ _ X) as (p' & g' & n' & Eg & V' & P'). apply sid_inj in Eg as <-.
        destruct (visit_gor _ _ _ _ _ _ R V') as (_ & G1' & _ & _). assert (p' = p) as -> by congruence. apply Ev in P'. congruence. }
      assert (Bk : forall e' r, gproj g tr = back p g n 0 e' r -> e' = e /\ In (DataChannel.ERet (sid g) (OSend e) r) (chan_trace 0 tr)).
      { intros e' r X. assert (e' = e) as -> by (apply Se; rewrite X; cbn; auto). split; [reflexivity|]. apply ct_in. apply (in_gproj g). rewrite X. cbn. auto. }
      destruct (g_pc (t_g s g)) as [| | | | |[|]|[|]] eqn:Pg; [congruence| | | | | | | |].
      - left. apply (l_call s e g); auto; [congruence|]. pose proof (DataChannelProofs.i_stage _ _ _ Iv (sid g)) as St.
        assert (N0 : forall o, ~ In (DataChannel.ECall (sid g) o) (DataChannelProofs.proj (sid g) (chan_trace 0 tr))).
        { intros o X. apply DataChannelProofs.in_proj in X as [X _]. apply ct_in in X. destruct (odd_call _ _ _ _ _ R X) as [[e' ->]|X'].
          - assert (Z : In (TChan 0 (DataChannel.ECall (sid g) (OSend e'))) (gproj g tr)) by (apply in_gproj; split; [exact X|cbn; apply Nat.eqb_refl]). rewrite G in Z. destruct Z as [Z|[]]. discriminate.
          - unfold sid in X'. rewrite Nat.odd_mul in X'. discriminate. }
        assert (C0 : forall h (p0 : DataChannel.pc A), DataChannelProofs.stage (sid g) h p0 -> p0 = DataChannel.PIdle \/ exists o, In (DataChannel.ECall (sid g) o) h).
        { clear. induction 1; cbn; eauto. destruct IHstage as [X|[o' X]]; [discriminate|]. right. exists o'. apply in_app_iff. auto. }
        destruct (C0 _ _ St) as [X|[o X]]; [exact X|]. exfalso. exact (N0 _ X).
      - destruct G as [e' G]. assert (e' = e) as -> by (apply Se; rewrite G; cbn; auto).
        assert (Hc : In (DataChannel.ECall (sid g) (OSend e)) (chan_trace 0 tr)) by (apply ct_in, (in_gproj g); rewrite G; cbn; auto).
        destruct (called_stage _ _ _ _ _ D Hc) as [X|[r X]].
        { intros r X. apply ct_in in X. assert (Z : In (TChan 0 (DataChannel.ERet (sid g) (OSend e) r)) (gproj g tr)) by (apply in_gproj; split; [exact X|cbn; apply Nat.eqb_refl]). rewrite G in Z. cbn in Z. intuition discriminate. }
        + left. exact (l_send s e g X).
        + pose proof (DataChannelProofs.i_stage _ _ _ Iv (sid g)) as St. rewrite X in St. inversion St; subst.
          * right. exists (sid g). apply puts_proj. exists x. split; [|assumption]. match goal with Q : _ = DataChannelProofs.proj _ _ |- _ => rewrite <- Q end. cbn. auto.
          * exfalso. apply NCl. right. right. left. eauto.
          * exfalso. exact (NE' _ X).
      - destruct G as [e' G]. destruct (Bk _ _ G) as [_ X]. destruct (send_result _ _ _ _ _ _ D X) as [[_ Y]|[[Y|Y] _]]; [eauto|discriminate|discriminate].
      - destruct G as [e' G]. destruct (Bk _ _ G) as [_ X]. exfalso. apply NCl. right. right. right. left. eauto.
      - destruct G as [e' G]. destruct (Bk _ _ G) as [_ X]. destruct (send_result _ _ _ _ _ _ D X) as [[_ Y]|[[Y|Y] _]]; [eauto|discriminate|discriminate].
      - destruct G as (e' & r & [-> | ->] & G); destruct (Bk _ _ G) as [_ X]; exfalso; [apply NCl; right; right; right; left; eauto|]. apply ct_in in X. exact (NE _ X).
      - destruct G as [e' G]. destruct (Bk _ _ G) as [_ X]. destruct (send_result _ _ _ _ _ _ D X) as [[_ Y]|[[Y|Y] _]]; [eauto|discriminate|discriminate].
      - destruct G as (e' & r & [-> | ->] & G); destruct (Bk _ _ G) as [_ X]; exfalso; [apply NCl; right; right; right; left; eauto|]. apply ct_in in X. exact (NE _ X). }
    unfold offer in O. destruct (p_phase (t_pub s p)) eqn:Ph; auto.
    - rewrite (Ev' _ Ph) in Pe. discriminate.
    - left. exact (l_start s e p Ph Pe).
    - destruct O as [O|O]; [|auto]. destruct (must_seen _ _ R _ _ Ph O) as [[c X] Y]. left. destruct (n_seen _ _ (runs_names _ _ R) _ _ _ X) as [k S1]. rewrite (L _ _ _ S1) in X.
      exact (l_range s e p n Ph Pe X Y).
  Qed.

  Ltac ch0 := cbn [put_pub put_g put_ch t_subs t_next t_ch t_pub t_g]; rewrite ?(upd_eq _ 0); cbn [DataChannel.set_pc d_pc d_buf d_cap d_crash].
  (* steps of a topic on its own that give no send up *)
  Definition keeps s s' : Prop := forall i e, d_pc (t_ch s' 0) i = DataChannel.PRet (OSend e) RExpired -> d_pc (t_ch s 0) i = DataChannel.PRet (OSend e) RExpired.
  Definition no_drop (l : option (Topic.event A)) : Prop := forall i e, l <> Some (TChan 0 (DataChannel.ERet i (OSend e) RExpired)).
  Definition tstep s (l : option (Topic.event A)) s' : Prop := Topic.step s l s' /\ free l /\ no_drop l /\ keeps s s'.
  (* what a step towards delivery leaves alone *)
  Definition odds s s' : Prop := forall i, Nat.odd i = true -> d_pc (t_ch s' 0) i = d_pc (t_ch s 0) i.
  Definition apart s s' : Prop := d_buf (t_ch s' 0) = d_buf (t_ch s 0) /\ d_cap (t_ch s' 0) = d_cap (t_ch s 0) /\ d_crash (t_ch s' 0) = d_crash (t_ch s 0) /\ t_next s' = t_next s /\ odds s s'.
  Lemma apart_trans s1 s2 s3 : apart s1 s2 -> apart s2 s3 -> apart s1 s3.
  Proof. intros (A1 & A2 & A3 & A4 & A5) (B1 & B2 & B3 & B4 & B5). split; [congruence|]. split; [congruence|]. split; [congruence|]. split; [congruence|]. intros i O. rewrite B5, A5; auto. Qed.
  Lemma odd_sid g : Nat.odd (sid g) = false.
  Proof. unfold sid. now rewrite Nat.odd_mul. Qed.
  Lemma to_send s e : loc s e -> d_crash (t_ch s 0) = false -> (exists n, In (n, 0) (t_subs s)) -> (exists g, g_pc (t_g s g) = GNone /\ d_pc (t_ch s 0) (sid g) = DataChannel.PIdle) ->
    exists tr s', exec tstep s tr s' /\ apart s s' /\ exists g, d_pc (t_ch s' 0) (sid g) = PSend e.
  Proof.
    intros Lo C Sb Fr.
    assert (Z : forall s, apart s s) by (intros u; do 4 (split; [reflexivity|]); intros i _; reflexivity).
    assert (T3 : forall s g, d_crash (t_ch s 0) = false -> g_pc (t_g s g) = GSend -> g_chan (t_g s g) = 0 -> p_event (t_pub s (g_pub (t_g s g))) = Some e -> d_pc (t_ch s 0) (sid g) = DataChannel.PIdle ->
      exists tr s', exec tstep s tr s' /\ apart s s' /\ exists g, d_pc (t_ch s' 0) (sid g) = PSend e).
    { clear. intros s g C Pg Cg Ev Id. pose proof (g_call s g e (DataChannel.set_pc (t_ch s 0) (sid g) (PSend e)) Pg Ev) as St. rewrite Cg in St. specialize (St (c_send _ _ _ C Id)).
      eexists. eexists. split; [apply exec_one; split; [exact St|]|].
      - split; [exact I|]. split; [intros ? ?; discriminate|]. intros i e'. ch0. destruct (upd_case (d_pc (t_ch s 0)) (sid g) i (PSend e)) as [[-> ->]|[_ ->]]; [discriminate|auto].
      - split; [|exists g; ch0; apply upd_eq]. unfold apart. ch0. do 4 (split; [reflexivity|]). intros i O. ch0. apply upd_ne. intros ->. rewrite odd_sid in O. discriminate. }
    assert (T2 : forall s p n, d_crash (t_ch s 0) = false -> (exists g, g_pc (t_g s g) = GNone /\ d_pc (t_ch s 0) (sid g) = DataChannel.PIdle) ->
      p_phase (t_pub s p) = DRange -> p_event (t_pub s p) = Some e -> In (n, 0) (p_seen (t_pub s p)) -> ~ In n (p_visited (t_pub s p)) ->
      exists tr s', exec tstep s tr s' /\ apart s s' /\ exists g, d_pc (t_ch s' 0) (sid g) = PSend e).
    { clear - T3 Z. intros s p n C (g & Fg & Fd) Ph Ev Hs Hv. pose proof (visit s p g n 0 Ph Hs Hv Fg) as St.
      match type of St with Topic.step _ _ ?x => destruct (T3 x g) as (tr & s' & E & Ap & X) end; [..|exists (TVisit p g n 0 :: tr), s'; split; [eapply exec_cons; [split; [exact St|]|exact E]|split; [|exact X]]].
      - exact C.
      - cbn. now rewrite upd_eq.
      - cbn. now rewrite upd_eq.
      - cbn. rewrite upd_eq. cbn. rewrite upd_eq. exact Ev.
      - exact Fd.
      - split; [exact I|]. split; [intros ? ?; discriminate|]. intros i e'. auto.
      - exact Ap. }
    destruct Lo as [p Ph Ev|p n Ph Ev Hs Hv|g Pg Cg Ev Id|g Pg].
    - destruct Sb as [n Sb]. pose proof (range s p Ph) as St.
      match type of St with Topic.step _ _ ?x => destruct (T2 x p n) as (tr & s' & E & Ap & X) end; [..|exists tr, s'; split; [eapply exec_cons_tau; [split; [exact St|]|exact E]|split; [|exact X]]].
      + exact C.
      + exact Fr.
      + cbn. now rewrite upd_eq.
      + cbn. rewrite upd_eq. exact Ev.
      + cbn. rewrite upd_eq. exact Sb.
      + cbn. rewrite upd_eq. cbn. auto.
      + split; [exact I|]. split; [intros ? ?; discriminate|]. intros i e'. auto.
      + exact Ap.
    - eapply T2; eauto.
    - eapply T3; eauto.
    - exists [], s. split; [apply exec_start|]. split; [apply Z|]. eauto.
  Qed.
  Lemma put_step s g e : d_crash (t_ch s 0) = false -> 0 < t_next s -> d_pc (t_ch s 0) (sid g) = PSend e -> List.length (d_buf (t_ch s 0)) < d_cap (t_ch s 0) ->
    exists s', tstep s (Some (TChan 0 (EPut (sid g) e))) s' /\ odds s s'.
  Proof.
    intros C Lt P B. eexists. split; [split; [exact (chan s 0 (Some (EPut (sid g) e)) _ Lt I (s_put _ _ _ C P B))|]|].
    - split; [exact I|]. split; [intros ? ?; discriminate|]. intros i e'. ch0. destruct (upd_case (d_pc (t_ch s 0)) (sid g) i (DataChannel.PRet (OSend e) RSuccess)) as [[-> ->]|[_ ->]]; [discriminate|auto].
    - intros i O. ch0. apply upd_ne. intros ->. rewrite odd_sid in O. discriminate.
  Qed.
  Lemma pass_step s g j e : d_crash (t_ch s 0) = false -> 0 < t_next s -> d_pc (t_ch s 0) (sid g) = PSend e -> d_pc (t_ch s 0) j = PRecv -> d_cap (t_ch s 0) = 0 ->
    exists s', tstep s (Some (TChan 0 (EPass (sid g) j e))) s' /\ d_pc (t_ch s' 0) j = DataChannel.PRet ORecv (REvent e) /\ d_crash (t_ch s' 0) = false /\ 0 < t_next s'.
  Proof.
    intros C Lt P Q B. eexists. split; [split; [exact (chan s 0 (Some (EPass (sid g) j e)) _ Lt I (s_pass _ _ _ _ C P Q B))|]|].
    - split; [exact I|]. split; [intros ? ?; discriminate|]. intros i e'. ch0.
      destruct (upd_case (upd (d_pc (t_ch s 0)) (sid g) (DataChannel.PRet (OSend e) RSuccess)) j i (DataChannel.PRet ORecv (REvent e))) as [[-> ->]|[_ ->]]; [discriminate|].
      destruct (upd_case (d_pc (t_ch s 0)) (sid g) i (DataChannel.PRet (OSend e) RSuccess)) as [[-> ->]|[_ ->]]; [discriminate|auto].
    - ch0. rewrite upd_eq. auto.
  Qed.

  Lemma err_flag cap (tr : list (DataChannel.event A)) d i : DataChannel.runs cap tr d -> d_pc d i = DataChannel.PRet ORecv DataChannel.RErrClosed -> d_flag d = true.
  Proof.
    revert tr d. apply (exec_inv DataChannel.step (fun (tr : list (DataChannel.event A)) d => d_pc d i = DataChannel.PRet ORecv DataChannel.RErrClosed -> d_flag d = true) (DataChannel.init cap)); [discriminate| |].
    - intros tr d d' I0 St. inversion St; subst; cbn [DataChannel.set_pc d_pc d_flag]; auto;
        match goal with |- context [upd ?f ?k ?x i] => destruct (upd_case f k i x) as [[-> ->]|[_ ->]]; [try discriminate; auto|auto] end.
    - intros tr d a d' I0 St. inversion St; subst; cbn [DataChannel.set_pc d_pc d_flag]; auto;
        repeat match goal with |- context [upd ?f ?k ?x i] => destruct (upd_case f k i x) as [[-> ->]|[_ ->]]; [discriminate|] end; auto.
  Qed.
  Definition open_topic s : Prop := d_crash (t_ch s 0) = false /\ d_flag (t_ch s 0) = false /\ 0 < t_next s /\ exists n, In (n, 0) (t_subs s).
  Lemma is_open tr s n cap : Topic.runs tr s -> lone tr -> In (TSubscribe n 0 cap) tr -> (forall j, ~ In (TChan 0 (DataChannel.ECall j DataChannel.OClose)) tr) -> open_topic s.
  Proof.
    intros R L Sb NC. assert (lt0 : 0 < t_next s) by (apply (n_less _ _ (runs_names _ _ R) n); exists cap; exact Sb).
    destruct (proj1 (runs_chans _ _ R) 0 lt0) as [k0 D]. destruct (DataChannelProofs.i_alive _ _ _ (DataChannelProofs.runs_inv _ _ _ D)) as [Al _].
    split; [exact Al|]. split; [|split; [exact lt0|]].
    - destruct (d_flag (t_ch s 0)) eqn:F; [|reflexivity]. exfalso. destruct (closed_called _ _ _ D) as [j Hj]; [now left|]. apply ct_in in Hj. exact (NC _ Hj).
    - assert (K : TopicProofs.kept tr n) by (intros q; refine (never_removed tr s n R _ q); intros c k j S1; rewrite (L _ _ _ S1); apply NC).
      assert (X : In n (map fst (t_subs s))) by (apply (runs_stays _ _ R n 0); [exists cap; exact Sb|exact K]). apply in_map_iff in X as ([n' c] & E & X). cbn in E. subst n'.
      destruct (n_subs _ _ (runs_names _ _ R) _ _ X) as [k S1]. rewrite (L _ _ _ S1) in X. eauto.
  Qed.
  Lemma receiving tr s j : Topic.runs tr s -> open_topic s -> In (TChan 0 (DataChannel.ECall j ORecv)) tr -> (forall r, ~ In (TChan 0 (DataChannel.ERet j ORecv r)) tr) ->
    Nat.odd j = true /\ (d_pc (t_ch s 0) j = PLoad \/ d_pc (t_ch s 0) j = PRecv \/ exists m, d_pc (t_ch s 0) j = DataChannel.PRet ORecv (REvent m)).
  Proof.
    intros R (_ & F & lt0 & _) Hc Hr. split; [destruct (odd_call _ _ _ _ _ R Hc) as [[e X]|X]; [discriminate|exact X]|].
    destruct (proj1 (runs_chans _ _ R) 0 lt0) as [k0 D]. destruct (called_stage _ _ _ _ _ D (proj2 (ct_in _ _ _) Hc)) as [[X|X]|[r X]]; auto.
    - intros r X. apply ct_in in X. exact (Hr _ X).
    - right. right. pose proof (DataChannelProofs.i_stage _ _ _ (DataChannelProofs.runs_inv _ _ _ D) j) as St. rewrite X in St. inversion St; subst; [eauto|].
      rewrite (err_flag _ _ _ _ D X) in F. discriminate.
  Qed.
  Lemma fresh tr s : Topic.runs tr s -> exists p g j, p_phase (t_pub s p) = DNone /\ g_pc (t_g s g) = GNone /\ d_pc (t_ch s 0) (sid g) = DataChannel.PIdle /\ Nat.odd j = true /\ d_pc (t_ch s 0) j = DataChannel.PIdle.
  Proof.
    intros R. destruct (runs_finite _ _ R) as [n Hn]. exists n, n, (2 * n + 1). split; [apply Hn; lia|]. split; [apply Hn; lia|]. split; [apply Hn; unfold sid; lia|].
    split; [|apply Hn; lia]. rewrite Nat.odd_add, Nat.odd_mul. reflexivity.
  Qed.
  (* a subscriber's own steps *)
  Lemma call_step s j : open_topic s -> Nat.odd j = true -> d_pc (t_ch s 0) j = DataChannel.PIdle ->
    Topic.step s (Some (TChan 0 (DataChannel.ECall j ORecv))) (put_ch s 0 (DataChannel.set_pc (t_ch s 0) j PLoad)).
  Proof. intros (C & F & Lt & _) O P. apply (chan s 0 (Some (DataChannel.ECall j ORecv)) _ Lt); [cbn; auto|]. now apply c_recv. Qed.
  Lemma open_step s j : open_topic s -> d_pc (t_ch s 0) j = PLoad -> Topic.step s None (put_ch s 0 (DataChannel.set_pc (t_ch s 0) j PRecv)).
  Proof. intros (C & F & Lt & _) P. apply (chan s 0 None _ Lt); [exact I|]. now apply r_open. Qed.
  Lemma take_step s j e b : open_topic s -> d_pc (t_ch s 0) j = PRecv -> d_buf (t_ch s 0) = e :: b ->
    Topic.step s (Some (TChan 0 (ETake j e))) (put_ch s 0 (mkD (d_cap (t_ch s 0)) b (d_flag (t_ch s 0)) (d_closed (t_ch s 0)) (upd (d_pc (t_ch s 0)) j (DataChannel.PRet ORecv (REvent e))) false)).
  Proof. intros (C & F & Lt & _) P B. apply (chan s 0 (Some (ETake j e)) _ Lt); [exact I|]. now apply r_take. Qed.
  Lemma got_step s j e : open_topic s -> Nat.odd j = true -> d_pc (t_ch s 0) j = DataChannel.PRet ORecv (REvent e) ->
    Topic.step s (Some (TChan 0 (DataChannel.ERet j ORecv (REvent e)))) (put_ch s 0 (DataChannel.set_pc (t_ch s 0) j DataChannel.PDone)).
  Proof. intros (C & F & Lt & _) O P. apply (chan s 0 (Some (DataChannel.ERet j ORecv (REvent e))) _ Lt); [cbn; auto|]. now apply c_ret. Qed.
End OneTopic.

(* ---- a connection ---- *)
Lemma conn_finite tr t : Conn.runs tr t -> exists n, forall i, n <= i -> c_pc t i = Conn.PIdle.
Proof.
  revert tr t. apply (exec_inv Conn.step (fun tr t => exists n, forall i, n <= i -> c_pc t i = Conn.PIdle) Conn.init).
  - exists 1. intros [|i] Hi; [lia|reflexivity].
  - intros tr t t' [n I] St. inversion St; subst; cbn [Conn.set_pc c_pc]; try (exists (S (n + i)); intros k Hk; rewrite upd_ne by lia; apply I; lia).
    + exists (S n). intros k Hk. rewrite upd_ne by lia. apply I; lia.
    + exists (S (n + i + j)). intros k Hk. rewrite !upd_ne by lia. apply I; lia.
  - intros tr t a t' [n I] St. inversion St; subst; cbn [Conn.set_pc c_pc]; try (exists (S (n + i)); intros k Hk; rewrite upd_ne by lia; apply I; lia).
    + exists (S n). intros k Hk. rewrite upd_ne by lia. apply I; lia.
    + exists n. exact I.
Qed.
(* the expiry worker is at its select or about to close, or the connection is closed *)
Definition watched (t : Conn.state) : Prop := c_flag t = true \/ c_pc t 0 = Conn.PLoop \/ c_pc t 0 = Conn.PCas false.
Lemma conn_watched tr t : Conn.runs tr t -> watched t.
Proof.
  unfold watched. intros R. induction R as [|tr t1 t2 R IH St|tr t1 a t2 R IH St]; [right; left; reflexivity| |];
    pose proof (ConnProofs.runs_inv _ _ R) as Iv; destruct IH as [F|W].
  1, 3: left; inversion St; subst; cbn; auto.
  - inversion St; subst; cbn [Conn.set_pc c_pc c_flag];
      try (right; match goal with |- context [upd ?f ?i ?x 0] => destruct (upd_case f i 0 x) as [[<- E]|[_ E]]; rewrite !E end; [|exact W]; destruct W as [W|W]; congruence).
    + left. apply (i_flag _ _ Iv). apply (i_chan _ _ Iv). assumption.
    + right. destruct (upd_case (upd (c_pc t1) i (Conn.PRet ORead Conn.RErrClosed)) j 0 PChk) as [[<- E]|[_ E]]; rewrite !E; [destruct W as [W|W]; congruence|].
      destruct (upd_case (c_pc t1) i 0 (Conn.PRet ORead Conn.RErrClosed)) as [[<- E']|[_ E']]; rewrite !E'; [destruct W as [W|W]; congruence|exact W].
    + auto.
  - inversion St; subst; cbn [Conn.set_pc c_pc c_flag]; auto;
      try (right; match goal with |- context [upd ?f ?i ?x 0] => destruct (upd_case f i 0 x) as [[<- E]|[_ E]]; rewrite !E end; [|exact W]; destruct W as [W|W]; congruence).
Qed.

(* a step of a connection in which no timer fires and the network says nothing *)
Definition cstep t l t' : Prop := Conn.step t l t' /\ free_conn l /\ l <> Some Conn.ETimer /\ forall j, c_pc t j = PReading -> c_pc t' j = PReading.
Ltac still := split; [exact I|split; [discriminate|]]; intros ?j ?Hj; cbn; match goal with |- upd ?f ?k ?x ?j = _ => destruct (upd_case f k j x) as [[-> _]|[_ ->]]; [congruence|assumption] end.
Lemma write_ends t i b : c_crash t = false -> watched t -> c_pc t i = PChkW b \/ (c_pc t i = PResetW b /\ c_pc t 0 = Conn.PLoop) \/ c_pc t i = PWriting b \/ (exists x, c_pc t i = Conn.PRet (OWrite b) x) ->
  exists tr t' x, exec cstep t tr t' /\ c_pc t' i = Conn.PRet (OWrite b) x /\ c_crash t' = false.
Proof.
  assert (P3 : forall t, c_crash t = false -> c_pc t i = PWriting b -> exists tr t' x, exec cstep t tr t' /\ c_pc t' i = Conn.PRet (OWrite b) x /\ c_crash t' = false).
  { intros u Cu Pu. eexists. eexists. eexists. split; [apply exec_one_tau; split; [exact (wr_fail u i b Cu Pu)|still]|]. cbn. rewrite upd_eq. auto. }
  assert (P2 : forall t, c_crash t = false -> c_pc t i = PResetW b -> c_pc t 0 = Conn.PLoop -> exists tr t' x, exec cstep t tr t' /\ c_pc t' i = Conn.PRet (OWrite b) x /\ c_crash t' = false).
  { intros u Cu Pu Wu. destruct (P3 (Conn.set_pc u i (PWriting b))) as (tr & t' & x & E & X); [exact Cu|cbn; apply upd_eq|]. exists tr, t', x. split; [|exact X].
    eapply exec_cons_tau; [|exact E]. split; [exact (reset_w u i b Cu Pu Wu)|still]. }
  assert (P1 : forall t, c_crash t = false -> c_pc t i = PChkW b -> c_flag t = true -> exists tr t' x, exec cstep t tr t' /\ c_pc t' i = Conn.PRet (OWrite b) x /\ c_crash t' = false).
  { intros u Cu Pu Fu. pose proof (wr_chk u i b Cu Pu) as St. rewrite Fu in St. eexists. eexists. eexists. split; [apply exec_one_tau; split; [exact St|still]|]. cbn. rewrite upd_eq. auto. }
  intros C W [P|[[P Q]|[P|[x P]]]].
  - destruct (c_flag t) eqn:F; [now apply P1|]. destruct W as [W|[W|W]]; [congruence| |].
    + assert (N : 0 <> i) by congruence. pose proof (wr_chk t i b C P) as St. rewrite F in St.
      destruct (P2 (Conn.set_pc t i (PResetW b))) as (tr & t' & x & E & X); [exact C|cbn; apply upd_eq|cbn; now rewrite upd_ne|]. exists tr, t', x. split; [|exact X].
      eapply exec_cons_tau; [|exact E]. split; [exact St|still].
    + assert (N : i <> 0) by congruence. pose proof (x_win t 0 false C W F) as St. match type of St with Conn.step _ _ ?u => destruct (P1 u) as (tr & t' & x & E & X) end; [reflexivity|cbn; now rewrite upd_ne|reflexivity|].
      exists (Conn.EWin 0 :: tr), t', x. split; [|exact X]. eapply exec_cons; [|exact E]. split; [exact St|still].
  - now apply P2.
  - now apply P3.
  - exists [], t, x. split; [apply exec_start|auto].
Qed.

(* ---- the server before any stop ---- *)
Lemma not_stopping cl s l s' : move cl s l s' -> s_stop s' = XNone -> s_stop s = XNone /\ (forall p, l <> Some (SReq (TPublish p QGone))) /\ (forall p, l <> Some (SRsp (TPublish p PGone))).
Proof. intros M E. moves M; unf; try congruence; (split; [assumption|]); split; intros ? Z; try discriminate; destruct l as [l|]; try discriminate; cbn in Z; inversion Z; subst; exact F. Qed.
Lemma before_stop cl d input tr s : runs cl d input tr s -> s_stop s = XNone -> s_reqs s = true /\ s_rsps s = true /\ (forall p, ~ In (SReq (TPublish p QGone)) tr) /\ (forall p, ~ In (SRsp (TPublish p PGone)) tr).
Proof.
  revert tr s. apply (runs_ind' cl d input (fun tr s => s_stop s = XNone -> s_reqs s = true /\ s_rsps s = true /\ (forall p, ~ In (SReq (TPublish p QGone)) tr) /\ (forall p, ~ In (SRsp (TPublish p PGone)) tr))); [easy|].
  intros tr s l s' _ I M Z0. destruct (not_stopping _ _ _ _ M Z0) as (Z1 & N1 & N2). destruct (I Z1) as (A & B & C & D).
  assert (Q : s_reqs s' = true /\ s_rsps s' = true) by (clear - A B M Z0 Z1; moves M; unf; try discriminate; try congruence; auto).
  destruct Q as [Q1 Q2]. do 2 (split; [assumption|]). split; intros p H; apply ext_inv in H as [H|H]; [exact (C _ H)|exact (N1 _ H)|exact (D _ H)|exact (N2 _ H)].
Qed.
Lemma no_close_calls cl d input tr s : runs cl d input tr s -> forall c j, ~ In (SReq (TChan c (DataChannel.ECall j DataChannel.OClose))) tr /\ ~ In (SRsp (TChan c (DataChannel.ECall j DataChannel.OClose))) tr.
Proof.
  revert tr s. apply (runs_ind' cl d input (fun tr s => forall c j, ~ In (SReq (TChan c (DataChannel.ECall j DataChannel.OClose))) tr /\ ~ In (SRsp (TChan c (DataChannel.ECall j DataChannel.OClose))) tr)); [easy|].
  intros tr s l s' _ I M c0 j0. destruct (I c0 j0) as [A B]. split; intros H; (apply ext_inv in H as [H|H]; [easy|]); moves M; try discriminate; destruct l as [l|]; try discriminate; cbn in H; inversion H; subst; exact F.
Qed.

Lemma rets {A} tr (s : Topic.state A) j t r : Topic.runs tr s -> Topic.step s (Some (TChan 0 (DataChannel.ECall j ORecv))) t -> ~ In (TChan 0 (DataChannel.ERet j ORecv r)) tr.
Proof.
  intros R St H. destruct (TopicProofs.chan_runs _ _ _ _ R H) as (cap & D). apply TopicProofs.ct_in in H. destruct (DataChannelProofs.returned _ _ _ _ _ _ D H) as [E _].
  assert (exists d, DataChannel.step (t_ch s 0) (Some (DataChannel.ECall j ORecv)) d) as (d & X).
  { inversion St; subst; eauto. destruct l; [|discriminate]. cbn in *. match goal with Q : Some _ = Some _ |- _ => inversion Q; subst end. eauto. }
  inversion X; subst. rewrite E in *. discriminate.
Qed.
Lemma eng_at cl d input tr s j0 : runs cl d input tr s -> s_eng s = EWait j0 -> In (SReq (TChan 0 (DataChannel.ECall j0 ORecv))) tr /\ forall r, ~ In (SReq (TChan 0 (DataChannel.ERet j0 ORecv r))) tr.
Proof.
  revert tr s. apply (runs_ind' cl d input (fun tr s => s_eng s = EWait j0 -> In (SReq (TChan 0 (DataChannel.ECall j0 ORecv))) tr /\ forall r, ~ In (SReq (TChan 0 (DataChannel.ERet j0 ORecv r))) tr)); [easy|].
  intros tr s l s' R I0 M H. assert (Fr : s_eng s = EWait j0 -> (forall r, l <> Some (SReq (TChan 0 (DataChannel.ERet j0 ORecv r)))) -> In (SReq (TChan 0 (DataChannel.ECall j0 ORecv))) (ext tr l) /\ forall r, ~ In (SReq (TChan 0 (DataChannel.ERet j0 ORecv r))) (ext tr l)).
  { intros H0 N. destruct (I0 H0) as [U V]. split; [now apply ext_in|]. intros r0 Z. apply ext_inv in Z as [Z|Z]; [exact (V _ Z)|exact (N _ Z)]. }
  pose proof (runs_parts _ _ _ _ _ R) as (T0 & _ & _). moves M; unf; try congruence; try (apply Fr; [assumption|first [discriminate|intros ?; destruct l; discriminate]]).
  - assert (j = j0) as -> by congruence. split; [cbn; apply in_snoc; auto|]. intros r0 Z. apply ext_inv in Z as [Z|Z]; [|discriminate].
    eapply (rets _ _ _ _ r0 T0 St). apply in_req. auto.
  - destruct m; discriminate.
  - destruct o; discriminate.
  - apply Fr; [assumption|]. intros r0 Z. destruct l as [l|]; [|discriminate]. cbn in Z. inversion Z; subst. exact F.
Qed.
Lemma wrk_at cl d input tr s j0 : runs cl d input tr s -> s_wrk s = WWait j0 -> In (SRsp (TChan 0 (DataChannel.ECall j0 ORecv))) tr /\ forall r, ~ In (SRsp (TChan 0 (DataChannel.ERet j0 ORecv r))) tr.
Proof.
  revert tr s. apply (runs_ind' cl d input (fun tr s => s_wrk s = WWait j0 -> In (SRsp (TChan 0 (DataChannel.ECall j0 ORecv))) tr /\ forall r, ~ In (SRsp (TChan 0 (DataChannel.ERet j0 ORecv r))) tr)); [easy|].
  intros tr s l s' R I0 M H. assert (Fr : s_wrk s = WWait j0 -> (forall r, l <> Some (SRsp (TChan 0 (DataChannel.ERet j0 ORecv r)))) -> In (SRsp (TChan 0 (DataChannel.ECall j0 ORecv))) (ext tr l) /\ forall r, ~ In (SRsp (TChan 0 (DataChannel.ERet j0 ORecv r))) (ext tr l)).
  { intros H0 N. destruct (I0 H0) as [U V]. split; [now apply ext_in|]. intros r0 Z. apply ext_inv in Z as [Z|Z]; [exact (V _ Z)|exact (N _ Z)]. }
  pose proof (runs_parts _ _ _ _ _ R) as (_ & T0 & _). moves M; unf; try congruence; try (apply Fr; [assumption|first [discriminate|intros ?; destruct l; discriminate]]).
  - assert (j = j0) as -> by congruence. split; [cbn; apply in_snoc; auto|]. intros r0 Z. apply ext_inv in Z as [Z|Z]; [|discriminate].
    eapply (rets _ _ _ _ r0 T0 St). apply in_rsp. auto.
  - destruct m; discriminate.
  - apply Fr; [assumption|]. intros r0 Z. destruct l as [l|]; [|discriminate]. cbn in Z. inversion Z; subst. exact F.
Qed.
Lemma write_returned tr t i o r : Conn.runs tr t -> In (Conn.ERet i o r) tr -> c_pc t i = Conn.PDone.
Proof.
  intros R H. pose proof (ConnProofs.i_stage _ _ (ConnProofs.runs_inv _ _ R) i) as St. assert (Z : In (Conn.ERet i o r) (ConnProofs.proj i tr)) by (apply ConnProofs.in_proj; cbn; now rewrite Nat.eqb_refl).
  assert (NR : forall o' r' h, at_ret i o' r' h -> ~ In (Conn.ERet i o r) h).
  { intros o' r' h A X. destruct o' as [|b0|]; cbn in A; [subst; cbn in X; intuition discriminate| |].
    - destruct A as [[-> _]|[[-> _]|(p & _ & -> & _)]]; cbn in X; intuition discriminate.
    - destruct A as [[-> _]|(p & -> & _)]; cbn in X; intuition discriminate. }
  destruct (c_pc t i) as [| | |b0| |b0|b0| |x|x|x|x|o' r'|]; cbn in St; try (rewrite St in Z; cbn in Z; intuition discriminate); try (destruct x; rewrite St in Z; cbn in Z; intuition discriminate);
    try (destruct St as [q St]; destruct x; rewrite St in Z; cbn in Z; intuition discriminate); [|reflexivity].
  exfalso. exact (NR _ _ _ St Z).
Qed.
Lemma write_in cl d input tr s c0 i0 k0 r0 : runs cl d input tr s -> s_wrk s = WIn c0 i0 k0 r0 -> In (SWrite c0 i0 k0 r0) tr /\ forall x, ~ In (SConn c0 (Conn.ERet i0 (OWrite (encode r0)) x)) tr.
Proof.
  revert tr s. apply (runs_ind' cl d input (fun tr s => s_wrk s = WIn c0 i0 k0 r0 -> In (SWrite c0 i0 k0 r0) tr /\ forall x, ~ In (SConn c0 (Conn.ERet i0 (OWrite (encode r0)) x)) tr)); [easy|].
  intros tr s l s' R I0 M H. assert (Fr : s_wrk s = WIn c0 i0 k0 r0 -> (forall x, l <> Some (SConn c0 (Conn.ERet i0 (OWrite (encode r0)) x))) -> In (SWrite c0 i0 k0 r0) (ext tr l) /\ forall x, ~ In (SConn c0 (Conn.ERet i0 (OWrite (encode r0)) x)) (ext tr l)).
  { intros H0 N. destruct (I0 H0) as [U V]. split; [now apply ext_in|]. intros x0 Z. apply ext_inv in Z as [Z|Z]; [exact (V _ Z)|exact (N _ Z)]. }
  pose proof (runs_parts _ _ _ _ _ R) as (_ & _ & T0). moves M; unf; try congruence; try (apply Fr; [assumption|first [discriminate|intros ?; destruct l; discriminate]]).
  - destruct m; discriminate.
  - inversion H; subst. split; [cbn; apply in_snoc; auto|]. intros x0 Z. apply ext_inv in Z as [Z|Z]; [|discriminate].
    assert (Y : In (Conn.ERet i0 (OWrite (encode r0)) x0) (conn_trace c0 tr)) by (apply in_conn; auto). pose proof (write_returned _ _ _ _ _ (T0 c0) Y) as Y'. inversion St; subst. congruence.
  - apply Fr; [assumption|]. intros r1 Z. destruct l as [l|]; [|discriminate]. cbn in Z. inversion Z; subst. exact F.
Qed.

Ltac ch0 := cbn [put_pub put_g put_ch t_subs t_next t_ch t_pub t_g]; rewrite ?(upd_eq _ 0); cbn [DataChannel.set_pc d_pc d_buf d_cap d_crash].
Ltac kp := unfold keeps; intros ? ?; unf; ch0; repeat match goal with |- context [upd ?f ?k ?x ?i] => destruct (upd_case f k i x) as [[-> ->]|[_ ->]]; [try discriminate|] end; auto.
Definition set_conns (s : state) f := mkS (s_req s) (s_rsp s) f (s_in s) (s_rd s) (s_db s) (s_eng s) (s_wrk s) (s_reqs s) (s_rsps s) (s_stop s) (s_crash s).
Lemma rsp_cap cl d input tr s : runs cl d input tr s -> 0 < t_next (s_rsp s) /\ d_cap (t_ch (s_rsp s) 0) = 100.
Proof.
  revert tr s. apply runs_ind'; [cbn; split; [lia|reflexivity]|]. intros tr s l s' _ [L C] M.
  assert (s_rsp s' = s_rsp s \/ exists x, Topic.step (s_rsp s) x (s_rsp s')) as [->|(x & St)]; [moves M; unf; eauto|auto|].
  destruct (cap_topic _ _ _ St L) as [X Y]. split; [exact X|congruence].
Qed.
Lemma wrk_there cl d input tr s : runs cl d input tr s -> s_stop s = XNone -> s_wrk s <> WOver.
Proof.
  intros R. pose proof R as R0. revert tr s R R0. apply (runs_ind' cl d input (fun tr s => runs cl d input tr s -> s_stop s = XNone -> s_wrk s <> WOver)); [easy|].
  intros tr s l s' R I0 M R' Z0. destruct (not_stopping _ _ _ _ M Z0) as (Z1 & _ & _). specialize (I0 R Z1). destruct (before_stop _ _ _ _ _ R' Z0) as (_ & _ & _ & NG).
  moves M; unf; try congruence; try (unfold shut in X; rewrite Z1 in X; easy).
  destruct m; [discriminate|]. intros _. destruct (runs_parts _ _ _ _ _ R') as (_ & T0 & _).
  destruct (got_published _ _ 0 j PGone T0) as (p & Pp); [apply in_rsp; right; cbn; apply in_snoc; auto|]. apply in_rsp in Pp as [Pp|Pp]; [discriminate|]. exact (NG _ Pp).
Qed.
Lemma eng_there cl d input tr s : runs cl d input tr s -> s_stop s = XNone -> s_eng s <> EOver.
Proof.
  intros R. pose proof R as R0. revert tr s R R0. apply (runs_ind' cl d input (fun tr s => runs cl d input tr s -> s_stop s = XNone -> s_eng s <> EOver)); [easy|].
  intros tr s l s' R I0 M R' Z0. destruct (not_stopping _ _ _ _ M Z0) as (Z1 & _ & _). specialize (I0 R Z1). destruct (before_stop _ _ _ _ _ R' Z0) as (_ & _ & NG & _).
  moves M; unf; try congruence; try (destruct X; congruence).
  - destruct m; [discriminate|]. intros _. destruct (runs_parts _ _ _ _ _ R') as (T0 & _ & _).
    destruct (got_published _ _ 0 j QGone T0) as (p & Pp); [apply in_req; right; cbn; apply in_snoc; auto|]. apply in_req in Pp as [Pp|Pp]; [discriminate|]. exact (NG _ Pp).
  - exfalso. destruct (runs_parts _ _ _ _ _ R) as (T0 & _ & _). destruct (req_lone _ _ _ _ _ R) as [L0 _].
    assert (O : open_topic (s_req s)). { apply (is_open (req_trace tr) _ "engine" 0); [exact T0|exact L0|apply in_req; auto|]. intros j0 Hj. apply in_req in Hj as [Hj|Hj]; [discriminate|]. exact (proj1 (no_close_calls _ _ _ _ _ R 0 j0) Hj). }
    destruct (eng_at _ _ _ _ _ _ R P) as [Hc Hr]. destruct (receiving (req_trace tr) _ j T0 O) as (_ & Pc).
    { apply in_req. auto. } { intros r Hq. apply in_req in Hq as [Hq|Hq]; [discriminate|]. exact (Hr _ Hq). }
    assert (exists x, DataChannel.step (t_ch (s_req s) 0) (Some (DataChannel.ERet j ORecv DataChannel.RErrClosed)) x) as (x & Dx).
    { inversion St; subst; eauto. destruct l; [|discriminate]. cbn in *. match goal with Q : Some _ = Some _ |- _ => inversion Q; subst end. eauto. }
    inversion Dx; subst. destruct Pc as [Pc|[Pc|[m Pc]]]; congruence.
  - destruct o; discriminate.
Qed.

Section Drive.
  Context (cl : bool) (d0 : db) (input : nat -> bytes) (e0 : env).
  Implicit Types (s : state) (tr : list event).
  Definition undropped (l : option event) : Prop := (forall i e, l <> Some (SReq (TChan 0 (DataChannel.ERet i (OSend e) RExpired)))) /\ (forall i e, l <> Some (SRsp (TChan 0 (DataChannel.ERet i (OSend e) RExpired)))).
  Definition calm s (l : option event) s' : Prop := (forall c, l <> Some (SAccept c)) /\ (forall c, l <> Some (SConn c Conn.ETimer)) /\ l <> Some SCrash /\ forall c i, c_pc (s_conn s c) i = PReading -> c_pc (s_conn s' c) i = PReading.
  Definition gstep s (l : option event) s' : Prop := step cl s l s' /\ s_crash s' = false /\ s_stop s' = XNone /\ undropped l /\ calm s l s' /\ keeps (s_req s) (s_req s') /\ keeps (s_rsp s) (s_rsp s').
  Ltac qt := split; [discriminate|split; [discriminate|split; [discriminate|]]]; intros ?c' ?i' ?H'; unf; first [assumption|
    match goal with |- c_pc (upd ?f ?k ?x ?j) _ = _ => destruct (upd_case f k j x) as [[-> ->]|[_ ->]]; [|assumption] end;
    cbn; try match goal with |- upd ?f ?k ?x ?j = _ => destruct (upd_case f k j x) as [[-> ->]|[_ ->]]; [exfalso; cbn in *; congruence|assumption] end].
  Definition good tr s : Prop := runs cl d0 input tr s /\ s_crash s = false /\ s_stop s = XNone.
  Lemma keeps_refl {A} (t : Topic.state A) : keeps t t.
  Proof. intros i e. auto. Qed.
  Lemma good_exec tr s tr' s' : good tr s -> exec gstep s tr' s' -> good (tr ++ tr') s'.
  Proof.
    intros G E. induction E as [|tr' s1 s2 E IH (St & C & X & _)|tr' s1 a s2 E IH (St & C & X & _)]; [now rewrite app_nil_r| |]; destruct IH as (R & _).
    - split; [exact (exec_tau _ _ _ _ _ R St)|auto].
    - split; [rewrite app_assoc; exact (exec_act _ _ _ _ _ _ R St)|auto].
  Qed.
  Lemma exec_plain s tr' s' : exec gstep s tr' s' -> exec (step cl) s tr' s'.
  Proof. induction 1 as [|tr' s1 s2 E IH (St & _)|tr' s1 a s2 E IH (St & _)]; [apply exec_start|exact (exec_tau _ _ _ _ _ IH St)|exact (exec_act _ _ _ _ _ _ IH St)]. Qed.
  (* no send is given up on the way *)
  Definition sure_req tr s e : Prop := (forall i, ~ In (SReq (TChan 0 (DataChannel.ERet i (OSend e) RExpired))) tr) /\ forall i, d_pc (t_ch (s_req s) 0) i <> DataChannel.PRet (OSend e) RExpired.
  Definition sure_rsp tr s e : Prop := (forall i, ~ In (SRsp (TChan 0 (DataChannel.ERet i (OSend e) RExpired))) tr) /\ forall i, d_pc (t_ch (s_rsp s) 0) i <> DataChannel.PRet (OSend e) RExpired.
  Lemma sure_exec tr s tr' s' : exec gstep s tr' s' -> (forall e, sure_req tr s e -> sure_req (tr ++ tr') s' e) /\ (forall e, sure_rsp tr s e -> sure_rsp (tr ++ tr') s' e).
  Proof.
    intros E. induction E as [|tr' s1 s2 E IH (St & _ & _ & (U1 & U2) & _ & K1 & K2)|tr' s1 a s2 E IH (St & _ & _ & (U1 & U2) & _ & K1 & K2)]; [rewrite app_nil_r; auto| |];
      destruct IH as [I1 I2]; split; intros e Hs; [destruct (I1 e Hs) as [Q1 Q2]|destruct (I2 e Hs) as [Q1 Q2]|destruct (I1 e Hs) as [Q1 Q2]|destruct (I2 e Hs) as [Q1 Q2]];
      (split; [|intros i X; first [apply K1 in X|apply K2 in X]; exact (Q2 _ X)]); auto; intros i X; rewrite app_assoc in X; apply in_snoc in X as [X|X]; try exact (Q1 _ X).
    - exact (U1 i e (f_equal Some (eq_sym X))).
    - exact (U2 i e (f_equal Some (eq_sym X))).
  Qed.

  Lemma good_open tr s : good tr s -> open_topic (s_req s) /\ open_topic (s_rsp s).
  Proof.
    intros (R & _). destruct (runs_parts _ _ _ _ _ R) as (T1 & T2 & _). destruct (req_lone _ _ _ _ _ R) as [L1 L2]. split.
    - apply (is_open (req_trace tr) _ "engine" 0); [exact T1|exact L1|apply in_req; auto|]. intros j0 Hj. apply in_req in Hj as [Hj|Hj]; [discriminate|]. exact (proj1 (no_close_calls _ _ _ _ _ R 0 j0) Hj).
    - apply (is_open (rsp_trace tr) _ "server" 100); [exact T2|exact L2|apply in_rsp; auto|]. intros j0 Hj. apply in_rsp in Hj as [Hj|Hj]; [discriminate|]. exact (proj2 (no_close_calls _ _ _ _ _ R 0 j0) Hj).
  Qed.
  Lemma eng_pc tr s j : good tr s -> s_eng s = EWait j -> Nat.odd j = true /\ (d_pc (t_ch (s_req s) 0) j = PLoad \/ d_pc (t_ch (s_req s) 0) j = PRecv \/ exists m, d_pc (t_ch (s_req s) 0) j = DataChannel.PRet ORecv (REvent m)).
  Proof.
    intros G E. destruct (good_open _ _ G) as [O _]. destruct G as (R & _). destruct (runs_parts _ _ _ _ _ R) as (T1 & _ & _). destruct (eng_at _ _ _ _ _ _ R E) as [Hc Hr].
    apply (receiving (req_trace tr) _ j T1 O); [apply in_req; auto|]. intros r Hq. apply in_req in Hq as [Hq|Hq]; [discriminate|]. exact (Hr _ Hq).
  Qed.
  Lemma wrk_pc tr s j : good tr s -> s_wrk s = WWait j -> Nat.odd j = true /\ (d_pc (t_ch (s_rsp s) 0) j = PLoad \/ d_pc (t_ch (s_rsp s) 0) j = PRecv \/ exists m, d_pc (t_ch (s_rsp s) 0) j = DataChannel.PRet ORecv (REvent m)).
  Proof.
    intros G E. destruct (good_open _ _ G) as [_ O]. destruct G as (R & _). destruct (runs_parts _ _ _ _ _ R) as (_ & T1 & _). destruct (wrk_at _ _ _ _ _ _ R E) as [Hc Hr].
    apply (receiving (rsp_trace tr) _ j T1 O); [apply in_rsp; auto|]. intros r Hq. apply in_rsp in Hq as [Hq|Hq]; [discriminate|]. exact (Hr _ Hq).
  Qed.

  (* steps of the parts are steps of the server *)
  Lemma undrop_req (l : option (Topic.event request)) : no_drop l -> undropped (option_map SReq l).
  Proof. intros N. split; intros i e Z; destruct l as [l|]; try discriminate. cbn in Z. inversion Z; subst. exact (N _ _ eq_refl). Qed.
  Lemma undrop_rsp (l : option (Topic.event response)) : no_drop l -> undropped (option_map SRsp l).
  Proof. intros N. split; intros i e Z; destruct l as [l|]; try discriminate. cbn in Z. inversion Z; subst. exact (N _ _ eq_refl). Qed.
  Lemma lift_req s (tr : list (Topic.event request)) t' : s_crash s = false -> s_stop s = XNone -> exec tstep (s_req s) tr t' -> exec gstep s (map SReq tr) (set_req s t').
  Proof.
    intros C X E. induction E as [|tr t1 t2 E IH (St & F & N & K)|tr t1 a t2 E IH (St & F & N & K)].
    - destruct s. apply exec_start.
    - eapply exec_tau; [exact IH|]. split; [split; [exact C|exact (req_free cl (set_req s t1) None t2 F St)]|]. split; [exact C|]. split; [exact X|]. split; [exact (undrop_req None N)|]. split; [qt|]. split; [exact K|apply keeps_refl].
    - rewrite map_app. eapply exec_act; [exact IH|]. split; [split; [exact C|exact (req_free cl (set_req s t1) (Some a) t2 F St)]|]. split; [exact C|]. split; [exact X|]. split; [exact (undrop_req (Some a) N)|]. split; [qt|]. split; [exact K|apply keeps_refl].
  Qed.
  Lemma lift_rsp s (tr : list (Topic.event response)) t' : s_crash s = false -> s_stop s = XNone -> exec tstep (s_rsp s) tr t' -> exec gstep s (map SRsp tr) (set_rsp s t').
  Proof.
    intros C X E. induction E as [|tr t1 t2 E IH (St & F & N & K)|tr t1 a t2 E IH (St & F & N & K)].
    - destruct s. apply exec_start.
    - eapply exec_tau; [exact IH|]. split; [split; [exact C|exact (rsp_free cl (set_rsp s t1) None t2 F St)]|]. split; [exact C|]. split; [exact X|]. split; [exact (undrop_rsp None N)|]. split; [qt|]. split; [apply keeps_refl|exact K].
    - rewrite map_app. eapply exec_act; [exact IH|]. split; [split; [exact C|exact (rsp_free cl (set_rsp s t1) (Some a) t2 F St)]|]. split; [exact C|]. split; [exact X|]. split; [exact (undrop_rsp (Some a) N)|]. split; [qt|]. split; [apply keeps_refl|exact K].
  Qed.
  Lemma lift_conn' s c (tr : list Conn.event) t' : s_crash s = false -> s_stop s = XNone -> s_rd s c <> RNone -> exec cstep (s_conn s c) tr t' ->
    exists f, exec gstep s (map (SConn c) tr) (set_conns s f) /\ f c = t'.
  Proof.
    intros C X N E. induction E as [|tr t1 t2 E IH (St & F & T & Pr)|tr t1 a t2 E IH (St & F & T & Pr)].
    - exists (s_conn s). split; [destruct s; apply exec_start|reflexivity].
    - destruct IH as (f & IH & Ef). exists (upd f c t2). split; [|apply upd_eq]. eapply exec_tau; [exact IH|]. rewrite <- Ef in St, Pr.
      split; [split; [exact C|exact (conn_free cl (set_conns s f) c None t2 N F St)]|]. split; [exact C|]. split; [exact X|]. split; [split; discriminate|]. split; [split; [discriminate|split; [intros c1 Z; first [discriminate|inversion Z; subst; apply T; reflexivity]|split; [discriminate|]]]; intros c1 i1 H1; unf; cbn in *; destruct (upd_case f c c1 t2) as [[-> ->]|[_ ->]]; auto|]. split; apply keeps_refl.
    - destruct IH as (f & IH & Ef). exists (upd f c t2). split; [|apply upd_eq]. rewrite map_app. eapply exec_act; [exact IH|]. rewrite <- Ef in St, Pr.
      split; [split; [exact C|exact (conn_free cl (set_conns s f) c (Some a) t2 N F St)]|]. split; [exact C|]. split; [exact X|]. split; [split; discriminate|]. split; [split; [discriminate|split; [intros c1 Z; first [discriminate|inversion Z; subst; apply T; reflexivity]|split; [discriminate|]]]; intros c1 i1 H1; unf; cbn in *; destruct (upd_case f c c1 t2) as [[-> ->]|[_ ->]]; auto|]. split; apply keeps_refl.
  Qed.

  (* ---- the response worker ---- *)
  Definition evens {A} (t t' : Topic.state A) : Prop := t_pub t' = t_pub t /\ t_g t' = t_g t /\ forall g, d_pc (t_ch t' 0) (sid g) = d_pc (t_ch t 0) (sid g).
  Lemma evens_trans {A} (t1 t2 t3 : Topic.state A) : evens t1 t2 -> evens t2 t3 -> evens t1 t3.
  Proof. intros (A1 & A2 & A3) (B1 & B2 & B3). split; [congruence|]. split; [congruence|]. intros g. rewrite B3. apply A3. Qed.
  Lemma evens_refl {A} (t : Topic.state A) : evens t t.
  Proof. split; [reflexivity|]. split; reflexivity. Qed.
  Lemma evens_loc {A} (t t' : Topic.state A) e : evens t t' -> loc t e -> loc t' e.
  Proof.
    intros (A1 & A2 & A3) [p Ph Ev|p n Ph Ev Hs Hv|g Pg Cg Ev Id|g Pg].
    - apply (l_start _ _ p); congruence.
    - apply (l_range _ _ p n); congruence.
    - apply (l_call _ _ g); congruence.
    - apply (l_send _ _ g). congruence.
  Qed.
  Definition wsame s s' : Prop := s_req s' = s_req s /\ s_eng s' = s_eng s /\ s_rd s' = s_rd s /\ s_db s' = s_db s /\ evens (s_rsp s) (s_rsp s').
  Lemma wsame_trans s1 s2 s3 : wsame s1 s2 -> wsame s2 s3 -> wsame s1 s3.
  Proof. intros (A1 & A2 & A3 & A4 & A5) (B1 & B2 & B3 & B4 & B5). do 4 (split; [congruence|]). eapply evens_trans; eassumption. Qed.
  Definition unblocked s : Prop := forall c i k r b, s_wrk s = WIn c i k r -> c_pc (s_conn s c) i = PResetW b -> c_pc (s_conn s c) 0 = Conn.PLoop.
  Lemma w_in tr s c i k r : good tr s -> s_wrk s = WIn c i k r -> unblocked s -> exists tr' s', exec gstep s tr' s' /\ s_wrk s' = WIdle /\ wsame s s' /\ s_rsp s' = s_rsp s.
  Proof.
    intros (R & C & X) W U. destruct (write_in _ _ _ _ _ _ _ _ _ R W) as [Hw Hr]. destruct (runs_parts _ _ _ _ _ R) as (_ & _ & PC). specialize (PC c).
    destruct (ConnProofs.i_alive _ _ (ConnProofs.runs_inv _ _ PC)) as [Al _].
    assert (NR : s_rd s c <> RNone).
    { destruct (written_handled _ _ _ _ _ _ _ _ _ R Hw) as (e & q & B). apply before_in in B as [B _]. destruct (handled_read _ _ _ _ _ _ _ _ _ _ R B) as (j & B'). apply before_in in B' as [B' _]. eapply rd_none; eassumption. }
    assert (Q : In (Conn.ECall i (OWrite (encode r))) (conn_trace c tr)) by (apply in_conn; right; right; eauto).
    destruct (write_ends (s_conn s c) i (encode r) Al (conn_watched _ _ PC)) as (tr' & t' & x & E & Pt & Ct).
    { destruct (write_at _ _ _ _ PC Q) as [[x Y]|[P|[P|[P|P]]]]; auto.
      - exfalso. apply in_conn in Y as [Y|[(? & ? & ? & Y & _)|(? & ? & ? & Y & _)]]; [exact (Hr _ Y)|discriminate|discriminate].
      - right. left. split; [exact P|]. exact (U _ _ _ _ _ W P). }
    destruct (lift_conn' s c tr' t' C X NR E) as (f & E' & Ef). eexists. eexists. split; [eapply exec_app; [exact E'|apply exec_one]|].
    - split; [split; [exact C|apply (wrk_done cl (set_conns s f) c i k r x); [exact W|cbn; rewrite Ef; apply Conn.ret_; assumption]]|]. split; [exact C|]. split; [exact X|]. split; [split; discriminate|]. split; [split; [discriminate|split; [discriminate|split; [discriminate|]]]; intros c1 i1 H1; unf; cbn in *; destruct (upd_case f c c1 (Conn.set_pc t' i Conn.PDone)) as [[-> ->]|[_ ->]]; [|exact H1]; cbn; rewrite Ef in H1; destruct (upd_case (c_pc t') i i1 Conn.PDone) as [[-> _]|[_ ->]]; [congruence|exact H1]|]. split; apply keeps_refl.
    - split; [reflexivity|]. split; [|reflexivity]. do 4 (split; [reflexivity|]). apply evens_refl.
  Qed.
  Lemma w_has tr s c k r : good tr s -> s_wrk s = WHas c k r -> exists tr' s', exec gstep s tr' s' /\ s_wrk s' = WIdle /\ wsame s s' /\ s_rsp s' = s_rsp s.
  Proof.
    intros G W. pose proof G as (R & C & X). destruct (runs_parts _ _ _ _ _ R) as (_ & _ & PC). specialize (PC c). destruct (conn_finite _ _ PC) as [n Fn].
    destruct (ConnProofs.i_alive _ _ (ConnProofs.runs_inv _ _ PC)) as [Al _]. pose proof (wrk_write cl s c k r n _ W (Conn.call _ n (OWrite (encode r)) Al (Fn n (le_n n)))) as M.
    match type of M with move _ _ ?l ?s' => assert (Gs : gstep s l s') end.
    { split; [split; [exact C|exact M]|]. split; [exact C|]. split; [exact X|]. split; [split; discriminate|]. split; [pose proof (Fn n (le_n n)) as Fn'; qt|]. split; apply keeps_refl. }
    match type of Gs with gstep _ (Some ?a) ?s1 => destruct (w_in (tr ++ [a]) s1 c n k r) as (tr' & s' & E & W' & Ws & Rs) end.
    - eapply good_exec; [exact G|]. apply exec_one. exact Gs.
    - reflexivity.
    - intros c' i' k' r' b' W' P'. unf. inversion W'; subst. rewrite upd_eq in P'. cbn in P'. rewrite upd_eq in P'. discriminate.
    - eexists. exists s'. split; [eapply exec_cons; [exact Gs|exact E]|]. split; [exact W'|]. split; [|exact Rs]. exact Ws.
  Qed.
  Ltac ew := match goal with |- evens _ _ => split; [reflexivity|split; [reflexivity|]]; intros ?g; ch0; rewrite !upd_ne by (intros ?H; match goal with O : Nat.odd ?j = true, Q : sid _ = ?j |- _ => rewrite <- Q, odd_sid in O; discriminate end); reflexivity end.
  Lemma w_got tr s j m : good tr s -> s_wrk s = WWait j -> d_pc (t_ch (s_rsp s) 0) j = DataChannel.PRet ORecv (REvent m) ->
    exists tr' s', exec gstep s tr' s' /\ s_wrk s' = WIdle /\ wsame s s' /\ d_buf (t_ch (s_rsp s') 0) = d_buf (t_ch (s_rsp s) 0).
  Proof.
    intros G W P. pose proof G as (R & C & X). destruct (good_open _ _ G) as [_ O]. destruct (wrk_pc _ _ _ G W) as [Od _].
    pose proof (wrk_got cl s j m _ W (got_step _ j m O Od P)) as M. match type of M with move _ _ ?l ?s' => assert (Gs : gstep s l s') end.
    { split; [split; [exact C|exact M]|]. split; [exact C|]. split; [exact X|]. split; [split; discriminate|]. split; [qt|]. split; [apply keeps_refl|kp]. }
    assert (G' := good_exec _ _ _ _ G (exec_one _ _ _ _ Gs)). destruct m as [c k r|].
    - destruct (w_has _ _ c k r G' eq_refl) as (tr' & s' & E & W' & Ws & Rs). eexists. exists s'. split; [eapply exec_cons; [exact Gs|exact E]|]. split; [exact W'|]. split.
      + eapply wsame_trans; [|exact Ws]. do 4 (split; [reflexivity|]). unf. ew.
      + rewrite Rs. unf. ch0. reflexivity.
    - exfalso. destruct G' as (R' & _ & X'). exact (wrk_there _ _ _ _ _ R' X' eq_refl).
  Qed.
  Lemma w_idle tr s : good tr s -> s_wrk s = WIdle ->
    exists tr' s' j, exec gstep s tr' s' /\ wsame s s' /\ s_wrk s' = WWait j /\ d_pc (t_ch (s_rsp s') 0) j = PRecv /\ d_buf (t_ch (s_rsp s') 0) = d_buf (t_ch (s_rsp s) 0).
  Proof.
    intros G W. pose proof G as (R & C & X). destruct (good_open _ _ G) as [_ O]. destruct (runs_parts _ _ _ _ _ R) as (_ & T1 & _). destruct (fresh _ _ T1) as (_ & _ & j & _ & _ & _ & Od & Id).
    assert (N1 : ~ shut s) by (unfold shut; now rewrite X). pose proof (wrk_call cl s j _ W N1 (call_step _ j O Od Id)) as M.
    match type of M with move _ _ ?l ?s' => assert (Gs : gstep s l s') end.
    { split; [split; [exact C|exact M]|]. split; [exact C|]. split; [exact X|]. split; [split; discriminate|]. split; [qt|]. split; [apply keeps_refl|kp]. }
    assert (G' := good_exec _ _ _ _ G (exec_one _ _ _ _ Gs)). destruct (good_open _ _ G') as [_ O'].
    match type of Gs with gstep _ _ ?s1 => assert (P1 : d_pc (t_ch (s_rsp s1) 0) j = PLoad) by (unf; ch0; apply upd_eq); pose proof (rsp_free cl s1 None _ I (open_step _ j O' P1)) as M2 end.
    match type of M2 with move _ ?s1 ?l ?s' => assert (Gs2 : gstep s1 l s') end.
    { split; [split; [exact C|exact M2]|]. split; [exact C|]. split; [exact X|]. split; [split; discriminate|]. split; [qt|]. split; [apply keeps_refl|kp]. }
    eexists. eexists. exists j. split; [eapply exec_tau; [apply exec_one; exact Gs|exact Gs2]|]. split; [|split; [reflexivity|split]].
    - do 4 (split; [reflexivity|]). unf. ew.
    - unf. ch0. apply upd_eq.
    - unf. ch0. reflexivity.
  Qed.
  Definition ready s : Prop := d_buf (t_ch (s_rsp s) 0) = [] /\ exists j, s_wrk s = WWait j /\ d_pc (t_ch (s_rsp s) 0) j = PRecv.
  Lemma w_wait n : forall tr s j, good tr s -> s_wrk s = WWait j -> d_pc (t_ch (s_rsp s) 0) j = PRecv -> List.length (d_buf (t_ch (s_rsp s) 0)) = n ->
    exists tr' s', exec gstep s tr' s' /\ wsame s s' /\ ready s'.
  Proof.
    induction n as [|n IH]; intros tr s j G W P Hl; destruct (d_buf (t_ch (s_rsp s) 0)) as [|m b] eqn:B; cbn in Hl; try discriminate.
    - exists [], s. split; [apply exec_start|]. split; [do 4 (split; [reflexivity|]); apply evens_refl|]. split; [exact B|eauto].
    - pose proof G as (R & C & X). destruct (good_open _ _ G) as [_ O]. destruct (wrk_pc _ _ _ G W) as [Od _].
      pose proof (rsp_free cl s (Some (TChan 0 (ETake j m))) _ I (take_step _ j m b O P B)) as M. match type of M with move _ _ (option_map SRsp (Some ?l)) ?s' => assert (Gs : gstep s (Some (SRsp l)) s') end.
      { split; [split; [exact C|exact M]|]. split; [exact C|]. split; [exact X|]. split; [split; discriminate|]. split; [qt|]. split; [apply keeps_refl|kp]. }
      assert (G' := good_exec _ _ _ _ G (exec_one _ _ _ _ Gs)).
      edestruct (w_got _ _ j m G') as (tr1 & s1 & E1 & W1 & S1 & B1); [exact W|unf; ch0; apply upd_eq|].
      destruct (w_idle _ _ (good_exec _ _ _ _ G' E1) W1) as (tr2 & s2 & j2 & E2 & S2 & W2 & P2 & B2).
      destruct (IH _ _ j2 (good_exec _ _ _ _ (good_exec _ _ _ _ G' E1) E2) W2 P2) as (tr3 & s3 & E3 & S3 & Rd).
      { rewrite B2, B1. unf. ch0. lia. }
      eexists. exists s3. split; [eapply exec_cons; [exact Gs|eapply exec_app; [exact E1|eapply exec_app; [exact E2|exact E3]]]|]. split; [|exact Rd].
      eapply wsame_trans; [|eapply wsame_trans; [exact S1|eapply wsame_trans; [exact S2|exact S3]]]. do 4 (split; [reflexivity|]). unf. ew.
  Qed.
  Lemma drain tr s : good tr s -> unblocked s -> exists tr' s', exec gstep s tr' s' /\ wsame s s' /\ ready s'.
  Proof.
    intros G U. assert (Idle : forall tr s, good tr s -> s_wrk s = WIdle -> exists tr' s', exec gstep s tr' s' /\ wsame s s' /\ ready s').
    { clear. intros tr s G W. destruct (w_idle _ _ G W) as (tr1 & s1 & j & E1 & S1 & W1 & P1 & _). destruct (w_wait _ _ _ j (good_exec _ _ _ _ G E1) W1 P1 eq_refl) as (tr2 & s2 & E2 & S2 & Rd).
      eexists. exists s2. split; [eapply exec_app; eassumption|]. split; [eapply wsame_trans; eassumption|exact Rd]. }
    assert (Then : forall tr1 s1, exec gstep s tr1 s1 -> s_wrk s1 = WIdle -> wsame s s1 -> exists tr' s', exec gstep s tr' s' /\ wsame s s' /\ ready s').
    { intros tr1 s1 E1 W1 S1. destruct (Idle _ _ (good_exec _ _ _ _ G E1) W1) as (tr2 & s2 & E2 & S2 & Rd). eexists. exists s2. split; [eapply exec_app; eassumption|]. split; [eapply wsame_trans; eassumption|exact Rd]. }
    destruct (s_wrk s) as [|j|c k r|c i k r|] eqn:W.
    - now apply (Idle tr).
    - destruct (wrk_pc _ _ _ G W) as [Od [P|[P|[m P]]]].
      + pose proof G as (R & C & X). destruct (good_open _ _ G) as [_ O]. pose proof (rsp_free cl s None _ I (open_step _ j O P)) as M.
        match type of M with move _ _ _ ?s' => assert (Gs : gstep s None s') end.
        { split; [split; [exact C|exact M]|]. split; [exact C|]. split; [exact X|]. split; [split; discriminate|]. split; [qt|]. split; [apply keeps_refl|kp]. }
        assert (G' := good_exec _ _ _ _ G (exec_one_tau _ _ _ Gs)).
        destruct (w_wait (List.length (d_buf (t_ch (s_rsp s) 0))) _ _ j G' W) as (tr2 & s2 & E2 & S2 & Rd); [unf; ch0; apply upd_eq|unf; ch0; reflexivity|].
        exists tr2, s2. split; [eapply exec_cons_tau; eassumption|]. split; [|exact Rd]. eapply wsame_trans; [|exact S2]. do 4 (split; [reflexivity|]). unf. ew.
      + exact (w_wait _ _ _ j G W P eq_refl).
      + destruct (w_got _ _ _ _ G W P) as (tr1 & s1 & E1 & W1 & S1 & _). eapply Then; eassumption.
    - destruct (w_has _ _ _ _ _ G W) as (tr1 & s1 & E1 & W1 & S1 & _). eapply Then; eassumption.
    - destruct (w_in _ _ _ _ _ _ G W U) as (tr1 & s1 & E1 & W1 & S1 & _). eapply Then; eassumption.
    - destruct G as (R & _ & X). exfalso. exact (wrk_there _ _ _ _ _ R X W).
  Qed.

  (* ---- what has been read and handled so far ---- *)
  Lemma read_next tr s c0 i0 k0 q0 : runs cl d0 input tr s -> s_stop s = XNone -> In (SRead c0 i0 k0 q0) tr -> s_rd s c0 = RPub k0 q0 \/ exists p, In (SReq (TPublish p (QRequest c0 k0 q0))) tr.
  Proof.
    intros R. pose proof R as R0. revert tr s R R0. apply (runs_ind' cl d0 input (fun tr s => runs cl d0 input tr s -> s_stop s = XNone -> In (SRead c0 i0 k0 q0) tr -> s_rd s c0 = RPub k0 q0 \/ exists p, In (SReq (TPublish p (QRequest c0 k0 q0))) tr)); [easy|].
    intros tr s l s' R I0 M R' Z0 H. destruct (not_stopping _ _ _ _ M Z0) as (Z1 & _ & _). specialize (I0 R Z1). destruct (before_stop _ _ _ _ _ R Z1) as (ZR & _ & _ & _).
    apply ext_inv in H as [H|H].
    - destruct (I0 H) as [B|[pp B]]; [|right; exists pp; now apply ext_in].
      moves M; unf; auto; try (left; rewrite upd_ne by congruence; exact B); try congruence.
      + destruct (Nat.eq_dec c c0) as [->|N]; [|left; now rewrite upd_ne by congruence]. right. exists p. assert (k = k0 /\ q = q0) as [-> ->] by (split; congruence). cbn. apply in_snoc. auto.
    - moves M; try discriminate; try (destruct l; discriminate). inversion H; subst. left. unf. apply upd_eq.
  Qed.
  Lemma handle_next tr s c0 k0 x0 q0 r0 : runs cl d0 input tr s -> s_stop s = XNone -> In (SHandle c0 k0 x0 q0 (Some r0)) tr -> s_eng s = EReply c0 k0 r0 \/ exists p, In (SRsp (TPublish p (PReply c0 k0 r0))) tr.
  Proof.
    intros R. pose proof R as R0. revert tr s R R0. apply (runs_ind' cl d0 input (fun tr s => runs cl d0 input tr s -> s_stop s = XNone -> In (SHandle c0 k0 x0 q0 (Some r0)) tr -> s_eng s = EReply c0 k0 r0 \/ exists p, In (SRsp (TPublish p (PReply c0 k0 r0))) tr)); [easy|].
    intros tr s l s' R I0 M R' Z0 H. destruct (not_stopping _ _ _ _ M Z0) as (Z1 & _ & _). specialize (I0 R Z1). destruct (before_stop _ _ _ _ _ R Z1) as (_ & ZR & _ & _).
    apply ext_inv in H as [H|H].
    - destruct (I0 H) as [B|[pp B]]; [|right; exists pp; now apply ext_in].
      moves M; unf; auto; try congruence. right. exists p. assert (c = c0 /\ k = k0 /\ r = r0) as (-> & -> & ->) by (split; [|split]; congruence). cbn. apply in_snoc. auto.
    - moves M; try discriminate; try (destruct l; discriminate). inversion H; subst. left. reflexivity.
  Qed.
  Lemma put_kept {A} (tr : list (Topic.event A)) (s : Topic.state A) i e : Topic.runs tr s -> In (i, e) (puts (chan_trace 0 tr)) ->
    In e (d_buf (t_ch s 0)) \/ exists j, In (TChan 0 (DataChannel.ECall j ORecv)) tr /\ (d_pc (t_ch s 0) j = DataChannel.PRet ORecv (REvent e) \/ In (TChan 0 (DataChannel.ERet j ORecv (REvent e))) tr).
  Proof.
    intros R Hi. assert (exists x, In (TChan 0 x) tr) as (x & Hx).
    { destruct (chan_trace 0 tr) as [|x t] eqn:E; [destruct Hi|]. exists x. apply TopicProofs.ct_in. rewrite E. now left. }
    destruct (TopicProofs.chan_runs _ _ _ _ R Hx) as (cap & D). destruct (DataChannelProofs.fifo _ _ _ D) as [F _].
    apply (in_map snd) in Hi. cbn in Hi. rewrite F in Hi. apply in_app_iff in Hi as [Hi|Hi]; [|now left]. right.
    apply in_map_iff in Hi as ([j e'] & E & Hi). cbn in E. subst e'. exists j. destruct (taken _ _ _ _ _ D Hi) as [X Y]. split; [now apply TopicProofs.ct_in|].
    destruct Y as [Y|Y]; [now left|]. right. now apply TopicProofs.ct_in.
  Qed.
  (* the engine waits in Receive *)
  Definition listens s : Prop := exists j, s_eng s = EWait j /\ d_pc (t_ch (s_req s) 0) j = PRecv.
  Lemma put_handled tr s i c k q : good tr s -> listens s -> In (i, QRequest c k q) (puts (chan_trace 0 (req_trace tr))) -> exists x o, In (SHandle c k x q o) tr.
  Proof.
    intros (R & _) (j0 & En & Pj) Hi. destruct (runs_parts _ _ _ _ _ R) as (T & _ & _). destruct (put_kept _ _ _ _ T Hi) as [B|(j & Cj & X)].
    - exfalso. destruct (runs_chans _ _ T) as [Ch _]. destruct (req_cap _ _ _ _ _ R) as [L Z]. destruct (Ch 0 L) as (cap & D). destruct (DataChannelProofs.fifo _ _ _ D) as [_ F].
      destruct (DataChannelProofs.i_cap _ _ _ (DataChannelProofs.runs_inv _ _ _ D)) as [E _]. rewrite <- E, Z in F. destruct (d_buf (t_ch (s_req s) 0)); [destruct B|cbn in F; lia].
    - assert (Y : In (TChan 0 (DataChannel.ERet j ORecv (REvent (QRequest c k q)))) (req_trace tr)).
      { destruct X as [X|X]; [|exact X]. exfalso. apply in_req in Cj as [Cj|Cj]; [discriminate|]. destruct (eng_waits _ _ _ _ _ _ R Cj) as [E|(r & E)]; [congruence|].
        assert (In (TChan 0 (DataChannel.ERet j ORecv r)) (req_trace tr)) as Y by (apply in_req; auto). destruct (TopicProofs.chan_runs _ _ _ _ T Y) as (cap & D).
        apply TopicProofs.ct_in in Y. destruct (DataChannelProofs.returned _ _ _ _ _ _ D Y) as [Z _]. congruence. }
      apply in_req in Y as [Y|Y]; [discriminate|]. assert (In (c, k, q) (got tr)) as G by (apply got_in; eauto). rewrite (runs_eng _ _ _ _ _ R) in G.
      apply in_app_iff in G as [G|G]; [|rewrite En in G; destruct G]. apply in_map_iff in G as ([[[[c' k'] x] q'] o] & E & G). cbn in E. inversion E; subst. apply handled_in in G. eauto.
  Qed.
  Lemma put_written tr s i c k r : good tr s -> ready s -> In (i, PReply c k r) (puts (chan_trace 0 (rsp_trace tr))) -> exists n, In (SWrite c n k r) tr.
  Proof.
    intros (R & _) (Bu & j0 & En & Pj) Hi. destruct (runs_parts _ _ _ _ _ R) as (_ & T & _). destruct (put_kept _ _ _ _ T Hi) as [B|(j & Cj & X)]; [rewrite Bu in B; destruct B|].
    assert (Y : In (TChan 0 (DataChannel.ERet j ORecv (REvent (PReply c k r)))) (rsp_trace tr)).
    { destruct X as [X|X]; [|exact X]. exfalso. apply in_rsp in Cj as [Cj|Cj]; [discriminate|]. destruct (wrk_waits _ _ _ _ _ _ R Cj) as [E|(r' & E)]; [congruence|].
      assert (In (TChan 0 (DataChannel.ERet j ORecv r')) (rsp_trace tr)) as Y by (apply in_rsp; auto). destruct (TopicProofs.chan_runs _ _ _ _ T Y) as (cap & D).
      apply TopicProofs.ct_in in Y. destruct (DataChannelProofs.returned _ _ _ _ _ _ D Y) as [Z _]. congruence. }
    apply in_rsp in Y as [Y|Y]; [discriminate|]. assert (In (c, k, r) (wgot tr)) as G by (apply wgot_in; eauto). rewrite (runs_wrk _ _ _ _ _ R) in G.
    apply in_app_iff in G as [G|G]; [|rewrite En in G; destruct G]. apply in_map_iff in G as ([[[c' n] k'] r'] & E & G). cbn in E. inversion E; subst. apply written_in in G. eauto.
  Qed.

  (* ---- the engine ---- *)
  Definition stuck s : Prop := exists c k q, s_eng s = EHas c k q /\ forall d' o, handle e0 (s_db s) q <> Ret (d', o).
  Definition esame s s' : Prop := s_wrk s' = s_wrk s /\ t_ch (s_rsp s') = t_ch (s_rsp s).
  Lemma esame_trans s1 s2 s3 : esame s1 s2 -> esame s2 s3 -> esame s1 s3.
  Proof. intros (A1 & A2) (B1 & B2). split; congruence. Qed.
  Lemma esame_ready s s' : esame s s' -> ready s -> ready s'.
  Proof. intros (A1 & A2) (B1 & j & B2 & B3). split; [now rewrite A2|]. exists j. now rewrite A1, A2. Qed.
  Lemma reply_out tr s c k r : good tr s -> s_eng s = EReply c k r -> exists p s', exec gstep s [SRsp (TPublish p (PReply c k r))] s' /\ s_eng s' = EIdle /\ esame s s'.
  Proof.
    intros G E. pose proof G as (R & C & X). destruct (runs_parts _ _ _ _ _ R) as (_ & T1 & _). destruct (fresh _ _ T1) as (p & _ & _ & Fp & _). destruct (before_stop _ _ _ _ _ R X) as (_ & Z & _).
    pose proof (eng_reply cl s c k r p _ E ltac:(unfold unlocked; now rewrite X) Z (Topic.publish _ p (PReply c k r) Fp)) as M. exists p. eexists. split; [apply exec_one|].
    - split; [split; [exact C|exact M]|]. split; [exact C|]. split; [exact X|]. split; [split; discriminate|]. split; [qt|]. split; [apply keeps_refl|kp].
    - split; [reflexivity|]. split; reflexivity.
  Qed.
  (* an event is handled, or it cannot be *)
  Lemma has_out tr s c k q : good tr s -> s_eng s = EHas c k q -> stuck s \/
    exists o s', exec gstep s [SHandle c k e0 q o] s' /\ s_eng s' = (match o with Some r => EReply c k r | None => EIdle end) /\ esame s s'.
  Proof.
    intros (R & C & X) E. destruct (handle e0 (s_db s) q) as [[d' o]| |] eqn:H; [right|left; exists c, k, q; split; [exact E|intros ? ?; congruence]..].
    exists o. eexists. split; [apply exec_one; split; [split; [exact C|exact (eng_handle cl s c k q e0 d' o E H)]|]|].
    - split; [exact C|]. split; [exact X|]. split; [split; discriminate|]. split; [qt|]. split; apply keeps_refl.
    - split; [reflexivity|]. split; reflexivity.
  Qed.
  Lemma to_idle tr s c k q : good tr s -> s_eng s = EHas c k q -> stuck s \/ exists tr' s', exec gstep s tr' s' /\ s_eng s' = EIdle /\ esame s s'.
  Proof.
    intros G E. destruct (has_out _ _ _ _ _ G E) as [S|(o & s1 & E1 & N1 & Q1)]; [now left|right]. destruct o as [r|]; [|eauto].
    destruct (reply_out _ _ _ _ _ (good_exec _ _ _ _ G E1) N1) as (p & s2 & E2 & N2 & Q2). eexists. exists s2. split; [eapply exec_app; eassumption|]. split; [exact N2|]. eapply esame_trans; eassumption.
  Qed.
  Lemma eng_open tr s j : good tr s -> s_eng s = EWait j -> d_pc (t_ch (s_req s) 0) j = PLoad -> exists s', exec gstep s [] s' /\ esame s s' /\ listens s'.
  Proof.
    intros G E P. pose proof G as (R & C & X). destruct (good_open _ _ G) as [O _]. pose proof (req_free cl s None _ I (open_step _ j O P)) as M. eexists. split; [apply exec_one_tau|].
    - split; [split; [exact C|exact M]|]. split; [exact C|]. split; [exact X|]. split; [split; discriminate|]. split; [qt|]. split; [kp|apply keeps_refl].
    - split; [split; reflexivity|]. exists j. split; [exact E|]. unf. ch0. apply upd_eq.
  Qed.
  Lemma eng_idle tr s : good tr s -> s_eng s = EIdle -> exists tr' s', exec gstep s tr' s' /\ esame s s' /\ listens s'.
  Proof.
    intros G W. pose proof G as (R & C & X). destruct (good_open _ _ G) as [O _]. destruct (runs_parts _ _ _ _ _ R) as (T1 & _ & _). destruct (fresh _ _ T1) as (_ & _ & j & _ & _ & _ & Od & Id).
    assert (N1 : s_stop s <> XDone) by congruence. pose proof (eng_call cl s j _ W N1 (call_step _ j O Od Id)) as M.
    match type of M with move _ _ (Some ?l) ?s' => assert (Gs : gstep s (Some l) s'); [|destruct (eng_open (tr ++ [l]) s' j) as (s2 & E2 & Q2 & L2)] end.
    - split; [split; [exact C|exact M]|]. split; [exact C|]. split; [exact X|]. split; [split; discriminate|]. split; [qt|]. split; [kp|apply keeps_refl].
    - exact (good_exec _ _ _ _ G (exec_one _ _ _ _ Gs)).
    - reflexivity.
    - unf. ch0. apply upd_eq.
    - eexists. exists s2. split; [eapply exec_app; [apply exec_one; exact Gs|exact E2]|]. split; [|exact L2]. eapply esame_trans; [|exact Q2]. split; reflexivity.
  Qed.
  Lemma eng_take tr s j m : good tr s -> s_eng s = EWait j -> d_pc (t_ch (s_req s) 0) j = DataChannel.PRet ORecv (REvent m) ->
    exists tr' s' c k q, m = QRequest c k q /\ exec gstep s tr' s' /\ esame s s' /\ s_eng s' = EHas c k q.
  Proof.
    intros G W P. pose proof G as (R & C & X). destruct (good_open _ _ G) as [O _]. destruct (eng_pc _ _ _ G W) as [Od _].
    pose proof (eng_got cl s j m _ W (got_step _ j m O Od P)) as M. match type of M with move _ _ ?l ?s' => assert (Gs : gstep s l s') end.
    { split; [split; [exact C|exact M]|]. split; [exact C|]. split; [exact X|]. split; [split; discriminate|]. split; [qt|]. split; [kp|apply keeps_refl]. }
    assert (G' := good_exec _ _ _ _ G (exec_one _ _ _ _ Gs)). destruct m as [c k q|].
    - eexists. eexists. exists c, k, q. split; [reflexivity|]. split; [apply exec_one; exact Gs|]. split; [split; reflexivity|reflexivity].
    - exfalso. destruct G' as (R' & _ & X'). exact (eng_there _ _ _ _ _ R' X' eq_refl).
  Qed.
  Lemma listen tr s : good tr s -> exists tr' s', exec gstep s tr' s' /\ (stuck s' \/ (esame s s' /\ listens s')).
  Proof.
    intros G. assert (Then : forall tr1 s1, exec gstep s tr1 s1 -> s_eng s1 = EIdle -> esame s s1 -> exists tr' s', exec gstep s tr' s' /\ (stuck s' \/ (esame s s' /\ listens s'))).
    { intros tr1 s1 E1 N1 Q1. destruct (eng_idle _ _ (good_exec _ _ _ _ G E1) N1) as (tr2 & s2 & E2 & Q2 & L2). eexists. exists s2. split; [eapply exec_app; eassumption|]. right. split; [eapply esame_trans; eassumption|exact L2]. }
    assert (Has : forall tr1 s1 c k q, exec gstep s tr1 s1 -> s_eng s1 = EHas c k q -> esame s s1 -> exists tr' s', exec gstep s tr' s' /\ (stuck s' \/ (esame s s' /\ listens s'))).
    { intros tr1 s1 c k q E1 N1 Q1. destruct (to_idle _ _ _ _ _ (good_exec _ _ _ _ G E1) N1) as [S|(tr2 & s2 & E2 & N2 & Q2)]; [exists tr1, s1; auto|].
      eapply Then; [eapply exec_app; eassumption|exact N2|eapply esame_trans; eassumption]. }
    assert (Q0 : esame s s) by (split; reflexivity).
    destruct (s_eng s) as [|j|c k q|c k r|] eqn:E.
    - eapply Then; [apply exec_start|exact E|exact Q0].
    - destruct (eng_pc _ _ _ G E) as [_ [P|[P|[m P]]]].
      + destruct (eng_open _ _ _ G E P) as (s' & E' & Q & L). exists [], s'. auto.
      + exists [], s. split; [apply exec_start|]. right. split; [exact Q0|]. exists j. auto.
      + destruct (eng_take _ _ _ _ G E P) as (tr1 & s1 & c & k & q & _ & E1 & Q1 & N1). eapply Has; eassumption.
    - eapply Has; [apply exec_start|exact E|exact Q0].
    - destruct (reply_out _ _ _ _ _ G E) as (p & s1 & E1 & N1 & Q1). eapply Then; eassumption.
    - destruct G as (R & _ & X). exfalso. exact (eng_there _ _ _ _ _ R X E).
  Qed.

  (* ---- a handled request is replied to ---- *)
  Lemma req_before tr p e : In (SReq (TPublish p e)) tr -> before (req_trace tr) (TSubscribe "engine" 0 0) (TPublish p e).
  Proof. intros H. assert (K : In (TPublish p e) (flat_map on_req tr)) by (apply in_flat_map; exists (SReq (TPublish p e)); split; [exact H|now left]). apply in_split in K as (y & z & K). exists [], y, z. unfold req_trace. now rewrite K. Qed.
  Lemma rsp_before tr p e : In (SRsp (TPublish p e)) tr -> before (rsp_trace tr) (TSubscribe "server" 0 100) (TPublish p e).
  Proof. intros H. assert (K : In (TPublish p e) (flat_map on_rsp tr)) by (apply in_flat_map; exists (SRsp (TPublish p e)); split; [exact H|now left]). apply in_split in K as (y & z & K). exists [], y, z. unfold rsp_trace. now rewrite K. Qed.
  Lemma in_puts {A} (tr : list (Topic.event A)) i e : In (TChan 0 (EPut i e)) tr -> In (i, e) (puts (chan_trace 0 tr)).
  Proof. intros H. apply TopicProofs.ct_in in H. unfold puts. apply in_flat_map. exists (EPut i e). split; [exact H|now left]. Qed.
  Lemma ready_unblocked s : ready s -> unblocked s.
  Proof. intros (_ & j & W & _) c i k r b W'. congruence. Qed.
  Lemma reply_written tr s c k x q r : good tr s -> ready s -> In (SHandle c k x q (Some r)) tr -> sure_rsp tr s (PReply c k r) -> exists tr' s' i, exec gstep s tr' s' /\ In (SWrite c i k r) (tr ++ tr').
  Proof.
    intros G Rd H Su.
    assert (exists tr1 s1 p, exec gstep s tr1 s1 /\ ready s1 /\ In (SRsp (TPublish p (PReply c k r))) (tr ++ tr1)) as (tr1 & s1 & p & E1 & R1 & P1).
    { pose proof G as (R & _ & X). destruct (handle_next _ _ _ _ _ _ _ R X H) as [E|[p P]].
      - destruct (reply_out _ _ _ _ _ G E) as (p & s1 & E1 & _ & Q1). eexists. exists s1, p. split; [exact E1|]. split; [eapply esame_ready; eassumption|]. apply in_snoc. auto.
      - exists [], s, p. split; [apply exec_start|]. split; [exact Rd|]. now rewrite app_nil_r. }
    apply (proj2 (sure_exec tr s tr1 s1 E1)) in Su. pose proof (good_exec _ _ _ _ G E1) as G1.
    assert (exists tr2 s2 i, exec gstep s1 tr2 s2 /\ unblocked s2 /\ In (i, PReply c k r) (puts (chan_trace 0 (rsp_trace ((tr ++ tr1) ++ tr2))))) as (tr2 & s2 & i & E2 & U2 & P2).
    { pose proof G1 as (R & C & X). destruct (runs_parts _ _ _ _ _ R) as (_ & T & _). destruct (req_lone _ _ _ _ _ R) as [_ L]. destruct (good_open _ _ G1) as [_ (O1 & O2 & O3 & O4)]. destruct Su as [S1 S2].
      destruct (locate _ _ "server" 100 p (PReply c k r) T L (rsp_before _ _ _ P1)) as [Lo|[i Hi]].
      - intros j0 Hj. apply in_rsp in Hj as [Hj|Hj]; [discriminate|]. exact (proj2 (no_close_calls _ _ _ _ _ R 0 j0) Hj).
      - intros j0 Hj. apply in_rsp in Hj as [Hj|Hj]; [discriminate|]. exact (S1 _ Hj).
      - exact S2.
      - destruct (fresh _ _ T) as (_ & g0 & _ & _ & F1 & F2 & _). destruct (to_send _ _ Lo O1 O4 (ex_intro _ g0 (conj F1 F2))) as (tu & u & Eu & (A1 & A2 & A3 & A4 & A5) & g & Pg).
        destruct R1 as (Bu & j & W & Pj). destruct (rsp_cap _ _ _ _ _ R) as [_ Cap].
        destruct (put_step u g (PReply c k r)) as (u' & Pu & Ou); [congruence|congruence|exact Pg|rewrite A1, Bu, A2, Cap; cbn; lia|].
        exists (map SRsp (tu ++ [TChan 0 (EPut (sid g) (PReply c k r))])), (set_rsp s1 u'), (sid g). split; [apply lift_rsp; [exact C|exact X|]; eapply exec_app; [exact Eu|apply exec_one; exact Pu]|]. split.
        + intros c' i' k' r' b' W'. cbn in W'. congruence.
        + apply in_puts. apply in_rsp. right. rewrite map_app, !in_app_iff. right. right. now left.
      - exists [], s1, i. split; [apply exec_start|]. split; [now apply ready_unblocked|]. now rewrite app_nil_r. }
    pose proof (good_exec _ _ _ _ G1 E2) as G2. destruct (drain _ _ G2 U2) as (tr3 & s3 & E3 & _ & R3). pose proof (good_exec _ _ _ _ G2 E3) as G3.
    destruct (put_written _ _ i c k r G3 R3) as [n Hn].
    { unfold rsp_trace in *. rewrite flat_map_app, app_comm_cons. unfold chan_trace, puts in *. rewrite flat_map_app, flat_map_app. apply in_app_iff. left. exact P2. }
    exists (tr1 ++ tr2 ++ tr3), s3, n. split; [eapply exec_app; [exact E1|eapply exec_app; [exact E2|exact E3]]|]. now rewrite !app_assoc in *.
  Qed.
  Lemma handled_reply tr s c k q : good tr s -> ready s -> (exists x o, In (SHandle c k x (RArr q) o) tr) -> (forall r, sure_rsp tr s (PReply c k r)) -> exists tr' s' i r, exec gstep s tr' s' /\ In (SWrite c i k r) (tr ++ tr').
  Proof.
    intros G Rd (x & o & H) Su. pose proof G as (R & _). destruct (array_replied _ _ _ _ _ _ _ _ _ _ R H) as [r ->]. destruct (reply_written _ _ _ _ _ _ _ G Rd H (Su r)) as (tr' & s' & i & E & W). eauto 6.
  Qed.
  Theorem progress tr s c i k q : good tr s -> unblocked s -> In (SRead c i k (RArr q)) tr -> sure_req tr s (QRequest c k (RArr q)) -> (forall r, sure_rsp tr s (PReply c k r)) ->
    exists tr' s', exec gstep s tr' s' /\ (stuck s' \/ exists i' r, In (SWrite c i' k r) (tr ++ tr')).
  Proof.
    intros G U H Sq Sp. destruct (drain _ _ G U) as (tr1 & s1 & E1 & _ & R1). pose proof (good_exec _ _ _ _ G E1) as G1.
    destruct (listen _ _ G1) as (tr2 & s2 & E2 & [St|(Q2 & L2)]); [eexists; exists s2; split; [eapply exec_app; eassumption|now left]|].
    apply (esame_ready _ _ Q2) in R1. clear Q2. pose proof (exec_app _ _ _ _ _ _ E1 E2) as E. clear E1 E2 G1. revert E. generalize (tr1 ++ tr2). clear tr1 tr2. intros tr2 E2.
    pose proof (good_exec _ _ _ _ G E2) as G2.
    assert (exists tr3 s3 p, exec gstep s2 tr3 s3 /\ ready s3 /\ listens s3 /\ In (SReq (TPublish p (QRequest c k (RArr q)))) ((tr ++ tr2) ++ tr3)) as (tr3 & s3 & p & E3 & R3 & L3 & P3).
    { pose proof G2 as (R & C & X). destruct (read_next (tr ++ tr2) s2 c i k (RArr q) R X) as [P|[p P]]; [apply in_app_iff; now left| |].
      - destruct (runs_parts _ _ _ _ _ R) as (T1 & _ & _). destruct (fresh _ _ T1) as (p & _ & _ & Fp & _). destruct (before_stop _ _ _ _ _ R X) as (Z & _ & _).
        pose proof (Server.publish cl s2 c k (RArr q) p _ P ltac:(unfold unlocked; now rewrite X) Z (Topic.publish _ p (QRequest c k (RArr q)) Fp)) as M. eexists. eexists. exists p. split; [apply exec_one; split; [split; [exact C|exact M]|]|].
        + split; [exact C|]. split; [exact X|]. split; [split; discriminate|]. split; [qt|]. split; [kp|apply keeps_refl].
        + split; [exact R1|]. split; [exact L2|]. apply in_snoc. auto.
      - exists [], s2, p. split; [apply exec_start|]. split; [exact R1|]. split; [exact L2|]. now rewrite app_nil_r. }
    pose proof (exec_app _ _ _ _ _ _ E2 E3) as E. rewrite <- app_assoc in P3. clear E2 E3 G2 L2 R1. revert E P3. generalize (tr2 ++ tr3). clear tr2 tr3 s2. intros tr3 E3 P3.
    pose proof (good_exec _ _ _ _ G E3) as G3. destruct (sure_exec tr s tr3 s3 E3) as [Y1 Y2]. apply Y1 in Sq. pose proof (fun r => Y2 _ (Sp r)) as Sp'. clear Y1 Y2 Sp.
    assert (exists tr4 s4, exec gstep s3 tr4 s4 /\ (stuck s4 \/ (ready s4 /\ exists x o, In (SHandle c k x (RArr q) o) ((tr ++ tr3) ++ tr4)))) as (tr4 & s4 & E4 & [St|(R4 & H4)]).
    { pose proof G3 as (R & C & X). destruct (runs_parts _ _ _ _ _ R) as (T & _ & _). destruct (req_lone _ _ _ _ _ R) as [L _]. destruct (good_open _ _ G3) as [(O1 & O2 & O3 & O4) _]. destruct Sq as [S1 S2].
      destruct (locate _ _ "engine" 0 p (QRequest c k (RArr q)) T L (req_before _ _ _ P3)) as [Lo|[i0 Hi]].
      - intros j0 Hj. apply in_req in Hj as [Hj|Hj]; [discriminate|]. exact (proj1 (no_close_calls _ _ _ _ _ R 0 j0) Hj).
      - intros j0 Hj. apply in_req in Hj as [Hj|Hj]; [discriminate|]. exact (S1 _ Hj).
      - exact S2.
      - destruct (fresh _ _ T) as (_ & g0 & _ & _ & F1 & F2 & _). destruct (to_send _ _ Lo O1 O4 (ex_intro _ g0 (conj F1 F2))) as (tu & u & Eu & (A1 & A2 & A3 & A4 & A5) & g & Pg).
        destruct L3 as (j & En & Pj). destruct (req_cap _ _ _ _ _ R) as [_ Cap]. destruct (eng_pc _ _ _ G3 En) as [Od _].
        destruct (pass_step u g j (QRequest c k (RArr q))) as (u' & Pu & Pj' & _ & _); [congruence|congruence|exact Pg|rewrite (A5 _ Od); exact Pj|congruence|].
        assert (E5 : exec gstep s3 (map SReq (tu ++ [TChan 0 (EPass (sid g) j (QRequest c k (RArr q)))])) (set_req s3 u')) by (apply lift_req; [exact C|exact X|]; eapply exec_app; [exact Eu|apply exec_one; exact Pu]).
        pose proof (good_exec _ _ _ _ G3 E5) as G5. destruct (eng_take _ _ j _ G5 En Pj') as (tr6 & s6 & c' & k' & q' & Em & E6 & Q6 & N6). inversion Em; subst c' k' q'.
        pose proof (good_exec _ _ _ _ G5 E6) as G6. destruct (has_out _ _ _ _ _ G6 N6) as [St|(o & s7 & E7 & N7 & Q7)].
        + eexists. exists s6. split; [eapply exec_app; [exact E5|exact E6]|]. now left.
        + eexists. exists s7. split; [eapply exec_app; [exact E5|eapply exec_app; [exact E6|exact E7]]|]. right. split; [eapply esame_ready; [exact Q7|]; eapply esame_ready; [exact Q6|]; exact R3|].
          exists e0, o. rewrite !in_app_iff. right. right. right. now left.
      - exists [], s3. split; [apply exec_start|]. right. split; [exact R3|]. rewrite app_nil_r. exact (put_handled _ _ _ _ _ _ G3 L3 Hi). }
    - eexists. exists s4. split; [eapply exec_app; eassumption|now left].
    - pose proof (good_exec _ _ _ _ G3 E4) as G4. destruct (sure_exec (tr ++ tr3) s3 tr4 s4 E4) as [_ Y]. destruct (handled_reply _ _ _ _ _ G4 R4 H4 (fun r => Y _ (Sp' r))) as (tr5 & s5 & i' & r & E5 & W).
      exists (tr3 ++ tr4 ++ tr5), s5. split; [eapply exec_app; [exact E3|eapply exec_app; [exact E4|exact E5]]|]. right. exists i', r. now rewrite !app_assoc in *.
  Qed.
End Drive.
