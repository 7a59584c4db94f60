(* Every Publish gives its result, and how many steps that takes. *)
From Coq Require Import List Arith Bool String Lia.
From Verif Require Import Base Lts Counted CountedFacts Budget DataChannel DataChannelProofs WaitChannel Topic TopicProofs WaitSpec ProgressProofs.
Import ListNotations.

Section Topic.
  Context {A : Type}.
  Implicit Types (tr : list (Topic.event A)) (s : Topic.state A).
  Notation step := (@Topic.step A). Notation runs := (@Topic.runs A).
  Ltac dupd i j := destruct (Nat.eq_dec j i) as [->|?]; [rewrite ?(upd_eq _ i)|rewrite ?(upd_ne _ i j) by assumption].
  Ltac unf := cbn [put_pub put_g put_ch t_subs t_next t_ch t_pub t_g p_phase p_event p_seen p_must p_visited p_wg p_count p_keys p_got p_remove
    set_phase set_count set_wg set_keys set_remove g_pc g_pub g_name g_chan] in *.
  Lemma t_moves s l s' : at_rest step topic_call s -> step s l s' -> match l with Some a => topic_call a | None => False end.
  Proof. intros Q St. destruct (Q l s' St) as (a & -> & H). exact H. Qed.
  (* What is still to be visited was seen and has not been visited. *)
  Definition due s : Prop := forall p, p_phase (t_pub s p) = DRange -> forall n, In n (p_must (t_pub s p)) -> (exists c, In (n, c) (p_seen (t_pub s p))) /\ ~ In n (p_visited (t_pub s p)).
  Lemma runs_due tr s : runs tr s -> due s.
  Proof.
    revert tr s. apply (runs_ind' (fun _ s => due s)); [intros p; discriminate|]. intros tr s l s' _ IH St p' E n. destruct St; unf; auto;
      try (revert E; dupd p p'; unf; [discriminate|exact (fun E => IH _ E n)]; fail);
      try (revert E; dupd (g_pub (t_g s g)) p'; unf; exact (fun E => IH _ E n); fail).
    - revert E. rewrite phase_store. intros E. unfold note_store. rewrite E. unf. intros H. destruct (IH p' E n H) as [[c C] V]. split; [exists c; now right|exact V].
    - revert E. dupd p p'; unf; [|exact (fun E => IH _ E n)]. intros _ H'. split; [|auto]. apply in_map_iff in H' as ([m c] & <- & H'). exists c. exact H'.
    - revert E. dupd p p'; unf; [|exact (fun E => IH _ E n)]. intros _ H'. apply in_drop in H' as [H' N]. destruct (IH p H n H') as [C V]. split; [exact C|]. intros [->|B]; [now apply N|contradiction].
    - revert E. dupd p p'; unf; [discriminate|]. rewrite phase_delete. intros E. unfold note_delete. rewrite E. unf. intros H'. apply in_drop in H' as [H' N]. exact (IH p' E n H').
    - revert E. dupd p p'; unf; exact (fun E => IH _ E n).
  Qed.
  (* Somebody can always start. *)
  Lemma fresh_gor tr s : runs tr s -> exists g, g_pc (t_g s g) = GNone.
  Proof.
    intros R. assert (G : exists m, forall g, m <= g -> g_pc (t_g s g) = GNone).
    { revert tr s R. apply (runs_ind' (fun _ s => exists m, forall g, m <= g -> g_pc (t_g s g) = GNone)); [exists 0; reflexivity|]. intros tr s l s' _ [m IH] St.
      destruct St; unf; try (exists m; exact IH);
      (exists (max m (S g)); intros h L; dupd g h; [lia|]; apply IH; lia). }
    destruct G as [m G]. exists m. now apply G.
  Qed.
  Lemma published_event tr s : runs tr s -> forall p, p_phase (t_pub s p) <> DNone -> exists e, p_event (t_pub s p) = Some e.
  Proof.
    revert tr s. apply (runs_ind' (fun _ s => forall p, p_phase (t_pub s p) <> DNone -> exists e, p_event (t_pub s p) = Some e)); [intros p H; now destruct H|]. intros tr s l s' _ IH St p'.
    destruct St; unf; auto;
      try (dupd p p'; unf; [intros _; first [now eexists | apply IH; congruence]|apply IH]; fail);
      try (dupd (g_pub (t_g s g)) p'; unf; apply IH; fail).
    - rewrite phase_store, event_store. apply IH.
    - dupd p p'; unf; [intros _; apply IH; congruence|]. rewrite phase_delete, event_delete. apply IH.
    - dupd p p'; unf; apply IH.
  Qed.
  Definition told (f : phase) : bool := match f with DClose | DSpawn | DRemove => true | _ => false end.
  Lemma told_result tr s : runs tr s -> forall p, told (p_phase (t_pub s p)) = true -> exists k, In (TResult p k) tr.
  Proof.
    revert tr s. apply (runs_ind' (fun tr s => forall p, told (p_phase (t_pub s p)) = true -> exists k, In (TResult p k) tr)); [discriminate|]. intros tr s l s' _ IH St p' T.
    assert (G : told (p_phase (t_pub s p')) = true -> exists k, In (TResult p' k) (ext tr l)) by (intros H; destruct (IH p' H) as [k K]; exists k; now apply ext_in).
    destruct St; unf; auto;
      try (revert T; dupd p p'; unf; [try discriminate; intros _; apply G; match goal with Q : p_phase _ = _ |- _ => rewrite Q end; reflexivity|exact G]; fail);
      try (revert T; dupd (g_pub (t_g s g)) p'; unf; exact G; fail).
    - rewrite phase_store in T. auto.
    - revert T. dupd p p'; unf; [|exact G]. intros _. eexists. apply in_snoc. now right.
    - revert T. dupd p p'; unf; [intros _; apply G; now rewrite H|]. rewrite phase_delete. exact G.
    - revert T. dupd p p'; unf; exact G.
  Qed.
  Lemma send_idle tr s g : runs tr s -> g_pc (t_g s g) = GSend -> d_pc (t_ch s (g_chan (t_g s g))) (sid g) = PIdle /\ d_crash (t_ch s (g_chan (t_g s g))) = false.
  Proof.
    intros R P. pose proof (runs_gors _ _ R g) as G. apply gstage_inv in G. rewrite P in G.
    assert (Sb : sub tr (g_name (t_g s g)) (g_chan (t_g s g))) by (apply (n_gor _ _ (runs_names _ _ R)); congruence).
    destruct (proj1 (runs_chans _ _ R) _ (n_less _ _ (runs_names _ _ R) _ _ Sb)) as [cap D]. split; [|exact (proj1 (i_alive _ _ _ (runs_inv _ _ _ D)))].
    pose proof (DataChannelProofs.i_stage _ _ _ (DataChannelProofs.runs_inv _ _ _ D) (sid g)) as S1.
    assert (N0 : forall o, ~ In (DataChannel.ECall (sid g) o) (DataChannelProofs.proj (sid g) (chan_trace (g_chan (t_g s g)) tr))).
    { intros o X. apply DataChannelProofs.in_proj in X as [X _]. apply ct_in in X. destruct (odd_call _ _ _ _ _ R X) as [[e' ->]|X'].
      - assert (Z : In (TChan (g_chan (t_g s g)) (DataChannel.ECall (sid g) (OSend e'))) (gproj g tr)) by (apply in_gproj; split; [exact X|cbn; apply Nat.eqb_refl]). rewrite G in Z. destruct Z as [Z|[]]. discriminate.
      - unfold sid in X'. rewrite Nat.odd_mul in X'. discriminate. }
    assert (C0 : forall h (p0 : DataChannel.pc A), DataChannelProofs.stage (sid g) h p0 -> p0 = DataChannel.PIdle \/ exists o, In (DataChannel.ECall (sid g) o) h).
    { clear. induction 1; cbn; eauto. destruct IHstage as [X|[o' X]]; [discriminate|]. right. exists o'. apply in_app_iff. auto. }
    destruct (C0 _ _ S1) as [X|[o X]]; [exact X|]. exfalso. exact (N0 _ X).
  Qed.
  Theorem topic_rest tr s : runs tr s -> at_rest step topic_call s -> forall p e, In (TPublish p e) tr -> exists k, In (TResult p k) tr.
  Proof.
    intros R Q p e H. destruct (runs_events _ _ R) as [Ev En]. apply Ev in H.
    assert (NW : forall g, running (g_pc (t_g s g)) = false).
    { intros g. destruct (g_pc (t_g s g)) as [| | | | |b|b] eqn:P; try reflexivity; exfalso.
      - destruct (send_idle _ _ g R P) as [I C]. destruct (published_event _ _ R (g_pub (t_g s g))) as [e' E'].
        { intros Z. assert (Y := visit_late _ _ _ _ _ _ R (gor_visit _ _ g R ltac:(congruence))). rewrite Z in Y. discriminate. }
        exact (t_moves _ _ _ Q (g_call s g e' _ P E' (DataChannel.c_send _ (sid g) e' C I))).
      - pose proof (runs_gors _ _ R g) as G. apply gstage_inv in G. rewrite P in G. destruct G as [e' G].
        assert (Sb : TopicProofs.sub tr (g_name (t_g s g)) (g_chan (t_g s g))) by (apply (n_gor _ _ (runs_names _ _ R)); congruence).
        pose proof (n_less _ _ (runs_names _ _ R) _ _ Sb) as L. destruct (proj1 (runs_chans _ _ R) _ L) as [cap D].
        pose proof (proj1 (DataChannelProofs.i_alive _ _ _ (DataChannelProofs.runs_inv _ _ _ D))) as Al.
        assert (Hc : In (DataChannel.ECall (sid g) (OSend e')) (chan_trace (g_chan (t_g s g)) tr)) by (apply ct_in, (in_gproj g); rewrite G; cbn; auto).
        destruct (DataChannelProofs.called_stage _ _ _ _ _ D Hc) as [X|[r X]].
        + intros r X. apply ct_in in X. assert (Z : In (TChan (g_chan (t_g s g)) (DataChannel.ERet (sid g) (OSend e') r)) (gproj g tr)) by (apply in_gproj; split; [exact X|cbn; apply Nat.eqb_refl]). rewrite G in Z. cbn in Z. intuition discriminate.
        + exact (t_moves _ _ _ Q (Topic.chan s _ None _ L I (DataChannel.s_expired _ (sid g) e' Al X))).
        + exact (t_moves _ _ _ Q (g_ret s g e' r _ P (DataChannel.c_ret _ (sid g) _ r Al X))).
      - exact (t_moves _ _ _ Q (g_add s g P)).
      - destruct (p_got (t_pub s (g_pub (t_g s g)))) as [n|] eqn:G; [exact (t_moves _ _ _ Q (collect s _ n G))|].
        destruct (p_phase (t_pub s (g_pub (t_g s g)))) eqn:F.
        7,8: destruct (t_moves _ _ _ Q (g_panic s g P ltac:(auto))).
        all: refine (t_moves _ _ _ Q (g_report s g P G _ _)); congruence.
      - exact (t_moves _ _ _ Q (g_done s g b P)). }
    destruct (p_phase (t_pub s p)) eqn:F.
    - rewrite (En p F) in H. discriminate.
    - destruct (t_moves _ _ _ Q (range s p F)).
    - destruct (p_must (t_pub s p)) as [|n m] eqn:M; [destruct (t_moves _ _ _ Q (range_end s p F M))|]. destruct (runs_due _ _ R p F n) as [[c C] V]; [rewrite M; now left|].
      destruct (fresh_gor _ _ R) as [g G]. destruct (t_moves _ _ _ Q (visit s p g n c F C V G)).
    - assert (W : p_wg (t_pub s p) = 0).
      { rewrite (proj1 (runs_counts _ _ R p)). unfold tally. rewrite (filter_ext _ (fun _ => false)) by exact NW. induction (gors p tr); auto. }
      destruct (t_moves _ _ _ Q (wait_over s p F W)).
    - destruct (t_moves _ _ _ Q (result s p F)).
    - apply (told_result _ _ R). now rewrite F.
    - apply (told_result _ _ R). now rewrite F.
    - apply (told_result _ _ R). now rewrite F.
  Qed.

  (* How many steps: what a publication, a sending goroutine and a channel's calls may still take. *)
  Definition left (f : phase) : nat := match f with DNone | DRemove => 0 | DStart => 6 | DRange => 5 | DWait => 4 | DResult => 3 | DClose => 2 | DSpawn => 1 end.
  Definition pub_cost (q : pub A) : nat := left (p_phase q) + match p_got q with Some _ => 2 | None => 0 end + match p_phase q with DRemove => 0 | _ => List.length (p_keys q) end + List.length (p_remove q).
  Definition gor_cost (x : gor) : nat := match g_pc x with GSend => 7 | GWait => 4 | GReport => 4 | GAdd => 2 | GWg _ => 1 | GNone | GOver _ => 0 end.
  Definition purse s (w : nat) : Prop := exists wp wg ws wc, owns pub_cost (t_pub s) wp /\ owns gor_cost (t_g s) wg /\
    (forall c, owns ch_cost (d_pc (t_ch s c)) (ws c)) /\ owns (fun x => x) ws wc /\ w = wp + wg + wc.
  Definition income (l : option (Topic.event A)) : nat := match l with
    | Some (TSubscribe _ _ _) => 1 | Some (TPublish _ _) => 7 | Some (TVisit _ _ _ _) => 8
    | Some (TChan _ (DataChannel.ECall _ ORecv)) | Some (TChan _ (DataChannel.ECall _ OClose)) => 4 | _ => 0 end.
  Lemma chans_upd (f : nat -> DataChannel.state A) ws wc c d x : (forall c, owns ch_cost (d_pc (f c)) (ws c)) -> owns (fun x => x) ws wc -> owns ch_cost (d_pc d) x ->
    exists ws' wc', (forall c', owns ch_cost (d_pc (upd f c d c')) (ws' c')) /\ owns (fun x => x) ws' wc' /\ wc' + ws c = wc + x.
  Proof.
    intros H W D. destruct (owns_upd (fun x => x) ws wc c x W) as (wc' & W' & Q). exists (upd ws c x), wc'. split; [|auto]. intros c'. dupd c c'; auto.
  Qed.
  Lemma pub_store n c (q : pub A) : pub_cost (note_store n c q) = pub_cost q.
  Proof. unfold note_store, pub_cost. destruct (p_phase q) eqn:E; unf; rewrite ?E; reflexivity. Qed.
  Lemma pub_delete n (q : pub A) : pub_cost (note_delete n q) = pub_cost q.
  Proof. unfold note_delete, pub_cost. destruct (p_phase q) eqn:E; unf; rewrite ?E; reflexivity. Qed.
  Lemma pays tr s l s' w : runs tr s -> step s l s' -> purse s w -> exists w', purse s' w' /\ S w' <= w + income l.
  Proof.
    intros R St (wp & wg & ws & wc & P & G & C & W & ->).
    assert (PU : forall p q, exists wp', owns pub_cost (upd (t_pub s) p q) wp' /\ wp' + pub_cost (t_pub s p) = wp + pub_cost q) by (intros; now apply owns_upd).
    assert (GU : forall g x, exists wg', owns gor_cost (upd (t_g s) g x) wg' /\ wg' + gor_cost (t_g s g) = wg + gor_cost x) by (intros; now apply owns_upd).
    assert (TC : forall c d (t0 : list (DataChannel.event A)) cap x, DataChannel.runs cap t0 (t_ch s c) -> DataChannel.step (t_ch s c) x d -> exists ws' wc', (forall c', owns ch_cost (d_pc (upd (t_ch s) c d c')) (ws' c')) /\ owns (fun x => x) ws' wc' /\ S wc' <= wc + ch_income x).
    { intros c d t0 cap x D X. destruct (ch_pays _ _ _ _ _ _ D X (C c)) as (v & V & L). destruct (chans_upd _ _ _ c d v C W V) as (ws' & wc' & H1 & H2 & H3). exists ws', wc'. repeat split; auto. lia. }
    assert (GC : forall g, g_pc (t_g s g) <> GNone -> exists cap, DataChannel.runs cap (chan_trace (g_chan (t_g s g)) tr) (t_ch s (g_chan (t_g s g)))).
    { intros g N. apply (proj1 (runs_chans _ _ R)). exact (n_less _ _ (runs_names _ _ R) _ _ (n_gor _ _ (runs_names _ _ R) g N)). }
    destruct St.
    - destruct (chans_upd _ _ _ (t_next s) (DataChannel.init cap) 0 C W) as (ws' & wc' & H1 & H2 & H3); [now apply owns_none|].
      exists (wp + wg + wc'). split; [|cbn; lia]. exists wp, wg, ws', wc'. unf. split; [|auto]. eapply owns_ext; [|exact P]. intros p. apply pub_store.
    - destruct (proj1 (runs_chans _ _ R) _ H) as [cap D]. destruct (TC _ _ _ _ _ D H1) as (ws' & wc' & K1 & K2 & K3). exists (wp + wg + wc'). split; [exists wp, wg, ws', wc'; unf; auto|].
      enough (ch_income l = income (option_map (TChan c) l)) by lia. destruct l as [[i o| | | | |]|]; try reflexivity. cbn in H0. now destruct H0 as [_ [-> | ->]].
    - destruct (PU p (mkP DStart (Some e) [] [] [] 0 0 [] None [])) as (wp' & P' & Q). exists (wp' + wg + wc). split; [exists wp', wg, ws, wc; unf; auto|]. cbn in *. lia.
    - destruct (PU p (mkP DRange (p_event (t_pub s p)) (t_subs s) (map fst (t_subs s)) [] 0 0 [] None [])) as (wp' & P' & Q). exists (wp' + wg + wc). split; [exists wp', wg, ws, wc; unf; auto|].
      unfold pub_cost in Q. rewrite H in Q. cbn in *. lia.
    - eassert (Z := PU p _). destruct Z as (wp' & P' & Q). destruct (GU g (mkG GSend p name c)) as (wg' & G' & Q2). exists (wp' + wg' + wc). split; [exists wp', wg', ws, wc; unf; repeat split; [exact P'|auto..]|].
      unfold pub_cost in Q. unfold gor_cost in Q2. rewrite H in Q. rewrite H2 in Q2. cbn in *. lia.
    - eassert (Z := PU p _). destruct Z as (wp' & P' & Q). exists (wp' + wg + wc). split; [exists wp', wg, ws, wc; unf; repeat split; [exact P'|auto..]|]. unfold pub_cost in Q. rewrite H in Q. cbn in *. lia.
    - eassert (Z := PU p _). destruct Z as (wp' & P' & Q). exists (wp' + wg + wc). split; [exists wp', wg, ws, wc; unf; repeat split; [exact P'|auto..]|]. unfold pub_cost in Q. rewrite H in Q. cbn in *. lia.
    - eassert (Z := PU p _). destruct Z as (wp' & P' & Q). exists (wp' + wg + wc). split; [exists wp', wg, ws, wc; unf; repeat split; [exact P'|auto..]|]. unfold pub_cost in Q. rewrite H in Q. cbn in *. lia.
    - eassert (Z := PU p _). destruct Z as (wp' & P' & Q). exists (wp' + wg + wc). split; [exists wp', wg, ws, wc; unf; repeat split; [exact P'|auto..]|]. unfold pub_cost in Q. rewrite H in Q. cbn in *. lia.
    - eassert (Z := PU p _). destruct Z as (wp' & P' & Q). exists (wp' + wg + wc). split; [exists wp', wg, ws, wc; unf; repeat split; [exact P'|auto..]|]. unfold pub_cost in Q. rewrite H in Q. cbn in *. lia.
    - assert (P0 : owns pub_cost (fun p' => note_delete name (t_pub s p')) wp) by (eapply owns_ext; [|exact P]; intros q; apply pub_delete).
      destruct (owns_upd pub_cost _ _ p (set_remove (t_pub s p) DRemove r) P0) as (wp' & P' & Q). rewrite pub_delete in Q. exists (wp' + wg + wc). split; [exists wp', wg, ws, wc; unf; auto|].
      unfold pub_cost in Q. cbn [set_remove p_phase p_got p_keys p_remove] in Q. rewrite H, H0 in Q. cbn in *. lia.
    - destruct (GC g ltac:(congruence)) as [cap D]. destruct (TC _ _ _ _ _ D H1) as (ws' & wc' & K1 & K2 & K3). eassert (Z := GU g _). destruct Z as (wg' & G' & Q2).
      exists (wp + wg' + wc'). split; [exists wp, wg', ws', wc'; unf; repeat split; [auto|exact G'|auto..]|]. unfold gor_cost in Q2. rewrite H in Q2. cbn in *. lia.
    - destruct (GC g ltac:(congruence)) as [cap D]. destruct (TC _ _ _ _ _ D H0) as (ws' & wc' & K1 & K2 & K3). eassert (Z := GU g _). destruct Z as (wg' & G' & Q2).
      exists (wp + wg' + wc'). split; [exists wp, wg', ws', wc'; unf; repeat split; [auto|exact G'|auto..]|]. unfold gor_cost in Q2. rewrite H in Q2. destruct r; cbn in *; lia.
    - eassert (Z := PU (g_pub (t_g s g)) _). destruct Z as (wp' & P' & Q). eassert (Z := GU g _). destruct Z as (wg' & G' & Q2).
      exists (wp' + wg' + wc). split; [exists wp', wg', ws, wc; unf; repeat split; [exact P'|exact G'|auto..]|]. unfold pub_cost in Q. unfold gor_cost in Q2. rewrite H in Q2. cbn in *. lia.
    - eassert (Z := PU (g_pub (t_g s g)) _). destruct Z as (wp' & P' & Q). eassert (Z := GU g _). destruct Z as (wg' & G' & Q2).
      exists (wp' + wg' + wc). split; [exists wp', wg', ws, wc; unf; repeat split; [exact P'|exact G'|auto..]|]. unfold pub_cost in Q. unfold gor_cost in Q2. rewrite H in Q2. rewrite H0 in Q. cbn in *. lia.
    - exfalso. apply (no_panic (tr ++ [TPanic]) s); [|apply in_snoc; auto]. eapply exec_act; [exact R|]. eapply g_panic; eassumption.
    - eassert (Z := PU (g_pub (t_g s g)) _). destruct Z as (wp' & P' & Q). eassert (Z := GU g _). destruct Z as (wg' & G' & Q2).
      exists (wp' + wg' + wc). split; [exists wp', wg', ws, wc; unf; repeat split; [exact P'|exact G'|auto..]|]. unfold pub_cost in Q. unfold gor_cost in Q2. rewrite H in Q2. cbn in *. lia.
    - eassert (Z := PU p _). destruct Z as (wp' & P' & Q). exists (wp' + wg + wc). split; [exists wp', wg, ws, wc; unf; repeat split; [exact P'|auto..]|]. unfold pub_cost in Q. rewrite H in Q. cbn in *. rewrite app_length in Q. cbn in Q. destruct (p_phase (t_pub s p)); lia.
  Qed.
  Definition visits (tr : list (Topic.event A)) : list (nat * nat) := flat_map (fun a => match a with TVisit p _ _ c => [(p, c)] | _ => [] end) tr.
  Lemma t_counted n tr s : steps step Topic.init n tr s -> exists w, purse s w /\ n + w <= List.length (subscribed tr) + 7 * List.length (published tr) + 8 * List.length (visits tr) + 4 * List.length (subscriber_calls tr).
  Proof.
    induction 1 as [|n tr s1 s2 H (w & W & L) St|n tr s1 a s2 H (w & W & L) St].
    - exists 0. split; [|cbn; lia]. exists 0, 0, (fun _ => 0), 0. repeat split; try (apply owns_none; reflexivity). intros c. apply owns_none. reflexivity.
    - destruct (pays _ _ _ _ _ (steps_exec _ _ _ _ _ H) St W) as (w' & W' & Q). exists w'. split; [exact W'|]. cbn in Q. lia.
    - destruct (pays _ _ _ _ _ (steps_exec _ _ _ _ _ H) St W) as (w' & W' & Q). exists w'. split; [exact W'|].
      unfold subscribed, published, visits, subscriber_calls in *. rewrite !flat_map_app, !app_length. destruct a as [| | |c [i []| | | | |]| | |]; cbn in *; lia.
  Qed.
  Lemma in_visits tr p c : In (p, c) (visits tr) <-> exists g n, In (TVisit p g n c) tr.
  Proof.
    unfold visits. rewrite in_flat_map. split.
    - intros (a & Ha & H). destruct a; try destruct H as [H|[]]; try contradiction. injection H as <- <-. eauto.
    - intros (g & n & H). eexists. split; [exact H|]. now left.
  Qed.
  Lemma visits_nodup tr s : runs tr s -> NoDup (visits tr).
  Proof.
    revert tr s. apply (runs_ind' (fun tr _ => NoDup (visits tr))); [constructor|]. intros tr s l s' R IH St.
    destruct l as [a|]; [|exact IH]. cbn [ext]. assert (R' : runs (tr ++ [a]) s') by (eapply exec_act; eassumption).
    unfold visits. rewrite flat_map_app. destruct a as [| |p g n c| | | |]; cbn; rewrite ?app_nil_r; auto. apply TopicProofs.nodup_snoc; [exact IH|]. intros X. apply (in_visits tr) in X as (g' & n' & X).
    assert (g = g') as <- by (eapply (visit_once _ _ p g n c g' n' R'); apply in_snoc; auto).
    assert (N : g_pc (t_g s g) = GNone) by (inversion St; subst; [destruct l; discriminate|assumption]).
    pose proof (visit_gor _ _ _ _ _ _ R X) as Y. intuition congruence.
  Qed.
  Definition channels (tr : list (Topic.event A)) : list nat := flat_map (fun a => match a with TSubscribe _ c _ => [c] | _ => [] end) tr.
  Lemma visits_few tr s : runs tr s -> List.length (visits tr) <= List.length (published tr) * List.length (subscribed tr).
  Proof.
    intros R. assert (E : List.length (subscribed tr) = List.length (channels tr)) by (unfold subscribed, channels; clear R; induction tr as [|[] tr IH]; cbn; auto).
    rewrite E, <- prod_length. apply NoDup_incl_length; [exact (visits_nodup _ _ R)|]. intros [p c] H. apply in_visits in H as (g & n & H). apply in_prod.
    - destruct (published_event _ _ R p) as [e X].
      { intros Z. assert (Y := visit_late _ _ _ _ _ _ R H). rewrite Z in Y. discriminate. }
      apply (proj1 (runs_events _ _ R)) in X. apply in_flat_map. eexists. split; [exact X|]. now left.
    - destruct (visit_sub _ _ _ _ _ _ R H) as [cap X]. apply in_flat_map. eexists. split; [exact X|]. now left.
  Qed.
  Theorem topic_bound n tr s : steps step Topic.init n tr s ->
    n <= List.length (subscribed tr) + List.length (published tr) * (7 + 8 * List.length (subscribed tr)) + 4 * List.length (subscriber_calls tr).
  Proof. intros H. destruct (t_counted _ _ _ H) as (w & _ & L). pose proof (visits_few _ _ (steps_exec _ _ _ _ _ H)). nia. Qed.
End Topic.
