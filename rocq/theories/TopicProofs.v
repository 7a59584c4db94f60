(* Invariants of the topic model. *)
From Coq Require Import List Arith Bool String Lia.
From Verif Require Import Lts DataChannel DataChannelProofs Topic.
Import ListNotations.

Section Proofs.
  Context {A : Type}.
  Notation state := (Topic.state A). Notation event := (Topic.event A). Notation pub := (Topic.pub A).
  Notation step := (@Topic.step A). Notation runs := (@Topic.runs A).
  Notation devent := (DataChannel.event A). Notation druns := (@DataChannel.runs A).
  Implicit Types (tr : list event) (s : state) (l : option event).

  Definition ext tr l : list event := match l with None => tr | Some a => tr ++ [a] end.
  Lemma ext_in tr l a : In a tr -> In a (ext tr l).
  Proof. destruct l; cbn; auto. intros. apply in_snoc. auto. Qed.
  Lemma ext_inv tr l a : In a (ext tr l) -> In a tr \/ l = Some a.
  Proof. destruct l; cbn; auto. intros H. apply in_snoc in H as [H| ->]; auto. Qed.
  Lemma runs_ind' (I : list event -> state -> Prop) : I [] init -> (forall tr s l s', runs tr s -> I tr s -> step s l s' -> I (ext tr l) s') ->
    forall tr s, runs tr s -> I tr s.
  Proof.
    intros H0 Hs tr s H. unfold Topic.runs in H. induction H as [|tr s1 s2 H IH St|tr s1 a s2 H IH St]; [exact H0| |].
    - exact (Hs tr s1 None s2 H IH St).
    - exact (Hs tr s1 (Some a) s2 H IH St).
  Qed.
  Ltac dupd i j := destruct (Nat.eq_dec j i) as [->|?]; [rewrite ?(upd_eq _ i)|rewrite ?(upd_ne _ i j) by assumption].
  Ltac unf := cbn [put_pub put_g put_ch t_subs t_next t_ch t_pub t_g p_phase p_event p_seen p_must p_visited p_wg p_count p_keys p_got p_remove
    set_phase set_count set_wg set_keys set_remove g_pc g_pub g_name g_chan] in *.

  (* ---- names and channels ---- *)
  Definition sub tr (n : string) (c : nat) : Prop := exists cap, In (TSubscribe n c cap) tr.
  Lemma sub_ext tr l n c : sub tr n c -> sub (ext tr l) n c.
  Proof. intros [k H]. exists k. now apply ext_in. Qed.
  Record names tr s : Prop := mkNames {
    n_subs : forall n c, In (n, c) (t_subs s) -> sub tr n c;
    n_seen : forall p n c, In (n, c) (p_seen (t_pub s p)) -> sub tr n c;
    n_gor : forall g, g_pc (t_g s g) <> GNone -> sub tr (g_name (t_g s g)) (g_chan (t_g s g));
    n_less : forall n c, sub tr n c -> c < t_next s;
    n_once : forall n n' c, sub tr n c -> sub tr n' c -> n = n' }.
  Lemma in_without {B} n (l : list (string * B)) x : In x (without n l) <-> In x l /\ fst x <> n.
  Proof. unfold without. rewrite filter_In. destruct (String.eqb_spec (fst x) n); cbn; intuition congruence. Qed.
  Lemma in_drop n (l : list string) x : In x (drop n l) <-> In x l /\ x <> n.
  Proof. unfold drop. rewrite filter_In. destruct (String.eqb_spec x n); cbn; intuition congruence. Qed.
  Lemma seen_store n c (q : pub) : p_seen (note_store n c q) = match p_phase q with DRange => (n, c) :: p_seen q | _ => p_seen q end.
  Proof. unfold note_store. destruct (p_phase q); reflexivity. Qed.
  Lemma seen_delete n (q : pub) : p_seen (note_delete n q) = p_seen q.
  Proof. unfold note_delete. destruct (p_phase q); reflexivity. Qed.
  Lemma sub_old tr l n c : (forall n c cap, l <> Some (TSubscribe n c cap)) -> sub (ext tr l) n c -> sub tr n c.
  Proof. intros N [k H]. exists k. apply ext_inv in H as [H|H]; [exact H|]. exfalso. exact (N _ _ _ H). Qed.
  Lemma names_frame tr s l s' : names tr s -> (forall n c cap, l <> Some (TSubscribe n c cap)) ->
    (forall n c, In (n, c) (t_subs s') -> In (n, c) (t_subs s)) -> t_next s' = t_next s ->
    (forall p n c, In (n, c) (p_seen (t_pub s' p)) -> In (n, c) (p_seen (t_pub s p)) \/ In (n, c) (t_subs s)) ->
    (forall g, g_pc (t_g s' g) <> GNone -> (g_pc (t_g s g) <> GNone /\ g_name (t_g s' g) = g_name (t_g s g) /\ g_chan (t_g s' g) = g_chan (t_g s g)) \/ exists p, In (g_name (t_g s' g), g_chan (t_g s' g)) (p_seen (t_pub s p))) ->
    names (ext tr l) s'.
  Proof.
    intros [I1 I2 I3 I4 I5] N Es En Ep Eg. constructor.
    - intros n c H. apply sub_ext. eauto.
    - intros p n c H. apply sub_ext. destruct (Ep _ _ _ H) as [H1|H1]; eauto.
    - intros g H. apply sub_ext. destruct (Eg g H) as [(H1 & -> & ->)|[p H1]]; eauto.
    - intros n c H. rewrite En. apply (I4 n). eapply sub_old; eauto.
    - intros n n' c H H'. apply (I5 n n' c); eapply sub_old; eauto.
  Qed.
  Lemma names_step tr s l s' : names tr s -> step s l s' -> names (ext tr l) s'.
  Proof.
    intros I St. destruct St;
      try (apply (names_frame tr s); [exact I|try discriminate|unf; auto|reflexivity| |]; unf;
           [intros p' n' c'; try (dupd p p'; unf; auto); try (dupd (g_pub (t_g s g)) p'; unf; auto)
           |intros g'; try (dupd g g'; unf; [left; split; [congruence|auto]|]); auto]; fail).
    - (* subscribe *) destruct I as [I1 I2 I3 I4 I5]. constructor; unf.
      + intros n c [H|H]; [inversion H; subst; exists cap; apply in_snoc; auto|]. apply in_without in H as [H _]. apply sub_ext. eauto.
      + intros p n c. rewrite seen_store. intros H. assert (H' : (n, c) = (name, t_next s) \/ In (n, c) (p_seen (t_pub s p))) by (destruct (p_phase (t_pub s p)); cbn in H; intuition).
        destruct H' as [E|H']; [inversion E; subst; exists cap; apply in_snoc; auto|]. apply sub_ext. eauto.
      + intros g H. apply sub_ext. eauto.
      + intros n c [k H]. apply ext_inv in H as [H|H]; [|inversion H; subst; lia]. assert (c < t_next s) by (apply (I4 n); exists k; exact H). lia.
      + intros n n' c [k H] [k' H']. apply ext_inv in H as [H|H]; apply ext_inv in H' as [H'|H'].
        * apply (I5 n n' c); eexists; eauto.
        * inversion H'; subst. assert (t_next s < t_next s) by (apply (I4 n); exists k; exact H). lia.
        * inversion H; subst. assert (t_next s < t_next s) by (apply (I4 n'); exists k'; exact H'). lia.
        * congruence.
    - (* chan *) apply (names_frame tr s); unf; auto. intros n' c' cap'. destruct l; discriminate.
    - (* publish *) apply (names_frame tr s); unf; auto; try discriminate. intros p' n' c'. dupd p p'; unf; [contradiction|auto].
    - (* visit *) apply (names_frame tr s); unf; auto; try discriminate.
      + intros p' n' c'. dupd p p'; unf; auto.
      + intros g'. dupd g g'; unf; [intros _; right; exists p; assumption|auto].
    - (* remove *) apply (names_frame tr s); unf; auto; try discriminate.
      + intros n' c' Hin. apply in_without in Hin. tauto.
      + intros p' n' c'. dupd p p'; unf; rewrite ?seen_delete; auto.
  Qed.
  Lemma runs_names tr s : runs tr s -> names tr s.
  Proof.
    revert tr s. apply runs_ind'; [|intros; eapply names_step; eauto].
    constructor; cbn; try contradiction; try discriminate.
    - intros n c [k []].
    - intros n n' c [k []].
  Qed.

  (* ---- every channel's history is a run of DataChannel ---- *)
  Lemma ct_ext c tr l : chan_trace c (ext tr l) = chan_trace c tr ++ match l with Some a => on_chan c a | None => [] end.
  Proof. destruct l; cbn; [|now rewrite app_nil_r]. unfold chan_trace. rewrite flat_map_app. cbn. now rewrite app_nil_r. Qed.
  Lemma ct_in c tr x : In x (chan_trace c tr) <-> In (TChan c x) tr.
  Proof.
    unfold chan_trace. rewrite in_flat_map. split.
    - intros (a & H & P). destruct a; cbn in P; try contradiction. destruct (Nat.eqb_spec c0 c) as [->|]; [|contradiction]. destruct P as [->|[]]. exact H.
    - intros H. exists (TChan c x). cbn. rewrite Nat.eqb_refl. cbn. auto.
  Qed.
  Definition chans tr s : Prop := (forall c, c < t_next s -> exists cap, druns cap (chan_trace c tr) (t_ch s c)) /\ (forall c, t_next s <= c -> chan_trace c tr = []).
  Lemma chan_frame tr s l s' : chans tr s -> (forall c x, l <> Some (TChan c x)) -> t_next s' = t_next s -> t_ch s' = t_ch s -> chans (ext tr l) s'.
  Proof.
    intros [I1 I2] N En Ec. split; intros c H; rewrite ct_ext, ?Ec; rewrite En in H;
      assert (E : match l with Some a => on_chan c a | None => [] end = []) by (destruct l as [[| | |c' x| | |]|]; try reflexivity; exfalso; exact (N c' x eq_refl));
      rewrite E, app_nil_r; auto.
  Qed.
  Lemma chan_chan tr s c (x : option devent) d s' : chans tr s -> c < t_next s -> DataChannel.step (t_ch s c) x d -> t_next s' = t_next s -> t_ch s' = upd (t_ch s) c d ->
    chans (ext tr (option_map (TChan c) x)) s'.
  Proof.
    intros [I1 I2] L St En Ec. split; intros c' H; rewrite ct_ext, ?Ec; rewrite En in H.
    - dupd c c'.
      + destruct (I1 _ L) as [cap R]. exists cap. destruct x as [x|]; cbn.
        * rewrite Nat.eqb_refl. eapply exec_act; eauto.
        * rewrite app_nil_r. eapply exec_tau; eauto.
      + destruct (I1 _ H) as [cap R]. exists cap. destruct x; cbn; [|now rewrite app_nil_r].
        destruct (Nat.eqb_spec c c'); [congruence|]. now rewrite app_nil_r.
    - rewrite (I2 _ H). destruct x; cbn; [|reflexivity]. destruct (Nat.eqb_spec c c'); [lia|reflexivity].
  Qed.
  Lemma chans_step tr s l s' : names tr s -> chans tr s -> step s l s' -> chans (ext tr l) s'.
  Proof.
    intros N I St. destruct St; try (apply (chan_frame tr s); [exact I|discriminate|reflexivity|reflexivity]).
    - (* subscribe *) destruct I as [I1 I2]. split; intros c H; unf; rewrite ct_ext; cbn; rewrite app_nil_r.
      + dupd (t_next s) c; [exists cap; rewrite I2 by lia; apply exec_start|apply I1; lia].
      + apply I2. lia.
    - eapply chan_chan; eauto.
    - eapply (chan_chan tr s _ (Some _)); eauto. apply (n_less _ _ N (g_name (t_g s g))). apply (n_gor _ _ N). congruence.
    - eapply (chan_chan tr s _ (Some _)); eauto. apply (n_less _ _ N (g_name (t_g s g))). apply (n_gor _ _ N). congruence.
  Qed.
  Lemma runs_chans tr s : runs tr s -> chans tr s.
  Proof.
    revert tr s. apply runs_ind'; [|intros; eapply chans_step; eauto using runs_names].
    split; cbn; [lia|reflexivity].
  Qed.
  (* So everything proved of one data channel holds of every subscriber's. *)
  Lemma chan_runs tr s c x : runs tr s -> In (TChan c x) tr -> exists cap, druns cap (chan_trace c tr) (t_ch s c).
  Proof.
    intros H Hin. destruct (runs_chans _ _ H) as [I1 I2]. destruct (Nat.lt_ge_cases c (t_next s)) as [L|L]; [auto|].
    apply ct_in in Hin. rewrite (I2 _ L) in Hin. contradiction.
  Qed.

  (* ---- the published events ---- *)
  Definition events tr s : Prop := (forall p e, p_event (t_pub s p) = Some e <-> In (TPublish p e) tr) /\ (forall p, p_phase (t_pub s p) = DNone -> p_event (t_pub s p) = None).
  Lemma event_store n c (q : pub) : p_event (note_store n c q) = p_event q.
  Proof. unfold note_store. destruct (p_phase q); reflexivity. Qed.
  Lemma event_delete n (q : pub) : p_event (note_delete n q) = p_event q.
  Proof. unfold note_delete. destruct (p_phase q); reflexivity. Qed.
  Lemma phase_store n c (q : pub) : p_phase (note_store n c q) = p_phase q.
  Proof. unfold note_store. destruct (p_phase q) eqn:E; try assumption; reflexivity. Qed.
  Lemma phase_delete n (q : pub) : p_phase (note_delete n q) = p_phase q.
  Proof. unfold note_delete. destruct (p_phase q) eqn:E; try assumption; reflexivity. Qed.
  Lemma events_frame tr s l s' : events tr s -> (forall p e, l <> Some (TPublish p e)) -> (forall p, p_event (t_pub s' p) = p_event (t_pub s p)) ->
    (forall p, p_phase (t_pub s' p) = DNone -> p_phase (t_pub s p) = DNone) -> events (ext tr l) s'.
  Proof.
    intros [I1 I2] N Ee Ep. split.
    - intros p e. rewrite Ee, I1. split; [apply ext_in|]. intros H. apply ext_inv in H as [H|H]; [exact H|]. exfalso. exact (N _ _ H).
    - intros p H. rewrite Ee. apply I2. auto.
  Qed.
  Lemma events_step tr s l s' : events tr s -> step s l s' -> events (ext tr l) s'.
  Proof.
    intros I St. destruct St;
      try (apply (events_frame tr s); [exact I|try discriminate| |]; unf; intros p'; try (dupd p p'; unf; congruence); try (dupd (g_pub (t_g s g)) p'; unf; congruence); auto; fail).
    - apply (events_frame tr s); auto; try discriminate; unf; intros p'; rewrite ?event_store, ?phase_store; auto.
    - apply (events_frame tr s); auto; unf. intros p' e'. destruct l; discriminate.
    - destruct I as [I1 I2]. split; unf.
      + intros p' e'. dupd p p'; unf.
        * split; [intros E; inversion E; subst; apply in_snoc; auto|]. intros Hin. apply in_snoc in Hin as [Hin|Hin]; [|congruence].
          apply I1 in Hin. rewrite (I2 _ H) in Hin. discriminate.
        * rewrite I1. split; [intros; apply in_snoc; auto|]. intros Hin. apply in_snoc in Hin as [Hin|Hin]; [auto|congruence].
      + intros p'. dupd p p'; unf; [discriminate|auto].
    - apply (events_frame tr s); auto; try discriminate; unf; intros p'; dupd p p'; unf; rewrite ?event_delete, ?phase_delete; auto; congruence.
  Qed.
  Lemma runs_events tr s : runs tr s -> events tr s.
  Proof. revert tr s. apply runs_ind'; [|intros; eapply events_step; eauto]. split; cbn; [|reflexivity]. intros; split; [discriminate|contradiction]. Qed.

  (* ---- the life of a sending goroutine ---- *)
  Definition mine (g : nat) (a : event) : bool := match a with
    | TVisit _ g' _ _ => Nat.eqb g' g
    | TChan _ (DataChannel.ECall i (OSend _)) | TChan _ (DataChannel.ERet i (OSend _) _) => Nat.eqb i (sid g)
    | _ => false end.
  Definition gproj g tr : list event := filter (mine g) tr.
  Lemma gproj_ext g tr l : gproj g (ext tr l) = gproj g tr ++ match l with Some a => if mine g a then [a] else [] | None => [] end.
  Proof. destruct l; cbn; [|now rewrite app_nil_r]. unfold gproj. rewrite filter_app. reflexivity. Qed.
  Definition called p g n c e : list event := [TVisit p g n c; TChan c (DataChannel.ECall (sid g) (OSend e))].
  Definition back p g n c e r : list event := called p g n c e ++ [TChan c (DataChannel.ERet (sid g) (OSend e) r)].
  Inductive gstage (g : nat) : list event -> gor -> Prop :=
  | k_none p n c : gstage g [] (mkG GNone p n c)
  | k_send p n c : gstage g [TVisit p g n c] (mkG GSend p n c)
  | k_wait p n c e : gstage g (called p g n c e) (mkG GWait p n c)
  | k_add p n c e : gstage g (back p g n c e RSuccess) (mkG GAdd p n c)
  | k_wg p n c e : gstage g (back p g n c e RSuccess) (mkG (GWg true) p n c)
  | k_over p n c e : gstage g (back p g n c e RSuccess) (mkG (GOver true) p n c)
  | k_report p n c e : gstage g (back p g n c e RClosed) (mkG GReport p n c)
  | k_wg' p n c e r : r = RClosed \/ r = RExpired -> gstage g (back p g n c e r) (mkG (GWg false) p n c)
  | k_over' p n c e r : r = RClosed \/ r = RExpired -> gstage g (back p g n c e r) (mkG (GOver false) p n c).
  Lemma gstage_inv g h x : gstage g h x -> match g_pc x with
    | GNone => h = [] | GSend => h = [TVisit (g_pub x) g (g_name x) (g_chan x)]
    | GWait => exists e, h = called (g_pub x) g (g_name x) (g_chan x) e
    | GAdd | GWg true | GOver true => exists e, h = back (g_pub x) g (g_name x) (g_chan x) e RSuccess
    | GReport => exists e, h = back (g_pub x) g (g_name x) (g_chan x) e RClosed
    | GWg false | GOver false => exists e r, (r = RClosed \/ r = RExpired) /\ h = back (g_pub x) g (g_name x) (g_chan x) e r end.
  Proof. destruct 1; cbn; eauto. Qed.
  Definition gors_ok tr s : Prop := forall g, gstage g (gproj g tr) (t_g s g).
  Lemma sid_eqb g g' : Nat.eqb (sid g) (sid g') = Nat.eqb g g'.
  Proof. unfold sid. destruct (Nat.eqb_spec g g') as [->|]; [apply Nat.eqb_refl|apply Nat.eqb_neq; lia]. Qed.
  Lemma eqb_ne' i j : j <> i -> Nat.eqb i j = false.
  Proof. intros H. apply Nat.eqb_neq. congruence. Qed.
  Lemma gors_frame tr s l s' : gors_ok tr s -> (forall g a, l = Some a -> mine g a = false) -> (forall g, t_g s' g = t_g s g) -> gors_ok (ext tr l) s'.
  Proof.
    intros I N E g. rewrite gproj_ext, E. destruct l as [a|]; [|rewrite app_nil_r; apply I]. rewrite (N g a eq_refl), app_nil_r. apply I.
  Qed.
  Lemma ret_called cap (t : list devent) d i o r : druns cap t d -> In (DataChannel.ERet i o r) t -> In (DataChannel.ECall i o) t.
  Proof.
    intros H Hin. destruct (DataChannelProofs.returned _ _ _ _ _ _ H Hin) as (_ & h & E & S1).
    assert (Z : In (DataChannel.ECall i o) h) by (inversion S1; subst; now left). apply (in_proj i). rewrite E. apply in_app_iff. auto.
  Qed.
  Lemma gors_step tr s l s' : runs tr s -> gors_ok tr s -> step s l s' -> gors_ok (ext tr l) s'.
  Proof.
    intros Rn I St. pose proof (runs_names _ _ Rn) as Nm.
    assert (I' : forall g, match g_pc (t_g s g) with
      | GNone => gproj g tr = [] | GSend => gproj g tr = [TVisit (g_pub (t_g s g)) g (g_name (t_g s g)) (g_chan (t_g s g))]
      | GWait => exists e, gproj g tr = called (g_pub (t_g s g)) g (g_name (t_g s g)) (g_chan (t_g s g)) e
      | GAdd | GWg true | GOver true => exists e, gproj g tr = back (g_pub (t_g s g)) g (g_name (t_g s g)) (g_chan (t_g s g)) e RSuccess
      | GReport => exists e, gproj g tr = back (g_pub (t_g s g)) g (g_name (t_g s g)) (g_chan (t_g s g)) e RClosed
      | GWg false | GOver false => exists e r, (r = RClosed \/ r = RExpired) /\ gproj g tr = back (g_pub (t_g s g)) g (g_name (t_g s g)) (g_chan (t_g s g)) e r end)
      by (intros g; exact (gstage_inv _ _ _ (I g))).
    destruct St; try (apply (gors_frame tr s); [exact I|intros ? ? E; inversion E; reflexivity|reflexivity]).
    - (* chan *) apply (gors_frame tr s); auto. intros g a E. destruct l as [x|]; [|discriminate]. cbn in E. inversion E; subst. cbn.
      destruct x as [i o|i o r| | | |]; cbn in H0; try reflexivity; destruct H0 as [_ [->| ->]]; reflexivity.
    - (* visit *) intros g'. rewrite gproj_ext. unf. cbn [mine]. dupd g g'.
      + rewrite Nat.eqb_refl. specialize (I' g). rewrite H2 in I'. rewrite I'. constructor.
      + rewrite eqb_ne', app_nil_r by assumption. apply I.
    - (* g_call *) intros g'. rewrite gproj_ext. unf. cbn [mine]. rewrite sid_eqb. dupd g g'.
      + rewrite Nat.eqb_refl. specialize (I' g). rewrite H in I'. rewrite I'. constructor.
      + rewrite eqb_ne', app_nil_r by assumption. apply I.
    - (* g_ret *) intros g'. rewrite gproj_ext. unf. cbn [mine]. rewrite sid_eqb. dupd g g'.
      + rewrite Nat.eqb_refl. specialize (I' g). rewrite H in I'. destruct I' as [e' I']. rewrite I'.
        set (c := g_chan (t_g s g)) in *. assert (L : c < t_next s) by (apply (n_less _ _ Nm (g_name (t_g s g))); apply (n_gor _ _ Nm); congruence).
        destruct (proj1 (runs_chans _ _ Rn) c L) as [cap R].
        assert (R' : druns cap (chan_trace c tr ++ [DataChannel.ERet (sid g) (OSend e) r]) d) by (eapply exec_act; eauto).
        assert (Hin : In (DataChannel.ERet (sid g) (OSend e) r) (chan_trace c tr ++ [DataChannel.ERet (sid g) (OSend e) r])) by (apply in_snoc; auto).
        assert (e = e') as <-.
        { pose proof (ret_called _ _ _ _ _ _ R' Hin) as C1.
          assert (C2 : In (DataChannel.ECall (sid g) (OSend e')) (chan_trace c tr ++ [DataChannel.ERet (sid g) (OSend e) r])).
          { apply in_snoc. left. apply ct_in. assert (Z : In (TChan c (DataChannel.ECall (sid g) (OSend e'))) (gproj g tr)) by (rewrite I'; cbn; auto). now apply filter_In in Z. }
          pose proof (called_once _ _ _ _ _ _ R' C1 C2). congruence. }
        destruct (send_result _ _ _ _ _ _ R' Hin) as [[-> _]|[[->| ->] _]]; cbn [after]; constructor; auto.
      + rewrite eqb_ne', app_nil_r by assumption. apply I.
    - (* g_add *) intros g'. rewrite gproj_ext, app_nil_r. unf. dupd g g'; [|apply I]. specialize (I' g). rewrite H in I'. destruct I' as [e ->]. constructor.
    - (* g_report *) intros g'. rewrite gproj_ext, app_nil_r. unf. dupd g g'; [|apply I]. specialize (I' g). rewrite H in I'. destruct I' as [e ->]. constructor. auto.
    - (* g_done *) intros g'. rewrite gproj_ext, app_nil_r. unf. dupd g g'; [|apply I]. specialize (I' g). rewrite H in I'. destruct b; [destruct I' as [e ->]|destruct I' as (e & r & Hr & ->)]; constructor. auto.
  Qed.
  Lemma runs_gors tr s : runs tr s -> gors_ok tr s.
  Proof. revert tr s. apply runs_ind'; [|intros; eapply gors_step; eauto]. intros g. constructor. Qed.
  Lemma in_gproj g tr a : In a (gproj g tr) <-> In a tr /\ mine g a = true.
  Proof. apply filter_In. Qed.
  (* a visit belongs to its goroutine *)
  Lemma visit_gor tr s p g n c : runs tr s -> In (TVisit p g n c) tr ->
    g_pc (t_g s g) <> GNone /\ g_pub (t_g s g) = p /\ g_name (t_g s g) = n /\ g_chan (t_g s g) = c.
  Proof.
    intros H Hin. pose proof (runs_gors _ _ H g) as I. apply gstage_inv in I.
    assert (Z : In (TVisit p g n c) (gproj g tr)) by (apply in_gproj; cbn; now rewrite Nat.eqb_refl).
    destruct (t_g s g) as [x p' n' c']; cbn in *.
    destruct x as [| | | | |[]|[]]; cbn in I; repeat match goal with Q : exists _, _ |- _ => destruct Q as [? Q] | Q : _ /\ _ |- _ => destruct Q | Q : gproj g tr = _ |- _ => rewrite Q in Z; clear Q end;
      cbn in Z; decompose [or] Z; try contradiction; try discriminate;
      match goal with Q : TVisit _ _ _ _ = TVisit _ _ _ _ |- _ => inversion Q; subst end; repeat split; discriminate.
  Qed.
  Lemma gor_visit tr s g : runs tr s -> g_pc (t_g s g) <> GNone -> In (TVisit (g_pub (t_g s g)) g (g_name (t_g s g)) (g_chan (t_g s g))) tr.
  Proof.
    intros H N. pose proof (runs_gors _ _ H g) as I. apply gstage_inv in I.
    assert (Z : In (TVisit (g_pub (t_g s g)) g (g_name (t_g s g)) (g_chan (t_g s g))) (gproj g tr)).
    { destruct (g_pc (t_g s g)) as [| | | | |[]|[]]; cbn in I; repeat match goal with Q : exists _, _ |- _ => destruct Q as [? Q] | Q : _ /\ _ |- _ => destruct Q end;
      try contradiction; match goal with Q : gproj g tr = _ |- _ => rewrite Q end; now left. }
    now apply in_gproj in Z.
  Qed.

  (* ---- visits ---- *)
  Definition visit_of (p : nat) (a : event) : list nat := match a with TVisit p' g _ _ => if Nat.eqb p' p then [g] else [] | _ => [] end.
  Definition gors p tr : list nat := flat_map (visit_of p) tr.
  Lemma gors_ext p tr l : gors p (ext tr l) = gors p tr ++ match l with Some a => visit_of p a | None => [] end.
  Proof. destruct l; cbn; [|now rewrite app_nil_r]. unfold gors. rewrite flat_map_app. cbn. now rewrite app_nil_r. Qed.
  Lemma in_gors p tr g : In g (gors p tr) <-> exists n c, In (TVisit p g n c) tr.
  Proof.
    unfold gors. rewrite in_flat_map. split.
    - intros (a & H & P). destruct a; cbn in P; try contradiction. destruct (Nat.eqb_spec p0 p) as [->|]; [|contradiction]. destruct P as [->|[]]. eauto.
    - intros (n & c & H). exists (TVisit p g n c). cbn. rewrite Nat.eqb_refl. cbn. auto.
  Qed.
  Lemma gors_none p tr l : (forall p g n c, l <> Some (TVisit p g n c)) -> gors p (ext tr l) = gors p tr.
  Proof. intros N. rewrite gors_ext. destruct l as [[]|]; cbn; rewrite ?app_nil_r; try reflexivity. exfalso. eapply N. reflexivity. Qed.
  Lemma not_visit s l s' : step s l s' -> (exists p g n c, l = Some (TVisit p g n c) /\ g_pc (t_g s g) = GNone) \/ (forall p g n c, l <> Some (TVisit p g n c)).
  Proof. destruct 1; try (right; discriminate); [right; destruct l; discriminate|]. left. eauto 7. Qed.
  Lemma nodup_snoc {B} (l : list B) x : NoDup l -> ~ In x l -> NoDup (l ++ [x]).
  Proof. intros H N. apply NoDup_Add with (a := x) (l := l); [|auto]. rewrite <- (app_nil_r l) at 1. apply Add_app. Qed.
  Lemma gors_nodup tr s p : runs tr s -> NoDup (gors p tr).
  Proof.
    intros H. revert tr s H. apply (runs_ind' (fun tr s => NoDup (gors p tr))); [constructor|]. intros tr s l s' H IH St.
    destruct (not_visit _ _ _ St) as [(p' & g & n & c & -> & E)|N]; [|now rewrite gors_none].
    rewrite gors_ext. cbn. destruct (Nat.eqb_spec p' p) as [->|]; [|now rewrite app_nil_r].
    apply nodup_snoc; [exact IH|]. intros Hin. apply in_gors in Hin as (n' & c' & Hin).
    destruct (visit_gor _ _ _ _ _ _ H Hin). congruence.
  Qed.

  (* ---- the wait group and the success count ---- *)
  Definition running (x : gpc) : bool := match x with GNone | GOver _ => false | _ => true end.
  Definition counted (x : gpc) : bool := match x with GWg true | GOver true => true | _ => false end.
  Definition tally (f : gpc -> bool) tr s p : nat := List.length (filter (fun g => f (g_pc (t_g s g))) (gors p tr)).
  Definition counts tr s : Prop := forall p, p_wg (t_pub s p) = tally running tr s p /\ p_count (t_pub s p) = tally counted tr s p.
  Lemma filter_one (P Q : nat -> bool) (l : list nat) g : NoDup l -> In g l -> (forall h, h <> g -> P h = Q h) -> P g = false -> Q g = true -> List.length (filter Q l) = S (List.length (filter P l)).
  Proof.
    induction l as [|h l IH]; cbn; [contradiction|]. intros Nd Hin E Pf Qt. inversion Nd; subst. destruct (Nat.eq_dec h g) as [->|N].
    - rewrite Pf, Qt. cbn. f_equal. f_equal. apply filter_ext_in. intros x Hx. symmetry. apply E. congruence.
    - destruct Hin as [->|Hin]; [congruence|]. rewrite <- (E h N). destruct (P h); cbn; auto using f_equal.
  Qed.
  Lemma tally_same f tr l s s' p : (forall p g n c, l <> Some (TVisit p g n c)) -> (forall g, f (g_pc (t_g s' g)) = f (g_pc (t_g s g))) -> tally f (ext tr l) s' p = tally f tr s p.
  Proof. intros N E. unfold tally. rewrite gors_none by assumption. f_equal. apply filter_ext. auto. Qed.
  Lemma wg_store n c (q : pub) : p_wg (note_store n c q) = p_wg q /\ p_count (note_store n c q) = p_count q.
  Proof. unfold note_store. destruct (p_phase q); auto. Qed.
  Lemma wg_delete n (q : pub) : p_wg (note_delete n q) = p_wg q /\ p_count (note_delete n q) = p_count q.
  Proof. unfold note_delete. destruct (p_phase q); auto. Qed.
  Lemma counts_frame tr l s s' : counts tr s -> (forall p g n c, l <> Some (TVisit p g n c)) -> (forall g, running (g_pc (t_g s' g)) = running (g_pc (t_g s g)) /\ counted (g_pc (t_g s' g)) = counted (g_pc (t_g s g))) ->
    (forall p, p_wg (t_pub s' p) = p_wg (t_pub s p) /\ p_count (t_pub s' p) = p_count (t_pub s p)) -> counts (ext tr l) s'.
  Proof. intros I N E1 E2 p. destruct (E2 p) as [-> ->]. rewrite !(tally_same _ _ _ s) by (auto; intros; apply E1). apply I. Qed.
  (* before Range nobody was visited *)
  Definition early (f : phase) : bool := match f with DNone | DStart => true | _ => false end.
  Lemma early_store n c (q : pub) : early (p_phase (note_store n c q)) = early (p_phase q). Proof. now rewrite phase_store. Qed.
  Lemma early_delete n (q : pub) : early (p_phase (note_delete n q)) = early (p_phase q). Proof. now rewrite phase_delete. Qed.
  Lemma visit_late tr s p g n c : runs tr s -> In (TVisit p g n c) tr -> early (p_phase (t_pub s p)) = false.
  Proof.
    intros H. revert tr s H p g n c. apply (runs_ind' (fun tr s => forall p g n c, In (TVisit p g n c) tr -> early (p_phase (t_pub s p)) = false)); [contradiction|].
    intros tr s l s' H IH St p0 g0 n0 c0 Hin. apply ext_inv in Hin as [Hin|Hin].
    - apply IH in Hin. destruct St; unf; rewrite ?early_store; auto; try (dupd p p0; unf; rewrite ?early_delete; auto; fail); try (dupd (g_pub (t_g s g)) p0; unf; auto; fail).
      dupd p p0; unf; auto. rewrite H0 in Hin. discriminate.
    - subst l. inversion St; subst; unf; [destruct l; discriminate|]. now rewrite upd_eq.
  Qed.
  Lemma tally_early f tr s p : runs tr s -> early (p_phase (t_pub s p)) = true -> tally f tr s p = 0.
  Proof.
    intros H E. unfold tally. destruct (gors p tr) as [|g l] eqn:G; [reflexivity|].
    assert (Z : In g (gors p tr)) by (rewrite G; now left). apply in_gors in Z as (n & c & Z). rewrite (visit_late _ _ _ _ _ _ H Z) in E. discriminate.
  Qed.
  Lemma gor_in tr s g : runs tr s -> g_pc (t_g s g) <> GNone -> In g (gors (g_pub (t_g s g)) tr).
  Proof. intros H N. apply in_gors. eauto using gor_visit. Qed.
  Lemma gor_not_in tr s g p : runs tr s -> p <> g_pub (t_g s g) -> ~ In g (gors p tr).
  Proof. intros H N Hin. apply in_gors in Hin as (n & c & Hin). destruct (visit_gor _ _ _ _ _ _ H Hin) as (_ & E & _). congruence. Qed.
  Lemma tally_other f tr s s' g p : runs tr s -> (forall h, h <> g -> t_g s' h = t_g s h) -> ~ In g (gors p tr) -> tally f tr s' p = tally f tr s p.
  Proof. intros H E N. unfold tally. f_equal. apply filter_ext_in. intros h Hh. rewrite E; [reflexivity|]. intros ->. contradiction. Qed.

  Lemma counts_step tr s l s' : runs tr s -> counts tr s -> step s l s' -> counts (ext tr l) s'.
  Proof.
    intros Rn I St. destruct St;
      try (apply (counts_frame tr _ s); [exact I|discriminate|auto|]; unf; intros p'; dupd p p'; unf; auto; fail).
    - (* subscribe *) apply (counts_frame tr _ s); [exact I|discriminate|auto|]. unf. intros p'. apply wg_store.
    - (* chan *) apply (counts_frame tr _ s); [exact I|destruct l; discriminate|auto|]. auto.
    - (* publish *) intros p'. unf. rewrite !(tally_same _ _ _ s) by (discriminate || auto). dupd p p'; unf; [|apply I].
      rewrite !(tally_early _ tr) by (auto; now rewrite H). auto.
    - (* range *) intros p'. unf. rewrite !(tally_same _ _ _ s) by (discriminate || auto). dupd p p'; unf; [|apply I].
      rewrite !(tally_early _ tr) by (auto; now rewrite H). auto.
    - (* visit *) intros p'.
      assert (N : forall q, ~ In g (gors q tr)).
      { intros q Hin. apply in_gors in Hin as (n' & c' & Hin). destruct (visit_gor _ _ _ _ _ _ Rn Hin). congruence. }
      unf. unfold tally. unf. rewrite gors_ext. cbn [visit_of].
      assert (E : forall f q, filter (fun h => f (g_pc (upd (t_g s) g (mkG GSend p name c) h))) (gors q tr) = filter (fun h => f (g_pc (t_g s h))) (gors q tr)).
      { intros f q. apply filter_ext_in. intros h Hh. rewrite upd_ne; [reflexivity|]. intros ->. exact (N _ Hh). }
      dupd p p'; unf.
      + rewrite Nat.eqb_refl, !filter_app, !(E running), !(E counted), !app_length. cbn. rewrite upd_eq. cbn. destruct (I p) as [-> ->]. unfold tally. lia.
      + rewrite eqb_ne', app_nil_r by assumption. rewrite (E running), (E counted). apply I.
    - (* remove *) apply (counts_frame tr _ s); [exact I|discriminate|auto|]. unf. intros p'. dupd p p'; unf; auto. apply wg_delete.
    - (* g_call *) apply (counts_frame tr _ s); [exact I|discriminate| |auto]. unf. intros g'. dupd g g'; unf; auto. rewrite H. auto.
    - (* g_ret *) apply (counts_frame tr _ s); [exact I|discriminate| |auto]. unf. intros g'. dupd g g'; unf; auto. rewrite H. destruct r; auto.
    - (* g_add *) intros p'. cbn [ext]. assert (In g (gors (g_pub (t_g s g)) tr)) as Gi by (eapply gor_in; [eassumption|congruence]).
      destruct (Nat.eq_dec p' (g_pub (t_g s g))) as [->|N]; unf; rewrite ?upd_eq, ?upd_ne by assumption; unf.
      + destruct (I (g_pub (t_g s g))) as [-> ->]. split.
        * unfold tally. apply (f_equal (@List.length nat)). apply filter_ext. intros h. unf. dupd g h; unf; [rewrite H|]; reflexivity.
        * unfold tally. symmetry. apply (filter_one _ _ _ g); auto using (gors_nodup tr s); unf; rewrite ?upd_eq, ?H; auto. intros h Hh. now rewrite upd_ne.
      + rewrite (tally_other running tr s _ g), (tally_other counted tr s _ g) by (eauto using gor_not_in; intros h Hh; unf; now rewrite upd_ne). apply I.
    - (* g_report *) intros p'. cbn [ext].
      assert (E : forall f, f GReport = f (GWg false) -> tally f tr s p' = tally f tr (put_g (put_pub s (g_pub (t_g s g)) (set_keys (t_pub s (g_pub (t_g s g))) (p_keys (t_pub s (g_pub (t_g s g)))) (Some (g_name (t_g s g))))) g (GWg false)) p').
      { intros f E. unfold tally. apply (f_equal (@List.length nat)). apply filter_ext. intros h. unf. dupd g h; unf; [now rewrite H|reflexivity]. }
      rewrite <- !E by reflexivity. unf. dupd (g_pub (t_g s g)) p'; unf; apply I.
    - (* g_panic *) apply (counts_frame tr _ s); [exact I|discriminate|auto|auto].
    - (* g_done *) intros p'. cbn [ext]. assert (In g (gors (g_pub (t_g s g)) tr)) as Gi by (eapply gor_in; [eassumption|congruence]).
      destruct (Nat.eq_dec p' (g_pub (t_g s g))) as [->|N]; unf; rewrite ?upd_eq, ?upd_ne by assumption; unf.
      + destruct (I (g_pub (t_g s g))) as [-> ->]. split.
        * match goal with |- pred ?x = ?y => assert (E : x = S y); [|now rewrite E] end.
          unfold tally. apply (filter_one _ _ _ g); auto using (gors_nodup tr s); unf; rewrite ?upd_eq, ?H; auto.
          intros h Hh. now rewrite upd_ne.
        * unfold tally. apply (f_equal (@List.length nat)). apply filter_ext. intros h. unf. dupd g h; unf; [rewrite H; now destruct b|reflexivity].
      + rewrite (tally_other running tr s _ g), (tally_other counted tr s _ g) by (eauto using gor_not_in; intros h Hh; unf; now rewrite upd_ne). apply I.
  Qed.
  Lemma runs_counts tr s : runs tr s -> counts tr s.
  Proof. revert tr s. apply runs_ind'; [|intros; eapply counts_step; eauto]. intros p. split; reflexivity. Qed.

  (* after wg.Wait nobody runs any more *)
  Definition late (f : phase) : bool := match f with DResult | DClose | DSpawn | DRemove => true | _ => false end.
  Lemma late_store n c (q : pub) : late (p_phase (note_store n c q)) = late (p_phase q). Proof. now rewrite phase_store. Qed.
  Lemma late_delete n (q : pub) : late (p_phase (note_delete n q)) = late (p_phase q). Proof. now rewrite phase_delete. Qed.
  Lemma late_wg tr s : runs tr s -> forall p, late (p_phase (t_pub s p)) = true -> p_wg (t_pub s p) = 0.
  Proof.
    revert tr s. apply (runs_ind' (fun tr s => forall p, late (p_phase (t_pub s p)) = true -> p_wg (t_pub s p) = 0)); [discriminate|].
    intros tr s l s' _ IH St p'. destruct St; unf; auto;
      try (dupd p p'; unf; auto; try discriminate; try (intros _; apply IH; match goal with Q : p_phase _ = _ |- _ => rewrite Q end; reflexivity); fail);
      try (dupd (g_pub (t_g s g)) p'; unf; auto; fail).
    - rewrite late_store, (proj1 (wg_store _ _ _)). auto.
    - dupd p p'; unf; [intros _; apply IH; now rewrite H|]. rewrite late_delete, (proj1 (wg_delete _ _)). auto.
    - dupd (g_pub (t_g s g)) p'; unf; auto. intros L. rewrite (IH _ L). reflexivity.
  Qed.
  Lemma late_over tr s p g n c : runs tr s -> late (p_phase (t_pub s p)) = true -> In (TVisit p g n c) tr -> exists b, g_pc (t_g s g) = GOver b.
  Proof.
    intros H L Hin. pose proof (late_wg _ _ H p L) as W. rewrite (proj1 (runs_counts _ _ H p)) in W.
    destruct (visit_gor _ _ _ _ _ _ H Hin) as (N & _). assert (Gi : In g (gors p tr)) by (apply in_gors; eauto).
    destruct (g_pc (t_g s g)) eqn:E; eauto; try contradiction; exfalso;
      (assert (Z : In g (filter (fun g => running (g_pc (t_g s g))) (gors p tr))) by (apply filter_In; split; [exact Gi|now rewrite E]);
       unfold tally in W; destruct (filter (fun g => running (g_pc (t_g s g))) (gors p tr)); [contradiction|discriminate]).
  Qed.
  Theorem no_panic tr s : runs tr s -> ~ In TPanic tr.
  Proof.
    revert tr s. apply (runs_ind' (fun tr s => ~ In TPanic tr)); [auto|]. intros tr s l s' H IH St Hin. apply ext_inv in Hin as [Hin|Hin]; [auto|]. subst l.
    inversion St; subst; [destruct l; discriminate|].
    assert (V := gor_visit _ _ g H ltac:(congruence)).
    assert (L : late (p_phase (t_pub s' (g_pub (t_g s' g)))) = true) by (match goal with Q : _ \/ _ |- _ => destruct Q as [Q|Q]; rewrite Q; reflexivity end).
    destruct (late_over _ _ _ _ _ _ H L V) as [b E]. congruence.
  Qed.

  (* ---- every Send comes from a visit of a publication ---- *)
  Lemma send_from tr s : runs tr s -> forall c i e, In (TChan c (DataChannel.ECall i (OSend e))) tr ->
    exists p g n, i = sid g /\ In (TVisit p g n c) tr /\ In (TPublish p e) tr.
  Proof.
    revert tr s. apply (runs_ind' (fun tr s => forall c i e, In (TChan c (DataChannel.ECall i (OSend e))) tr ->
      exists p g n, i = sid g /\ In (TVisit p g n c) tr /\ In (TPublish p e) tr)); [contradiction|].
    intros tr s l s' H IH St c i e Hin. apply ext_inv in Hin as [Hin|Hin].
    - destruct (IH _ _ _ Hin) as (p & g & n & E & V & P). exists p, g, n. auto using ext_in.
    - subst l. inversion St; subst.
      + destruct l as [x|]; [|discriminate]. match goal with Q : option_map _ _ = _ |- _ => cbn in Q; inversion Q; subst end.
        match goal with Q : theirs _ |- _ => destruct Q as [_ [Q|Q]]; discriminate end.
      + exists (g_pub (t_g s g)), g, (g_name (t_g s g)). split; [reflexivity|]. split; apply ext_in.
        * eapply gor_visit; [eassumption|congruence].
        * now apply (proj1 (runs_events _ _ H)).
  Qed.
  Lemma visit_sub tr s p g n c : runs tr s -> In (TVisit p g n c) tr -> sub tr n c.
  Proof. intros H V. destruct (visit_gor _ _ _ _ _ _ H V) as (N & _ & <- & <-). exact (n_gor _ _ (runs_names _ _ H) g N). Qed.
  (* ---- a name is visited at most once ---- *)
  Lemma visited_store n c (q : pub) : p_visited (note_store n c q) = p_visited q.
  Proof. unfold note_store. destruct (p_phase q); reflexivity. Qed.
  Lemma visited_delete n (q : pub) : p_visited (note_delete n q) = p_visited q.
  Proof. unfold note_delete. destruct (p_phase q); reflexivity. Qed.
  Definition visits_ok tr s : Prop := forall p n, (In n (p_visited (t_pub s p)) <-> exists g c, In (TVisit p g n c) tr) /\
    (forall g c g' c', In (TVisit p g n c) tr -> In (TVisit p g' n c') tr -> g = g' /\ c = c').
  Lemma visits_frame tr s l s' : visits_ok tr s -> (forall p g n c, l <> Some (TVisit p g n c)) -> (forall p, p_visited (t_pub s' p) = p_visited (t_pub s p)) -> visits_ok (ext tr l) s'.
  Proof.
    intros I N E p n. rewrite E. destruct (I p n) as [I1 I2].
    assert (X : forall g c, In (TVisit p g n c) (ext tr l) <-> In (TVisit p g n c) tr).
    { intros g c. split; [|apply ext_in]. intros H. apply ext_inv in H as [H|H]; [exact H|]. exfalso. exact (N _ _ _ _ H). }
    split.
    - rewrite I1. split; intros (g & c & H); exists g, c; apply X; exact H.
    - intros g c g' c' H H'. apply X in H, H'. eauto.
  Qed.
  Lemma visits_step tr s l s' : runs tr s -> visits_ok tr s -> step s l s' -> visits_ok (ext tr l) s'.
  Proof.
    intros Rn I St. assert (X : forall p, early (p_phase (t_pub s p)) = true -> p_visited (t_pub s p) = []).
    { intros p E. destruct (p_visited (t_pub s p)) as [|n v] eqn:V; [reflexivity|]. destruct (proj1 (proj1 (I p n))) as (g & c & Hv); [rewrite V; now left|].
      rewrite (visit_late _ _ _ _ _ _ Rn Hv) in E. discriminate. }
    destruct St; try (apply (visits_frame tr s); [exact I|discriminate|]; unf; intros p'; try (dupd p p'; unf; auto); try (dupd (g_pub (t_g s g)) p'; unf; auto); auto; fail).
    - apply (visits_frame tr s); [exact I|discriminate|]. unf. intros p'. apply visited_store.
    - apply (visits_frame tr s); [exact I|destruct l; discriminate|]. auto.
    - apply (visits_frame tr s); [exact I|discriminate|]. unf. intros p'. dupd p p'; unf; [|auto]. symmetry. apply X. now rewrite H.
    - apply (visits_frame tr s); [exact I|discriminate|]. unf. intros p'. dupd p p'; unf; [|auto]. symmetry. apply X. now rewrite H.
    - (* visit *) intros p' n'. destruct (I p' n') as [I1 I2]. cbn [ext]. unf.
      assert (Y : forall q g' m c', In (TVisit q g' m c') (tr ++ [TVisit p g name c]) <-> In (TVisit q g' m c') tr \/ (q = p /\ g' = g /\ m = name /\ c' = c)).
      { intros. rewrite in_snoc. split; (intros [Q|Q]; [now left|right]); [inversion Q; auto|destruct Q as (-> & -> & -> & ->); reflexivity]. }
      destruct (Nat.eq_dec p' p) as [->|N]; rewrite ?upd_eq, ?upd_ne by assumption; unf.
      + split.
        * split.
          -- intros [<-|Hn]; [exists g, c; apply Y; auto 6|]. apply I1 in Hn as (g' & c' & Hn). exists g', c'. apply Y. auto.
          -- intros (g' & c' & Hn). apply Y in Hn as [Hn|(_ & _ & -> & _)]; [right; apply I1; eauto|now left].
        * intros g1 c1 g2 c2 H3 H4. apply Y in H3, H4. destruct H3 as [H3|(_ & E1 & E2 & E3)], H4 as [H4|(_ & E4 & E5 & E6)].
          -- exact (I2 _ _ _ _ H3 H4).
          -- exfalso. apply H1. rewrite <- E5. apply I1. eauto.
          -- exfalso. apply H1. rewrite <- E2. apply I1. eauto.
          -- split; congruence.
      + split.
        * rewrite I1. split; intros (g' & c' & Hn); exists g', c'; [apply Y; auto|]. apply Y in Hn as [Hn|(? & _)]; [exact Hn|contradiction].
        * intros g1 c1 g2 c2 H3 H4. apply Y in H3, H4. destruct H3 as [H3|(? & _)], H4 as [H4|(? & _)]; try contradiction. eauto.
    - apply (visits_frame tr s); [exact I|discriminate|]. unf. intros p'. dupd p p'; unf; [reflexivity|]. apply visited_delete.
  Qed.
  Lemma runs_visits tr s : runs tr s -> visits_ok tr s.
  Proof.
    revert tr s. apply runs_ind'; [|intros; eapply visits_step; eauto]. intros p n. split.
    - split; [contradiction|]. intros (g & c & []).
    - contradiction.
  Qed.
  Lemma visit_once tr s p g n c g' n' : runs tr s -> In (TVisit p g n c) tr -> In (TVisit p g' n' c) tr -> g = g'.
  Proof.
    intros H V V'. assert (n = n') as <- by (apply (n_once _ _ (runs_names _ _ H) n n' c); eauto using visit_sub).
    now apply (proj2 (runs_visits _ _ H p n) g c g' c).
  Qed.

  (* ---- the copies a channel accepted ---- *)
  Lemma by_pub_spec p tr i : by_pub p tr i = true <-> exists g n c, In (TVisit p g n c) tr /\ i = sid g.
  Proof.
    unfold by_pub. rewrite existsb_exists. split.
    - intros (a & H & E). destruct a; try discriminate. apply andb_true_iff in E as [E1 E2]. apply Nat.eqb_eq in E1, E2. subst. eauto.
    - intros (g & n & c & H & ->). exists (TVisit p g n c). split; [exact H|]. now rewrite !Nat.eqb_refl.
  Qed.
  Lemma chan_runs' tr s c : runs tr s -> exists cap d, druns cap (chan_trace c tr) d.
  Proof.
    intros H. destruct (chan_trace c tr) as [|x t] eqn:E; [exists 0, (DataChannel.init 0); apply exec_start|].
    destruct (chan_runs tr s c x H) as [cap R]; [apply ct_in; rewrite E; now left|]. rewrite E in R. eauto.
  Qed.
  Theorem put_visit tr s c i e : runs tr s -> In (i, e) (puts (chan_trace c tr)) ->
    exists p g n, i = sid g /\ In (TVisit p g n c) tr /\ In (TPublish p e) tr.
  Proof.
    intros H Hin. destruct (chan_runs' _ _ c H) as (cap & d & R). apply (put_called _ _ _ _ _ R) in Hin. apply ct_in in Hin. eapply send_from; eauto.
  Qed.
  Lemma sid_inj g g' : sid g = sid g' -> g = g'.
  Proof. unfold sid. lia. Qed.
  Lemma copy_visit tr s p c i e : runs tr s -> In (i, e) (copies p c tr) -> exists g n, i = sid g /\ In (TVisit p g n c) tr /\ In (TPublish p e) tr.
  Proof.
    intros H Hin. apply filter_In in Hin as [Hin B]. cbn in B. apply by_pub_spec in B as (g & n & c' & V & ->).
    destruct (put_visit _ _ _ _ _ H Hin) as (p' & g' & n' & E & V' & P). apply sid_inj in E as <-.
    destruct (visit_gor _ _ _ _ _ _ H V) as (_ & E1 & _ & E2). destruct (visit_gor _ _ _ _ _ _ H V') as (_ & E3 & _ & E4).
    assert (p' = p) as -> by congruence. eauto.
  Qed.
  Theorem one_copy tr s p c : runs tr s -> List.length (copies p c tr) <= 1.
  Proof.
    intros H. destruct (chan_runs' _ _ c H) as (cap & d & R). destruct (put_once _ _ _ R) as [Nd _].
    assert (S1 : forall x y, In x (copies p c tr) -> In y (copies p c tr) -> fst x = fst y).
    { intros [i e] [j e'] X Y. apply (copy_visit _ _ _ _ _ _ H) in X as (g & n & -> & V & _). apply (copy_visit _ _ _ _ _ _ H) in Y as (g' & n' & -> & V' & _).
      cbn. now rewrite (visit_once _ _ _ _ _ _ _ _ H V V'). }
    assert (N2 : NoDup (map fst (copies p c tr))).
    { unfold copies. clear -Nd. induction (puts (chan_trace c tr)) as [|x l IH]; [constructor|]. cbn in Nd. inversion Nd; subst. cbn.
      destruct (by_pub p tr (fst x)); [|auto]. cbn. constructor; [|auto]. intros Hin. apply H1. apply in_map_iff in Hin as (y & E & Hy). apply filter_In in Hy as [Hy _]. rewrite <- E. now apply in_map. }
    destruct (copies p c tr) as [|x [|y l]]; cbn; try lia. exfalso. cbn in N2. inversion N2; subst. apply H2. left. symmetry. apply S1; cbn; auto.
  Qed.
  Theorem copy_event tr s p c i e : runs tr s -> In (i, e) (copies p c tr) -> In (TPublish p e) tr.
  Proof. intros H Hin. destruct (copy_visit _ _ _ _ _ _ H Hin) as (g & n & _ & _ & P). exact P. Qed.

  (* a goroutine that is over has sent iff it is counted *)
  Lemma over_copy tr s p g n c b : runs tr s -> In (TVisit p g n c) tr -> g_pc (t_g s g) = GOver b -> (b = true <-> copies p c tr <> []).
  Proof.
    intros H V Ov. destruct (visit_gor _ _ _ _ _ _ H V) as (_ & E1 & E2 & E3). pose proof (gstage_inv _ _ _ (runs_gors _ _ H g)) as G. rewrite Ov in G. rewrite E1, E2, E3 in G.
    assert (B : forall e r, gproj g tr = back p g n c e r -> In (DataChannel.ERet (sid g) (OSend e) r) (chan_trace c tr)).
    { intros e r E. apply ct_in. assert (Z : In (TChan c (DataChannel.ERet (sid g) (OSend e) r)) (gproj g tr)) by (rewrite E; cbn; auto). now apply in_gproj in Z. }
    destruct (chan_runs' _ _ c H) as (cap & d & R). destruct b.
    - split; [|reflexivity]. intros _ E. destruct G as [e G]. apply B in G. destruct (send_result _ _ _ _ _ _ R G) as [[_ P]|[[?|?] _]]; try discriminate.
      assert (Z : In (sid g, e) (copies p c tr)) by (apply filter_In; split; [exact P|apply by_pub_spec; eauto]). rewrite E in Z. contradiction.
    - split; [discriminate|]. intros N. exfalso. destruct G as (e & r & Hr & G). apply B in G. destruct (send_result _ _ _ _ _ _ R G) as [[E _]|[_ P]]; [destruct Hr; congruence|].
      destruct (copies p c tr) as [|[i e'] q] eqn:C; [contradiction|]. assert (Z : In (i, e') (copies p c tr)) by (rewrite C; now left).
      pose proof Z as Z'. apply filter_In in Z' as [Z' _]. apply (copy_visit _ _ _ _ _ _ H) in Z as (g' & n' & -> & V' & _).
      rewrite (visit_once _ _ _ _ _ _ _ _ H V V') in P. exact (P _ Z').
  Qed.
  Theorem result_counts pre p k post s : runs (pre ++ TResult p k :: post) s ->
    exists cs, NoDup cs /\ List.length cs = k /\ forall c, In c cs <-> copies p c pre <> [].
  Proof.
    intros H. apply exec_split in H as (s1 & s2 & H & St & _). inversion St; subst; [destruct l; discriminate|].
    match goal with Q : p_phase _ = DResult |- _ => rename Q into Ph end.
    assert (L : late (p_phase (t_pub s1 p)) = true) by now rewrite Ph.
    set (gs := filter (fun g => counted (g_pc (t_g s1 g))) (gors p pre)).
    exists (map (fun g => g_chan (t_g s1 g)) gs).
    assert (Gs : forall g, In g gs -> exists n, In (TVisit p g n (g_chan (t_g s1 g))) pre /\ g_pc (t_g s1 g) = GOver true).
    { intros g Hg. apply filter_In in Hg as [Hg C]. apply in_gors in Hg as (n & c & V). destruct (visit_gor _ _ _ _ _ _ H V) as (_ & _ & _ & <-). exists n. split; [exact V|].
      destruct (late_over _ _ _ _ _ _ H L V) as [b E]. rewrite E in C |- *. now destruct b. }
    split; [|split].
    - assert (Nd : NoDup gs) by (apply NoDup_filter; exact (gors_nodup _ _ p H)). clearbody gs. induction gs as [|g l IH]; cbn; [constructor|].
      inversion Nd; subst. constructor; [|apply IH; auto; intros; apply Gs; now right]. intros Hin. apply in_map_iff in Hin as (g' & E & Hg').
      destruct (Gs g (or_introl eq_refl)) as (n & V & _). destruct (Gs g' (or_intror Hg')) as (n' & V' & _). rewrite E in V'.
      rewrite (visit_once _ _ _ _ _ _ _ _ H V V') in *. contradiction.
    - rewrite map_length. symmetry. exact (proj2 (runs_counts _ _ H p)).
    - intros c. rewrite in_map_iff. split.
      + intros (g & <- & Hg). destruct (Gs g Hg) as (n & V & E). now apply (over_copy _ _ _ _ _ _ _ H V E).
      + intros N. destruct (copies p c pre) as [|[i e] q] eqn:C; [contradiction|]. assert (Z : In (i, e) (copies p c pre)) by (rewrite C; now left).
        apply (copy_visit _ _ _ _ _ _ H) in Z as (g & n & -> & V & _). destruct (late_over _ _ _ _ _ _ H L V) as [b E].
        destruct (visit_gor _ _ _ _ _ _ H V) as (_ & _ & _ & Ec). exists g. split; [exact Ec|]. apply filter_In. split; [apply in_gors; eauto|].
        assert (b = true) as -> by (apply (over_copy _ _ _ _ _ _ _ H V E); rewrite C; discriminate). now rewrite E.
  Qed.

  (* ---- what is removed ---- *)
  Definition saw_closed tr p n : Prop := exists g c e, In (TVisit p g n c) tr /\ In (TChan c (DataChannel.ERet (sid g) (OSend e) RClosed)) tr.
  Lemma saw_ext tr l p n : saw_closed tr p n -> saw_closed (ext tr l) p n.
  Proof. intros (g & c & e & H & H'). exists g, c, e. auto using ext_in. Qed.
  Definition removing (q : pub) n : Prop := In n (p_keys q) \/ p_got q = Some n \/ In n (p_remove q).
  Lemma removing_store n c q m : removing (note_store n c q) m -> removing q m.
  Proof. unfold note_store, removing. destruct (p_phase q); auto. Qed.
  Lemma removing_delete n q m : removing (note_delete n q) m -> removing q m.
  Proof. unfold note_delete, removing. destruct (p_phase q); auto. Qed.
  Definition keys_ok tr s : Prop := forall p n, removing (t_pub s p) n \/ In (TDelete p n) tr -> saw_closed tr p n.
  Lemma keys_frame tr s l s' : keys_ok tr s -> (forall p n, l <> Some (TDelete p n)) -> (forall p n, removing (t_pub s' p) n -> removing (t_pub s p) n) -> keys_ok (ext tr l) s'.
  Proof.
    intros I N E p n H. apply saw_ext. apply I. destruct H as [H|H]; [left; auto|]. right. apply ext_inv in H as [H|H]; [exact H|]. exfalso. exact (N _ _ H).
  Qed.
  Lemma keys_step tr s l s' : runs tr s -> keys_ok tr s -> step s l s' -> keys_ok (ext tr l) s'.
  Proof.
    intros Rn I St. destruct St; try (apply (keys_frame tr s); [exact I|try discriminate|]; unf; intros p' n'; try (dupd p p'; unf; auto); try (dupd (g_pub (t_g s g)) p'; unf; auto); auto;
      try (intros [[]|[?|[]]]; discriminate); fail).
    - apply (keys_frame tr s); [exact I|discriminate|]. unf. intros p' n'. apply removing_store.
    - apply (keys_frame tr s); [exact I|destruct l; discriminate|]. auto.
    - apply (keys_frame tr s); [exact I|discriminate|]. unf. intros p' n'. dupd p p'; auto. unfold removing. unf. intuition.
    - (* remove *) intros p' n' Hr. apply saw_ext. apply I. destruct Hr as [Hr|Hr].
      + left. unf. destruct (Nat.eq_dec p' p) as [->|N]; rewrite ?upd_eq, ?upd_ne in Hr by assumption.
        * unfold removing in *. unf. rewrite H0. cbn. intuition.
        * now apply removing_delete in Hr.
      + apply ext_inv in Hr as [Hr|Hr]; [auto|]. inversion Hr; subst. left. right. right. rewrite H0. now left.
    - (* report *) intros p' n' Hr. cbn [ext] in *. destruct Hr as [Hr|Hr]; [|apply I; auto]. unf.
      destruct (Nat.eq_dec p' (g_pub (t_g s g))) as [->|N]; rewrite ?upd_eq, ?upd_ne in Hr by assumption; [|apply I; auto].
      unfold removing in Hr. unf. destruct Hr as [Hr|[Hr|Hr]].
      + apply I. left. left. exact Hr.
      + inversion Hr; subst. pose proof (gstage_inv _ _ _ (runs_gors _ _ Rn g)) as G. rewrite H in G. destruct G as [e G].
        exists g, (g_chan (t_g s g)), e. split; [eapply gor_visit; [eassumption|congruence]|].
        assert (Z : In (TChan (g_chan (t_g s g)) (DataChannel.ERet (sid g) (OSend e) RClosed)) (gproj g tr)) by (rewrite G; cbn; auto). now apply in_gproj in Z.
      + apply I. left. right. right. exact Hr.
    - (* collect *) apply (keys_frame tr s); [exact I|discriminate|]. unf. intros p' n'. dupd p p'; auto. unfold removing. unf.
      rewrite in_app_iff. cbn. intros [[Q|[->|[]]]|[Q|Q]]; auto. discriminate.
  Qed.
  Lemma runs_keys tr s : runs tr s -> keys_ok tr s.
  Proof. revert tr s. apply runs_ind'; [|intros; eapply keys_step; eauto]. intros p n [[[]|[Q|[]]]|[]]. discriminate. Qed.
  Theorem deleted_closed tr s p n : runs tr s -> In (TDelete p n) tr -> exists c cap j, In (TSubscribe n c cap) tr /\ In (TChan c (DataChannel.ECall j OClose)) tr.
  Proof.
    intros H D. destruct (runs_keys _ _ H p n (or_intror D)) as (g & c & e & V & R). destruct (visit_sub _ _ _ _ _ _ H V) as [cap Sb].
    destruct (chan_runs _ _ _ _ H R) as [k Rn]. destruct (closed_called _ _ _ Rn) as [j Hj].
    - right. right. right. left. exists (sid g), e. now apply ct_in.
    - exists c, cap, j. split; [exact Sb|]. now apply ct_in.
  Qed.

  (* ---- who is offered the event ---- *)
  Definition kept tr n : Prop := forall q, ~ In (TDelete q n) tr.
  Lemma kept_pre tr l n : kept (ext tr l) n -> kept tr n.
  Proof. intros K q H. apply (K q). now apply ext_in. Qed.
  Definition stays tr s : Prop := forall n c, sub tr n c -> kept tr n -> In n (map fst (t_subs s)).
  Lemma stays_step tr s l s' : stays tr s -> step s l s' -> stays (ext tr l) s'.
  Proof.
    intros I St n c Sb K. pose proof (kept_pre _ _ _ K) as K'.
    assert (G : (forall n c cap, l <> Some (TSubscribe n c cap)) -> t_subs s' = t_subs s -> In n (map fst (t_subs s'))).
    { intros N ->. apply (I n c); [|exact K']. eapply sub_old; eauto. }
    destruct St; try (apply G; [discriminate|reflexivity]).
    - unf. cbn. destruct (String.string_dec name n) as [->|N]; [now left|right].
      destruct Sb as [k Hk]. apply ext_inv in Hk as [Hk|Hk]; [|congruence].
      assert (Z : In n (map fst (t_subs s))) by (apply (I n c); [exists k; exact Hk|exact K']). apply in_map_iff in Z as (x & E & Hx). apply in_map_iff. exists x. split; [exact E|]. apply in_without. split; [exact Hx|congruence].
    - apply G; [destruct l; discriminate|reflexivity].
    - unf. assert (N : n <> name) by (intros ->; apply (K p); apply in_snoc; auto). apply sub_old in Sb; [|discriminate].
      pose proof (I n c Sb K') as Z. apply in_map_iff in Z as (x & E & Hx). apply in_map_iff. exists x. split; [exact E|]. apply in_without. split; [exact Hx|congruence].
  Qed.
  Lemma runs_stays tr s : runs tr s -> stays tr s.
  Proof. revert tr s. apply runs_ind'; [|intros; eapply stays_step; eauto]. intros n c [k []]. Qed.

  Definition offer (q : pub) n : Prop := match p_phase q with DNone | DStart => True | DRange => In n (p_must q) \/ In n (p_visited q) | _ => In n (p_visited q) end.
  Definition offers tr s : Prop := forall p n e c cap, before tr (TSubscribe n c cap) (TPublish p e) -> kept tr n -> offer (t_pub s p) n.
  Lemma offers_frame tr s l s' : offers tr s -> (forall p e, l <> Some (TPublish p e)) -> (forall p n c, sub tr n c -> kept (ext tr l) n -> offer (t_pub s p) n -> offer (t_pub s' p) n) -> offers (ext tr l) s'.
  Proof.
    intros I N E p n e c cap B K. apply (E p n c); auto.
    - destruct l as [a|]; cbn in B; [apply before_snoc in B as [B|[B <-]]|]; [|exists cap; exact B|]; exists cap; apply before_in in B; tauto.
    - apply (I p n e c cap); [|exact (kept_pre _ _ _ K)]. destruct l as [a|]; [|exact B]. cbn in B. apply before_snoc in B as [B|[_ Q]]; [exact B|]. exfalso. apply (N p e). now rewrite Q.
  Qed.
  Lemma offers_step tr s l s' : runs tr s -> offers tr s -> step s l s' -> offers (ext tr l) s'.
  Proof.
    intros Rn I St. destruct St;
      try (apply (offers_frame tr s); [exact I|try discriminate|]; unf; intros p' n' c' Sb K; try (dupd p p'; unfold offer; unf; try match goal with Q : p_phase _ = _ |- _ => rewrite Q end; auto);
        try (dupd (g_pub (t_g s g)) p'; unfold offer; unf; auto); auto; fail).
    - apply (offers_frame tr s); [exact I|discriminate|]. unf. intros p' n' c' _ _. unfold offer, note_store. destruct (p_phase (t_pub s p')) eqn:E; unf; rewrite ?E; auto.
    - apply (offers_frame tr s); [exact I|destruct l; discriminate|]. auto.
    - (* publish *) intros p' n' e' c' cap' B K. unf. dupd p p'; [exact Logic.I|]. apply (I p' n' e' c' cap'); [|exact (kept_pre _ _ _ K)].
      cbn in B. apply before_snoc in B as [B|[_ Q]]; [exact B|]. congruence.
    - (* range *) apply (offers_frame tr s); [exact I|discriminate|]. unf. intros p' n' c' Sb K. dupd p p'; auto. intros _. unfold offer. unf. left. eapply runs_stays; eauto.
    - (* visit *) apply (offers_frame tr s); [exact I|discriminate|]. unf. intros p' n' c' Sb K. dupd p p'; auto. unfold offer. unf. rewrite H. intros [Q|Q].
      + destruct (String.string_dec name n') as [->|N]; [right; now left|]. left. apply in_drop. split; [exact Q|congruence].
      + right. now right.
    - (* range_end *) apply (offers_frame tr s); [exact I|discriminate|]. unf. intros p' n' c' Sb K. dupd p p'; auto. unfold offer. unf. rewrite H, H0. intros [[]|Q]. exact Q.
    - (* remove *) apply (offers_frame tr s); [exact I|discriminate|]. unf. intros p' n' c' Sb K. dupd p p'.
      + unfold offer. unf. rewrite H. auto.
      + unfold offer, note_delete. destruct (p_phase (t_pub s p')) eqn:E; unf; rewrite ?E; auto. intros [Q|Q]; [|auto]. left. apply in_drop. split; [exact Q|].
        intros ->. apply (K p). apply in_snoc. auto.
  Qed.
  Lemma runs_offers tr s : runs tr s -> offers tr s.
  Proof. revert tr s. apply runs_ind'; [|intros; eapply offers_step; eauto]. intros p n e c cap (x & y & z & E). now destruct x. Qed.
  (* A name subscribed before the publication and never removed is visited, its send returned
     before the result, and the channel is one subscribed under that name. *)
  Theorem offered pre p k post s n c cap e : runs (pre ++ TResult p k :: post) s -> before pre (TSubscribe n c cap) (TPublish p e) -> (forall q, ~ In (TDelete q n) pre) ->
    exists g c' cap' r, In (TVisit p g n c') pre /\ In (TSubscribe n c' cap') pre /\ In (TChan c' (DataChannel.ERet (sid g) (OSend e) r)) pre.
  Proof.
    intros H B K. apply exec_split in H as (s1 & s2 & H & St & _). inversion St; subst; [destruct l; discriminate|].
    match goal with Q : p_phase _ = DResult |- _ => rename Q into Ph end.
    pose proof (runs_offers _ _ H p n e c cap B K) as O. unfold offer in O. rewrite Ph in O. apply (runs_visits _ _ H) in O as (g & c' & V).
    destruct (visit_sub _ _ _ _ _ _ H V) as [cap' Sb]. assert (L : late (p_phase (t_pub s1 p)) = true) by now rewrite Ph.
    destruct (late_over _ _ _ _ _ _ H L V) as [b Ov]. destruct (visit_gor _ _ _ _ _ _ H V) as (_ & E1 & E2 & E3).
    pose proof (gstage_inv _ _ _ (runs_gors _ _ H g)) as G. rewrite Ov, E1, E2, E3 in G.
    assert (G' : exists e' r, gproj g pre = back p g n c' e' r) by (destruct b; [destruct G as [e' G]; eauto|destruct G as (e' & r & _ & G); eauto]).
    destruct G' as (e' & r & G'). assert (F : forall x, In x (back p g n c' e' r) -> In x pre) by (intros x Hx; rewrite <- G' in Hx; now apply in_gproj in Hx).
    destruct (send_from _ _ H c' (sid g) e') as (p2 & g2 & n2 & Q & V2 & P2); [apply F; cbn; auto|]. apply sid_inj in Q as <-.
    destruct (visit_gor _ _ _ _ _ _ H V2) as (_ & E1' & _). assert (p2 = p) as -> by congruence.
    assert (e' = e) as ->.
    { destruct (runs_events _ _ H) as [Ev _]. apply before_in in B as [_ B]. apply Ev in B, P2. congruence. }
    exists g, c', cap', r. split; [exact V|]. split; [exact Sb|]. apply F. cbn. auto.
  Qed.
  (* A name none of whose channels is closed is never removed. *)
  Theorem never_removed tr s n : runs tr s -> (forall c cap j, In (TSubscribe n c cap) tr -> ~ In (TChan c (DataChannel.ECall j OClose)) tr) -> forall q, ~ In (TDelete q n) tr.
  Proof. intros H N q D. destruct (deleted_closed _ _ _ _ H D) as (c & cap & j & Sb & C). exact (N _ _ _ Sb C). Qed.
  Theorem never_closed_offered pre p k post s n c cap e : runs (pre ++ TResult p k :: post) s -> before pre (TSubscribe n c cap) (TPublish p e) ->
    (forall c' cap' j, In (TSubscribe n c' cap') pre -> ~ In (TChan c' (DataChannel.ECall j OClose)) pre) ->
    exists g c' cap' r, In (TVisit p g n c') pre /\ In (TSubscribe n c' cap') pre /\ In (TChan c' (DataChannel.ERet (sid g) (OSend e) r)) pre.
  Proof.
    intros H B N. apply (offered pre p k post s n c cap e H B). pose proof H as H'. apply exec_split in H' as (s1 & s2 & H' & _ & _). exact (never_removed _ _ _ H' N).
  Qed.
End Proofs.
