(* Consequences of the reference machine for single requests and histories. *)
From Verif Require Import Base BaseFacts IntSpec IndexSpec ListSpec IntParse IntParseProofs Resp StringC HashC HashProofs
  LinkedList LinkedListProofs Command SpecDb RequestSpec CommandProofs IdealSpec Db DbProofs Engine EngineProofs.
From Coq Require Import ZArith List Ascii String Bool Lia.
From stdpp Require Import gmap.
Open Scope Z_scope.

(* ---- the contents of a database are determined ---- *)
Lemma mrel_fun {A B} (R : A -> B -> Prop) m s s' : (forall a b b', R a b -> R a b' -> b = b') ->
  mrel R m s -> mrel R m s' -> s = s'.
Proof.
  intros HR H H'. apply map_eq. intros k. specialize (H k). specialize (H' k).
  destruct (m !! k); inversion H as [? ? Hx E1 E2|E1 E2]; inversion H' as [? ? Hx' E3 E4|E3 E4]; try congruence.
  f_equal. eapply HR; eauto.
Qed.
Lemma new_string_inj a b : new_string a = new_string b -> a = b.
Proof. intros H. apply (f_equal s_data) in H. exact H. Qed.
Lemma dll_fun h : forall l l' p n, length l = length l' -> first_or l n = first_or l' n ->
  dll h p l n -> dll h p l' n -> l = l'.
Proof.
  induction l as [|[a d] l IH]; intros [|[a' d'] l'] p n HL HF H H'; try discriminate; auto.
  cbn in HF. injection HF as <-. cbn [dll] in H, H'. destruct H as [E H], H' as [E' H']. rewrite E in E'.
  injection E' as <- E'. f_equal. cbn in HL. injection HL as HL. eapply IH; eauto.
Qed.
Lemma lrepr_fun l vs vs' : lrepr l vs -> lrepr l vs' -> vs = vs'.
Proof.
  intros (ns & Hv & Hd & ND & Fo & Hs) (ns' & Hv' & Hd' & _ & _ & Hs').
  assert (E : full l ns = full l ns').
  { eapply dll_fun; [| |exact Hd|exact Hd']; [|reflexivity].
    apply (f_equal length) in Hv, Hv'. rewrite !fmap_length in Hv, Hv'. unfold full. cbn [length]. rewrite !app_length. lia. }
  unfold full in E. apply (f_equal tail) in E. cbn [tail] in E. apply app_inj_tail in E as [<- _]. rewrite Hv in Hv'.
  clear -Hv'. revert vs' Hv'. induction vs as [|v vs IH]; intros [|v' vs'] H; try discriminate; auto.
  rewrite !fmap_cons in H. assert (H1 : new_string v = new_string v') by congruence.
  assert (H2 : new_string <$> vs = new_string <$> vs') by congruence. apply new_string_inj in H1. f_equal; auto.
Qed.
Lemma db_rel_fun d s s' : db_rel d s -> db_rel d s' -> s = s'.
Proof.
  intros [A B C D] [A' B' C' D']. destruct s, s'. cbn in *. f_equal.
  - eapply mrel_fun; [|exact A|exact A']. unfold str_rel. intros a b b' -> E. now apply new_string_inj.
  - eapply mrel_fun; [|exact B|exact B']. intros. eapply lrepr_fun; eauto.
  - eapply mrel_fun; [|exact C|exact C']. intros m h h' H H'. apply map_eq. intros f. specialize (H f). specialize (H' f).
    rewrite H in H'. destruct (h !! f), (h' !! f); cbn in H'; try discriminate; auto.
    injection H' as H'. f_equal. congruence.
  - eapply mrel_fun; [|exact D|exact D']. intros m X X' H H'. apply set_eq. intros x. specialize (H x). specialize (H' x).
    rewrite H in H'. repeat case_bool_decide; try discriminate; tauto.
Qed.

(* ---- one request ---- *)
Lemma asks_det q c c' : asks q c -> asks q c' -> c = c'.
Proof.
  intros (o & n & w & a & P & S & L & C) (o' & n' & w' & a' & P' & S' & L' & C').
  assert (E : o :: a = o' :: a') by (inversion P; inversion P'; congruence). injection E as <- <-.
  assert (n = n') as <- by (inversion S; inversion S'; congruence).
  pose proof (call_new_command _ _ _ _ L C). pose proof (call_new_command _ _ _ _ L' C'). congruence.
Qed.
Lemma asks_answer s q c out : asks q c -> answer s q out ->
  match out with
  | None => spec s c None
  | Some (s', None) => False
  | Some (s', Some r) => spec s c (Some (s', inl r)) \/ exists er, spec s c (Some (s', inr er)) /\ error_text er r
  end.
Proof.
  intros Hc Ha. pose proof Hc as (o & n & w & args & P & S & L & C).
  assert (HP : forall l, parts q l -> l = o :: args) by (intros l H; inversion H; inversion P; congruence).
  assert (HS : forall o1 n1 a1, parts q (o1 :: a1) -> is_str o1 n1 -> o1 = o /\ a1 = args /\ n1 = n).
  { intros o1 n1 a1 H1 H2. apply HP in H1. injection H1 as -> ->. repeat split. inversion H2; inversion S; congruence. }
  destruct Ha as [H|r H|o1 a1 r H H1|o1 a1 n1 H H1 H2|o1 a1 n1 w1 H H1 H2 H3 H4|c' H1 H2|c' s' r H1 H2|c' s' er r H1 H2 H3].
  - exact (H _ P).
  - apply HP in H. discriminate.
  - apply HP in H. injection H as -> ->. destruct (H1 _ S).
  - destruct (HS _ _ _ H H1) as (-> & -> & ->). destruct (H2 w); auto. eapply call_word; eauto.
  - destruct (HS _ _ _ H H1) as (-> & -> & ->). apply spells_lower in L, H3. subst w1. rewrite L in H4. destruct (H4 _ C).
  - now rewrite (asks_det _ _ _ Hc H1).
  - rewrite (asks_det _ _ _ Hc H1). auto.
  - rewrite (asks_det _ _ _ Hc H1). eauto.
Qed.

(* [gives s c s' r]: the only possible outcome is [s'] with reply [r] *)
Definition gives (s : sdb) (c : cmd) (s' : sdb) (r : robj) : Prop :=
  forall out, spec s c out -> out = says s' r \/ exists er, out = errs s' er /\ forall r', error_text er r' -> r' = r.

Lemma gives_handle e d s q c s' r : env_ok e -> db_rel d s -> fits s -> asks q c -> gives s c s' r ->
  exists d', handle e d q = Ret (d', Some r) /\ db_rel d' s' /\ answer s q (Some (s', Some r)).
Proof.
  intros He Hr Hf Hq Hg. pose proof (handle_refines e d s q He Hr Hf) as H. unfold result_ok in H.
  destruct (handle e d q) as [[d' rep]| |]; [|exfalso|contradiction].
  - destruct H as (s1 & H1 & Ha). pose proof (asks_answer _ _ _ _ Hq Ha) as HA. cbn in HA.
    destruct rep as [r1|]; [|contradiction]. exists d'. destruct HA as [HA|(er & HA & Ht)].
    + destruct (Hg _ HA) as [E|(er & E & _)]; [|discriminate]. injection E as -> ->. auto.
    + destruct (Hg _ HA) as [E|(er' & E & Hu)]; [discriminate|]. injection E as -> ->. apply Hu in Ht as ->. auto.
  - apply (asks_answer _ _ _ _ Hq) in H. destruct (Hg _ H) as [E|(er & E & _)]; discriminate.
Qed.

(* Nondeterministic commands: every reply is one the reference machine allows. *)
Lemma handle_asks e d s q c : env_ok e -> db_rel d s -> fits s -> asks q c ->
  match handle e d q with
  | Ret (d', Some r) => exists s', db_rel d' s' /\
      (spec s c (Some (s', inl r)) \/ exists er, spec s c (Some (s', inr er)) /\ error_text er r)
  | Panic => spec s c None
  | _ => False
  end.
Proof.
  intros He Hr Hf Hq. pose proof (handle_refines e d s q He Hr Hf) as H. unfold result_ok in H.
  destruct (handle e d q) as [[d' [r|]]| |].
  - destruct H as (s1 & H1 & Ha). exists s1. split; auto. exact (asks_answer _ _ _ _ Hq Ha).
  - destruct H as (s1 & H1 & Ha). exact (asks_answer _ _ _ _ Hq Ha).
  - exact (asks_answer _ _ _ _ Hq H).
  - exact H.
Qed.

(* Take a statement [spec s c out] apart down to what [out] is. *)
Ltac crunch H :=
  unfold spec_arith, spec_sets in H;
  repeat lazymatch type of H with
  | _ = _ => fail
  | exists _, _ => destruct H as [? H]
  | _ /\ _ => destruct H as [? H]
  | _ \/ _ => destruct H as [H|H]
  | match ?x with _ => _ end => destruct x eqn:?
  | let _ := _ in _ => cbv zeta in H
  end.

(* ---- crashes ---- *)
Lemma picks_nil X : picks [] 1 X -> X = ∅.
Proof.
  intros (_ & _ & H). cbn in H. apply size_empty_inv in H || idtac.
  assert (size X = 0%nat) by lia. apply leibniz_equiv. now apply size_empty_inv.
Qed.
Lemma picks_empty l n : picks l n ∅ -> l = [].
Proof. intros (_ & H & _). destruct l as [|x l]; auto. specialize (H x ltac:(left)). set_solver. Qed.

Lemma spec_crashes s c : cmd_wf c -> spec s c None -> crashes s c.
Proof.
  intros Hw H. destruct c; cbn [spec] in H; crunch H; try discriminate H; cbn [crashes];
    repeat match goal with H : bool_decide _ = true |- _ => apply bool_decide_eq_true in H end; auto.
  - split; [auto|]. split; [lia|]. exists l. split; auto. intros [-> ->]. rewrite bool_decide_eq_true_2 in Heqb1 by auto. discriminate.
  - destruct Hw as [_ Hw]. unfold pick_reply in *. destruct count_set, x; try discriminate. split; auto.
    rewrite Heqo. f_equal. rewrite (Hw eq_refl) in H0. now apply picks_nil.
  - destruct Hw as [_ Hw]. unfold pick_reply in *. destruct count_set, x; try discriminate. split; auto.
    rewrite Heqo. f_equal. rewrite (Hw eq_refl) in H0. now apply picks_nil.
Qed.
Lemma crashes_spec s c out : crashes s c -> spec s c out -> out = None.
Proof.
  intros Hc H. destruct c; cbn [crashes] in Hc; try contradiction; cbn [spec] in H.
  - destruct Hc as (-> & Hn & l & E & Hl). rewrite E in H. apply Z.eqb_neq in Hn. rewrite Hn in H.
    rewrite bool_decide_eq_true_2 in H by auto. destruct (_ && _) eqn:Eb; auto. apply andb_true_iff in Eb as [E1 E2].
    apply bool_decide_eq_true in E2. destruct Hl. split; [lia|auto].
  - destruct Hc as (-> & -> & l & E). rewrite E in H. rewrite bool_decide_eq_true_2 in H by auto. auto.
  - subst k. now rewrite bool_decide_eq_true_2 in H by auto.
  - subst k. now rewrite bool_decide_eq_true_2 in H by auto.
  - subst k. now rewrite bool_decide_eq_true_2 in H by auto.
  - destruct Hc as (-> & E). rewrite E in H. destruct H as (l & Hp & H). apply picks_empty in Hp as ->. exact H.
  - destruct Hc as (-> & E). rewrite E in H. destruct H as (l & Hp & H). apply picks_empty in Hp as ->. exact H.
Qed.
Lemma asks_wf q c : asks q c -> cmd_wf c /\ cmd_nonempty c.
Proof. intros (o & n & w & a & _ & _ & _ & C). eapply call_wf; eauto. Qed.
Theorem crash_iff e d s q : env_ok e -> db_rel d s -> fits s ->
  (handle e d q = Panic <-> exists c, asks q c /\ crashes s c).
Proof.
  intros He Hr Hf. pose proof (handle_refines e d s q He Hr Hf) as H. split.
  - intros E. rewrite E in H. cbn in H. inversion H as [| | | | |c Hq Hs| |]; subst.
    exists c. split; auto. apply spec_crashes; auto. now apply (asks_wf q).
  - intros (c & Hq & Hc). pose proof (handle_asks e d s q c He Hr Hf Hq) as HA.
    destruct (handle e d q) as [[d' [r|]]| |]; try contradiction; auto.
    destruct HA as (s' & _ & [HA|(er & HA & _)]); apply (crashes_spec _ _ _ Hc) in HA; discriminate.
Qed.
Theorem handle_total e d s q : env_ok e -> db_rel d s -> fits s ->
  (forall c, asks q c -> ~ crashes s c) -> exists d' r, handle e d q = Ret (d', r).
Proof.
  intros He Hr Hf Hn. pose proof (handle_refines e d s q He Hr Hf) as H. pose proof (crash_iff e d s q He Hr Hf) as HC.
  destruct (handle e d q) as [[d' r]| |]; [eauto| |contradiction].
  destruct HC as [HC _]. destruct (HC eq_refl) as (c & H1 & H2). destruct (Hn _ H1 H2).
Qed.

(* ---- frame ---- *)
Lemma put_pairs_other l : forall m (k : bytes), k ∉ l.*1 -> put_pairs m l !! k = m !! k.
Proof.
  induction l as [|[a b] l IH]; intros m k H; auto. rewrite fmap_cons in H. apply not_elem_of_cons in H as [H1 H2]. cbn in H1.
  cbn [put_pairs]. rewrite IH by auto. rewrite lookup_insert_ne by congruence. reflexivity.
Qed.
Lemma zip_fst_in (ks vs : list bytes) k : k ∈ (zip ks vs).*1 -> k ∈ ks.
Proof. intros H. apply elem_of_list_fmap in H as ([a b] & -> & H). eapply elem_of_zip_l; eauto. Qed.
Lemma spec_frame s c s' r t k : spec s c (Some (s', r)) -> kind_of c <> t \/ k ∉ written c -> same_at t k s s'.
Proof.
  intros H Hk.
  assert (D : forall a, k ∉ [a] -> k <> a) by (intros a Ha ->; apply Ha; left).
  destruct c; cbn [kind_of written] in Hk; cbn [spec] in H; crunch H; try discriminate H; injection H as -> ->;
    destruct t; cbn [same_at with_ss with_sl with_sh with_st ss sl sh st]; try reflexivity;
    (destruct Hk as [Hk|Hk]; [destruct Hk; reflexivity|]); clear -D Hk;
    try (symmetry; apply lookup_insert_ne; apply D in Hk; apply not_eq_sym; exact Hk).
  symmetry. apply put_pairs_other. intros Hin. apply Hk. now apply zip_fst_in in Hin.
Qed.
Lemma answer_frame s q s' r t k : answer s q (Some (s', r)) -> ~ writes q t k -> same_at t k s s'.
Proof.
  intros H Hw.
  assert (HS : forall c, asks q c -> kind_of c <> t \/ k ∉ written c).
  { intros c Hc. destruct (decide (k ∈ written c)) as [Hi|]; auto. left. intros E. apply Hw. exists c. auto. }
  inversion H; subst; try (destruct t; reflexivity); eapply spec_frame; eauto.
Qed.

(* ---- reads ---- *)
Lemma spec_reads s c s' r : spec s c (Some (s', r)) -> written c = [] -> s' = s.
Proof.
  intros H Hw. destruct c; cbn [written] in Hw; try discriminate Hw; cbn [spec] in H; crunch H; try discriminate H;
    try (injection H as -> ->; reflexivity).
  subst. discriminate.
Qed.

(* ---- errors ---- *)
Lemma r_opt_not_error o t : r_opt o <> RErr t.
Proof. destruct o; discriminate. Qed.
Lemma pick_not_error l cs r t : pick_reply l cs = Some r -> r <> RErr t.
Proof. destruct cs, l; cbn; intros H; try discriminate H; injection H as <-; discriminate. Qed.
Lemma reply_not_error s c s' r : spec s c (Some (s', inl r)) -> forall t, r <> RErr t.
Proof.
  intros H t. destruct c; cbn [spec] in H; crunch H; try discriminate H; injection H as -> ->;
    try apply r_opt_not_error; try (eapply pick_not_error; eassumption); try discriminate;
    destruct count_set; discriminate.
Qed.
Lemma spec_error s c s' er : cmd_wf c -> spec s c (Some (s', inr er)) ->
  s' = s \/ exists k, c = CHset k [] [] /\ sh s !! k = None /\ s' = with_sh s (<[k := ∅]> (sh s)).
Proof.
  intros Hw H. destruct c; cbn [spec] in H; crunch H; try discriminate H; injection H as -> ->; auto.
  apply bool_decide_eq_true in Heqb0. subst fs. destruct vs; [|discriminate Hw].
  destruct (sh s !! k) eqn:E; cbn [default from_option].
  - left. unfold id. rewrite insert_id by auto. now destruct s.
  - right. exists k. auto.
Qed.
Theorem error_effect e d s q d' t : env_ok e -> db_rel d s -> fits s -> handle e d q = Ret (d', Some (RErr t)) ->
  db_rel d' s \/ exists k, asks q (CHset k [] []) /\ sh s !! k = None /\ db_rel d' (with_sh s (<[k := ∅]> (sh s))).
Proof.
  intros He Hr Hf E. pose proof (handle_refines e d s q He Hr Hf) as H. rewrite E in H. destruct H as (s' & Hr' & Ha).
  inversion Ha as [| | | | | |c s1 r1 Hasks Hsp|c s1 er r1 Hasks Hsp Het]; subst; auto.
  - destruct (reply_not_error _ _ _ _ Hsp t). reflexivity.
  - destruct (asks_wf _ _ Hasks) as [Hw _]. destruct (spec_error _ _ _ _ Hw Hsp) as [->|(k & -> & Hk & ->)]; auto.
    right. exists k. auto.
Qed.

(* ---- histories ---- *)
Section History.
  Context {V : Type} (get : sdb -> V) (put : sdb -> V -> sdb) (step : V -> cmd -> option (V * robj)) (P : cmd -> Prop).
  Context (get_put : forall s v, get (put s v) = v).
  Context (step_gives : forall s c v r, P c -> step (get s) c = Some (v, r) -> gives s c (put s v) r).
  Context (other : robj -> Prop).
  Context (other_keeps : forall s q s' r, other q -> answer s q (Some (s', r)) -> get s' = get s).

  Definition related (q : robj) (oc : option cmd) : Prop :=
    match oc with Some c => asks q c /\ P c | None => other q end.

  Lemma requests_size_nonneg l : 0 <= requests_size l.
  Proof. induction l as [|q l IHl]; cbn [requests_size]; [lia|]. pose proof (request_size_nonneg q). lia. Qed.

  Lemma history_n h : forall n d s ocs v xs, Forall (fun x => env_ok (fst x)) h -> db_rel d s -> bounded n s -> 0 <= n ->
    n + requests_size (map snd h) < 2 ^ 62 -> Forall2 related (map snd h) ocs ->
    ideal_run step (get s) ocs = Some (v, xs) ->
    match run d h with
    | Ret (d', rs) => Forall2 agrees xs rs /\ exists s', db_rel d' s' /\ fits s' /\ get s' = v
    | Panic => None ∈ ocs
    | NoFuel => False
    end.
  Proof.
    induction h as [|[e q] h IH]; intros n d s ocs v xs He Hr Hb Hn Hw Hq Hi; cbn [map snd] in *.
    - inversion Hq; subst. injection Hi as <- <-. split; [constructor|]. exists s. split; auto. split; auto.
      eapply bounded_fits; eauto. cbn in Hw. lia.
    - inversion He as [|? ? He1 He2]; subst. cbn [requests_size] in Hw. pose proof (request_size_nonneg q) as Hqs.
      pose proof (requests_size_nonneg (map snd h)) as Hrs.
      assert (Hf : fits s) by (eapply bounded_fits; eauto; lia).
      inversion Hq as [|? oc ? ocs' Hq1 Hq2]; subst. cbn [run].
      destruct oc as [c|]; cbn [related ideal_run] in *.
      + destruct Hq1 as [Hc HP]. destruct (step (get s) c) as [[v1 r]|] eqn:Es; [|discriminate].
        destruct (ideal_run step v1 ocs') as [[v2 rs2]|] eqn:Ei; [|discriminate]. injection Hi as <- <-.
        destruct (gives_handle e d s q c _ _ He1 Hr Hf Hc (step_gives _ _ _ _ HP Es)) as (d1 & E1 & Hr1 & Ha).
        rewrite E1. cbn [rbind fst snd].
        specialize (IH (n + request_size q) d1 _ ocs' v2 rs2 He2 Hr1 (answer_bounded _ _ _ _ _ Hb Hn Ha) ltac:(lia) ltac:(lia) Hq2).
        rewrite get_put in IH. specialize (IH Ei). destruct (run d1 h) as [[d2 rs]| |]; cbn [rbind fst snd]; auto.
        * destruct IH as [IH1 IH2]. split; auto. constructor; auto. reflexivity.
        * now right.
      + destruct (ideal_run step (get s) ocs') as [[v2 rs2]|] eqn:Ei; [|discriminate]. injection Hi as <- <-.
        pose proof (handle_refines e d s q He1 Hr Hf) as H. unfold result_ok in H.
        destruct (handle e d q) as [[d1 r]| |]; cbn [rbind fst snd]; [|left|contradiction].
        destruct H as (s1 & Hr1 & Ha).
        specialize (IH (n + request_size q) d1 _ ocs' v2 rs2 He2 Hr1 (answer_bounded _ _ _ _ _ Hb Hn Ha) ltac:(lia) ltac:(lia) Hq2).
        rewrite (other_keeps _ _ _ _ Hq1 Ha) in IH. specialize (IH Ei). destruct (run d1 h) as [[d2 rs]| |]; cbn [rbind fst snd]; auto.
        * destruct IH as [IH1 IH2]. split; auto. constructor; auto. exact I.
        * now right.
  Qed.
  Lemma history h ocs v xs : Forall (fun x => env_ok (fst x)) h -> requests_size (map snd h) < 2 ^ 62 ->
    Forall2 related (map snd h) ocs -> ideal_run step (get empty_sdb) ocs = Some (v, xs) ->
    match run new_db h with
    | Ret (d', rs) => Forall2 agrees xs rs /\ exists s', db_rel d' s' /\ fits s' /\ get s' = v
    | Panic => None ∈ ocs
    | NoFuel => False
    end.
  Proof. intros. eapply (history_n h 0); eauto; [apply new_db_rel|apply bounded_empty|lia]. Qed.
End History.

Definition set_at {A} (k : bytes) (o : option A) (m : gmap bytes A) : gmap bytes A := partial_alter (fun _ => o) k m.
Lemma set_at_some {A} (k : bytes) (v : A) m : set_at k (Some v) m = <[k := v]> m.
Proof. reflexivity. Qed.
Lemma set_at_id {A} (k : bytes) (m : gmap bytes A) : set_at k (m !! k) m = m.
Proof. apply partial_alter_self. Qed.
Lemma set_at_same {A} (k : bytes) (o : option A) (m : gmap bytes A) : m !! k = o -> set_at k o m = m.
Proof. intros <-. apply set_at_id. Qed.
Lemma set_at_get {A} (k : bytes) (o : option A) m : set_at k o m !! k = o.
Proof. apply lookup_partial_alter. Qed.

Lemma with_ss_id s : with_ss s (ss s) = s. Proof. now destruct s. Qed.
Lemma with_sl_id s : with_sl s (sl s) = s. Proof. now destruct s. Qed.
Lemma with_sh_id s : with_sh s (sh s) = s. Proof. now destruct s. Qed.
Lemma with_st_id s : with_st s (st s) = s. Proof. now destruct s. Qed.

Lemma ideal_str_gives s c m r : ideal_str (ss s) c = Some (m, r) -> gives s c (with_ss s m) r.
Proof.
  intros H out Hs. left. destruct c; try discriminate H; cbn [ideal_str spec] in *;
    try (injection H as <- <-; rewrite ?with_ss_id; exact Hs).
  destruct ks as [|k ks]; [discriminate|]. injection H as <- <-. exact Hs.
Qed.

(* ---- lists ---- *)
Lemma seg_range a b l : 0 <= position b (Z.of_nat (length l)) ->
  seg_sel a b l = match range_of a b l with [] => None | r => Some r end.
Proof.
  intros Hb. unfold seg_sel, range_of. set (n := Z.of_nat (length l)) in *. set (pa := position a n). set (pb := position b n) in *.
  assert (Er : pa < n -> 0 <= pa -> seg_right b n = Z.min pb (n - 1)).
  { intros H1 H2. unfold seg_right. fold pb. unfold position at 1. destruct (Z.min pb (n - 1) <? 0) eqn:E; lia. }
  destruct (0 <=? pa) eqn:E1; [|reflexivity]. destruct (pa <? n) eqn:E2; [|reflexivity]. cbn [andb].
  rewrite Er by lia.
  destruct (pa <=? pb) eqn:E3.
  - replace (pa <=? Z.min pb (n - 1)) with true by lia. replace (Z.min pb (n - 1) <? n) with true by lia. cbn [andb].
    unfold sub_list. destruct (firstn _ _) eqn:Ef; auto. exfalso. apply (f_equal length) in Ef.
    rewrite firstn_length, skipn_length in Ef. cbn in Ef. unfold n in *. lia.
  - replace (pa <=? Z.min pb (n - 1)) with false by lia. reflexivity.
Qed.
Lemma range_neg a b l : position b (Z.of_nat (length l)) < 0 -> range_of a b l = [].
Proof.
  intros Hb. unfold range_of. destruct (0 <=? position a (Z.of_nat (length l))) eqn:E1; [|reflexivity].
  destruct (_ <? _); [|reflexivity]. cbn [andb].
  replace (position a (Z.of_nat (length l)) <=? position b (Z.of_nat (length l))) with false by lia. reflexivity.
Qed.
Lemma last_elem_app l : forall r v, last_elem l = Some (r, v) <-> l = r ++ [v].
Proof.
  induction l as [|x [|y l] IH]; intros r v; cbn [last_elem].
  - split; [discriminate|]. now destruct r.
  - split; [now intros [= <- <-]|]. destruct r as [|z [|? ?]]; cbn; intros H; try discriminate; now injection H as ->.
  - cbn [last_elem] in IH. destruct (match l with [] => _ | _ => _ end) as [[r1 y1]|] eqn:E.
    + split.
      * intros [= <- <-]. destruct (IH r1 y1) as [IH1 _]. rewrite IH1 by auto. reflexivity.
      * destruct r as [|z r]; cbn; [destruct l; discriminate|]. intros [= <- H]. apply IH in H. now injection H as <- <-.
    + split; [discriminate|]. destruct r as [|z r]; cbn; [destruct l; discriminate|]. intros [= <- H]. apply IH in H. discriminate.
Qed.
Lemma last_elem_none l : last_elem l = None -> l = [].
Proof.
  destruct (snoc_case l) as [->|(r & v & ->)]; auto. intros H.
  destruct (last_elem_app (r ++ [v]) r v) as [_ E]. rewrite E in H by auto. discriminate.
Qed.

Ltac keep H Hs Eo := injection H as <- <-; rewrite (set_at_same _ _ _ Eo), ?with_sl_id, ?with_sh_id, ?with_st_id; left; exact Hs.
Ltac puts H Hs := injection H as <- <-; rewrite set_at_some; left; exact Hs.
Lemma ideal_list_gives (s : sdb) (c : cmd) (k : bytes) o r : k <> [] -> names c = [k] -> ideal_list (sl s !! k) c = Some (o, r) ->
  gives s c (with_sl s (set_at k o (sl s))) r.
Proof.
  intros Hk Hn H out Hs. assert (Ek : bool_decide (k = []) = false) by now apply bool_decide_eq_false.
  assert (EL : list_or_nil s k = match sl s !! k with Some l => l | None => [] end) by reflexivity.
  destruct c; try discriminate H; cbn [names] in Hn; injection Hn as ->; cbn [ideal_list spec] in *;
    rewrite ?Ek, ?EL in *; clear EL; set (o0 := sl s !! k) in *; 
    assert (Eo : sl s !! k = o0) by reflexivity; clearbody o0.
  - rewrite ?Eo in Hs. destruct o0 as [[|v vs]|]; [keep H Hs Eo|puts H Hs|keep H Hs Eo].
  - destruct (last_elem _) as [[l' v]|] eqn:E.
    + apply last_elem_app in E. destruct o0 as [l|]; [|destruct l'; discriminate]. subst l.
      destruct (l' ++ [v]) eqn:E2; [destruct l'; discriminate|]. destruct Hs as (vs & v' & Hl & Hs).
      injection Hl as Hl. rewrite Hl in E2. apply app_inj_tail in E2 as [-> ->]. puts H Hs.
    + apply last_elem_none in E. rewrite E in Hs. keep H Hs Eo.
  - puts H Hs.
  - puts H Hs.
  - destruct (0 <=? _) eqn:Eb; [|discriminate]. rewrite seg_range in Hs by lia. unfold array_of in H.
    destruct (range_of a b _); keep H Hs Eo.
  - keep H Hs Eo.
  - keep H Hs Eo.
  - rewrite ?Eo in Hs. destruct o0 as [l|].
    + destruct (_ && _); [puts H Hs|]. injection H as <- <-. rewrite (set_at_same _ _ _ Eo), with_sl_id. right. exists ERange. auto.
    + injection H as <- <-. rewrite (set_at_same _ _ _ Eo), with_sl_id. right. exists ENoKey. auto.
  - rewrite ?Eo in Hs. destruct (count =? - 2 ^ 63); [discriminate|]. cbn [orb] in H. destruct (bool_decide (v = reserved)); [discriminate|].
    destruct o0 as [l|].
    + injection H as <- <-. rewrite set_at_some. left. cbv zeta in Hs. rewrite Hs. unfold r_nat. do 2 f_equal.
      pose proof (lrem_length count v l). lia.
    + injection H as <- <-. rewrite (set_at_same _ _ _ Eo), with_sl_id. left. rewrite Hs. reflexivity.
  - rewrite ?Eo in Hs. destruct o0 as [l|].
    + destruct (range_of a b l) eqn:E.
      * destruct l; [|discriminate].
        assert (En : seg_sel a b [] = None).
        { unfold seg_sel. cbn [length]. change (Z.of_nat 0) with 0. destruct (0 <=? position a 0) eqn:E1; [|reflexivity].
          replace (position a 0 <? 0) with false by lia. reflexivity. }
        rewrite En in Hs. keep H Hs Eo.
      * destruct (Z_lt_le_dec (position b (Z.of_nat (length l))) 0) as [Hb|Hb]; [rewrite range_neg in E by auto; discriminate|].
        rewrite seg_range, E in Hs by auto. puts H Hs.
    + assert (En : range_of a b [] = []).
      { unfold range_of. cbn [length]. change (Z.of_nat 0) with 0. destruct (0 <=? position a 0) eqn:E1; [|reflexivity].
        replace (position a 0 <? 0) with false by lia. reflexivity. }
      rewrite En in H. keep H Hs Eo.
  - rewrite ?Eo in Hs. destruct (bool_decide (pivot = reserved)); [discriminate|]. destruct o0 as [l|]; [|keep H Hs Eo].
    destruct (insert_near after pivot v l); [puts H Hs|keep H Hs Eo].
Qed.

(* ---- hashes ---- *)
Lemma foldr_delete_lookup (h : gmap bytes bytes) (fs : list bytes) (f : bytes) :
  foldr delete h fs !! f = if bool_decide (f ∈ fs) then None else h !! f.
Proof.
  induction fs as [|g fs IH]; cbn [foldr].
  - rewrite bool_decide_eq_false_2 by (intros H; inversion H). reflexivity.
  - destruct (decide (f = g)) as [->|Hne].
    + rewrite lookup_delete, bool_decide_eq_true_2 by left. reflexivity.
    + rewrite lookup_delete_ne, IH by congruence. repeat case_bool_decide; auto.
      * destruct H0. now right.
      * apply elem_of_cons in H0 as [|]; congruence || tauto.
Qed.
Lemma ideal_hash_gives (s : sdb) (c : cmd) (k : bytes) o r : k <> [] -> names c = [k] -> ideal_hash (sh s !! k) c = Some (o, r) ->
  gives s c (with_sh s (set_at k o (sh s))) r.
Proof.
  intros Hk Hn H out Hs. assert (Ek : bool_decide (k = []) = false) by now apply bool_decide_eq_false.
  destruct c; try discriminate H; cbn [names] in Hn; injection Hn as ->; cbn [ideal_hash spec] in *;
    rewrite ?Ek in *; set (o0 := sh s !! k) in *; assert (Eo : sh s !! k = o0) by reflexivity; clearbody o0.
  - destruct fs as [|f fs]; [discriminate|]. rewrite bool_decide_eq_false_2 in Hs by discriminate. puts H Hs.
  - destruct o0; [|destruct (bool_decide (f = [])); [discriminate|]; rewrite lookup_empty in H; keep H Hs Eo].
    destruct (bool_decide (f = [])); [discriminate|]. keep H Hs Eo.
  - keep H Hs Eo.
  - destruct (bool_decide (f = [])); [discriminate|]. destruct o0; [keep H Hs Eo|].
    rewrite lookup_empty, bool_decide_eq_false_2 in H by (intros [? ?]; discriminate). keep H Hs Eo.
  - keep H Hs Eo.
  - destruct (bool_decide (f = [])); [discriminate|]. destruct o0; [keep H Hs Eo|].
    rewrite lookup_empty in H. keep H Hs Eo.
  - destruct o0 as [h|].
    + destruct Hs as (h' & Hh & Hs). assert (h' = foldr delete h fs) as ->; [|puts H Hs].
      apply map_eq. intros f. now rewrite Hh, foldr_delete_lookup.
    + injection H as <- <-. rewrite (set_at_same _ _ _ Eo), with_sh_id. left. rewrite Hs. unfold r_nat. do 3 f_equal.
      rewrite dom_empty_L. replace (list_to_set fs ∩ ∅ : gset bytes) with (∅ : gset bytes) by set_solver. now rewrite size_empty.
Qed.

(* ---- sets ---- *)
Lemma ideal_set_gives (s : sdb) (c : cmd) (k : bytes) o r : k <> [] -> names c = [k] -> ideal_set (st s !! k) c = Some (o, r) ->
  gives s c (with_st s (set_at k o (st s))) r.
Proof.
  intros Hk Hn H out Hs. assert (Ek : bool_decide (k = []) = false) by now apply bool_decide_eq_false.
  assert (EL : set_or_empty s k = match st s !! k with Some l => l | None => ∅ end) by reflexivity.
  destruct c; try discriminate H; cbn [names] in Hn; try discriminate H; injection Hn as ->; cbn [ideal_set spec] in *;
    rewrite ?Ek, ?EL in *; clear EL; set (o0 := st s !! k) in *; assert (Eo : st s !! k = o0) by reflexivity; clearbody o0.
  - keep H Hs Eo.
  - puts H Hs.
  - destruct (bool_decide (v = [])); [discriminate|]. destruct o0; [keep H Hs Eo|].
    rewrite bool_decide_eq_false_2 in H by set_solver. keep H Hs Eo.
  - puts H Hs.
Qed.

(* ---- from requests to commands ---- *)
(* [good e d s]: the database holds [s], within 64-bit sizes; [e] iterates maps in some
   genuine order. *)
Definition good (e : env) (d : db) (s : sdb) : Prop := env_ok e /\ db_rel d s /\ fits s.

Lemma are_strs_cons objs a l : are_strs objs (a :: l) -> exists o objs', objs = o :: objs' /\ is_str o a /\ are_strs objs' l.
Proof. intros H. inversion H; subst. eauto. Qed.
Lemma are_strs_nil objs : are_strs objs [] -> objs = [].
Proof. intros H. now inversion H. Qed.
Ltac split_strs :=
  repeat match goal with
  | H : are_strs _ (_ :: _) |- _ => apply are_strs_cons in H as (? & ? & -> & ? & H)
  | H : are_strs _ [] |- _ => apply are_strs_nil in H as ->
  end.
Lemma num_int o t n : is_str o t -> is_int t n -> is_num o n.
Proof. intros. exists t. auto. Qed.
Ltac by_request H := destruct H as (?o & ?name & ?objs & ?P & ?S & ?L & ?HA); split_strs; eexists _, _, _, _; split; [eassumption|]; split; [eassumption|]; split; [eassumption|].

Lemma req1 q w f k : takes1 (bs w) f -> request q w [k] -> asks q (f k).
Proof. intros T H. by_request H. now apply c_1. Qed.
Lemma req2 q w f k v : takes2 (bs w) f -> request q w [k; v] -> asks q (f k v).
Proof. intros T H. by_request H. now apply c_2. Qed.
Lemma req_many q w f ks : takes_many (bs w) f -> ks <> [] -> request q w ks -> asks q (f ks).
Proof. intros T N H. by_request H. apply c_many; auto. intros ->. inversion HA. congruence. Qed.
Lemma req_key_many q w f k vs : takes_key_many (bs w) f -> vs <> [] -> request q w (k :: vs) -> asks q (f k vs).
Proof. intros T N H. by_request H. apply c_key_many; auto. intros ->. inversion HA. congruence. Qed.
Lemma req_range q w f k ta tb a b : takes_range (bs w) f -> is_int ta a -> is_int tb b -> request q w [k; ta; tb] -> asks q (f k a b).
Proof. intros T Ia Ib H. by_request H. apply c_range; eauto using num_int. Qed.
Lemma req_int_str q w f k ti i v : takes_int_str (bs w) f -> is_int ti i -> request q w [k; ti; v] -> asks q (f k i v).
Proof. intros T Ii H. by_request H. apply c_int_str; eauto using num_int. Qed.
Lemma req_count0 q w f k : takes_count (bs w) f -> request q w [k] -> asks q (f k 1 false).
Proof. intros T H. by_request H. now apply c_count0. Qed.
Lemma req_count q w f k tn n : takes_count (bs w) f -> is_int tn n -> request q w [k; tn] -> asks q (f k n true).
Proof. intros T In H. by_request H. apply c_count; eauto using num_int. Qed.
Lemma req_lindex q k ti i : is_int ti i -> request q "lindex" [k; ti] -> asks q (CLindex k i).
Proof. intros Ii H. by_request H. apply c_lindex; eauto using num_int. Qed.
(* alternating keys and values *)
Fixpoint alternate (l : list (bytes * bytes)) : list bytes := match l with [] => [] | (k, v) :: l' => k :: v :: alternate l' end.
Lemma are_pairs_alternate l : forall objs, are_strs objs (alternate l) -> are_pairs objs l.*1 l.*2.
Proof.
  induction l as [|[k v] l IH]; cbn [alternate]; intros objs H.
  - inversion H. constructor.
  - split_strs. rewrite !fmap_cons. constructor; auto.
Qed.
Lemma zip_fst_snd (l : list (bytes * bytes)) : zip l.*1 l.*2 = l.
Proof. apply zip_fst_snd. Qed.
Lemma req_mset q l : request q "mset" (alternate l) -> asks q (CMset l.*1 l.*2).
Proof. intros H. by_request H. apply c_mset. now apply are_pairs_alternate. Qed.
Lemma req_hset q k l : request q "hset" (k :: alternate l) -> asks q (CHset k l.*1 l.*2).
Proof. intros H. by_request H. apply c_hset; auto. now apply are_pairs_alternate. Qed.
Lemma req_incr q k l : request q "incr" (k :: l) -> asks q (CIncr k (bs "1")).
Proof. intros H. by_request H. now apply c_incr. Qed.
Lemma req_decr q k l : request q "decr" (k :: l) -> asks q (CDecr k (bs "1")).
Proof. intros H. by_request H. now apply c_decr. Qed.
Lemma req_incrby q k n : request q "incrby" [k; n] -> asks q (CIncr k n).
Proof. intros H. by_request H. now apply c_incrby. Qed.
Lemma req_decrby q k n : request q "decrby" [k; n] -> asks q (CDecr k n).
Proof. intros H. by_request H. now apply c_decrby. Qed.
Lemma req_before q k w p v : spells w (bs "before") -> request q "linsert" [k; w; p; v] -> asks q (CLinsert k false p v).
Proof. intros Hw H. by_request H. eapply c_before; eauto. Qed.
Lemma req_after q k w p v : spells w (bs "after") -> request q "linsert" [k; w; p; v] -> asks q (CLinsert k true p v).
Proof. intros Hw H. by_request H. eapply c_after; eauto. Qed.

Lemma good_gives e d s q c s' r : good e d s -> asks q c -> gives s c s' r ->
  exists d', handle e d q = Ret (d', Some r) /\ db_rel d' s'.
Proof.
  intros (He & Hr & Hf) Hq Hg. destruct (gives_handle e d s q c s' r He Hr Hf Hq Hg) as (d' & H1 & H2 & _). eauto.
Qed.
Lemma spec_gives s c s' r : (forall out, spec s c out -> out = says s' r) -> gives s c s' r.
Proof. intros H out Hs. left. auto. Qed.

(* ---- histories and the last write ---- *)
Lemma answers_app l1 : forall l2 s s2 rs, answers s (l1 ++ l2) (Some (s2, rs)) ->
  exists s1 rs1 rs2, rs = rs1 ++ rs2 /\ answers s l1 (Some (s1, rs1)) /\ answers s1 l2 (Some (s2, rs2)).
Proof.
  induction l1 as [|q l1 IH]; intros l2 s s2 rs H; cbn [app] in H.
  - exists s, [], rs. repeat split; auto. constructor.
  - inversion H; subst.
    match goal with H : answers _ (l1 ++ l2) _ |- _ => apply IH in H as (s1' & rs1 & rs2 & -> & H1 & H2) end.
    exists s1', (r :: rs1), rs2. split; [reflexivity|]. split; auto. econstructor; eauto.
Qed.
Lemma same_at_trans t k s1 s2 s3 : same_at t k s1 s2 -> same_at t k s2 s3 -> same_at t k s1 s3.
Proof. destruct t; cbn; congruence. Qed.
Lemma answers_frame t k l : (forall q, q ∈ l -> ~ writes q t k) -> forall s s' rs, answers s l (Some (s', rs)) -> same_at t k s s'.
Proof.
  induction l as [|q l IH]; intros Hl s s' rs H; inversion H; subst.
  - destruct t; reflexivity.
  - eapply same_at_trans; [eapply answer_frame; eauto; apply Hl; left|]. eapply IH; eauto. intros q' Hq. apply Hl. now right.
Qed.
Lemma answers_one s q s' rs : answers s [q] (Some (s', rs)) -> exists r, rs = [r] /\ answer s q (Some (s', r)).
Proof. intros H. inversion H; subst. match goal with H : answers _ [] _ |- _ => inversion H; subst end. eauto. Qed.

Lemma run_answers h d rs : Forall (fun x => env_ok (fst x)) h -> requests_size (map snd h) < 2 ^ 62 ->
  run new_db h = Ret (d, rs) -> exists s, db_rel d s /\ answers empty_sdb (map snd h) (Some (s, rs)).
Proof. intros H1 H2 E. pose proof (run_refines h H1 H2) as H. rewrite E in H. exact H. Qed.
Lemma run_fits h d rs : Forall (fun x => env_ok (fst x)) h -> requests_size (map snd h) < 2 ^ 62 ->
  run new_db h = Ret (d, rs) -> exists s, db_rel d s /\ fits s /\ answers empty_sdb (map snd h) (Some (s, rs)).
Proof.
  intros H1 H2 E. destruct (run_answers h d rs H1 H2 E) as (s & Hr & Ha). exists s. split; [exact Hr|]. split; [|exact Ha].
  assert (HB : forall l n s0 s1 rs1, bounded n s0 -> 0 <= n -> answers s0 l (Some (s1, rs1)) -> bounded (n + requests_size l) s1).
  { induction l as [|q l IH]; intros n s0 s1 rs1 Hb Hn H; inversion H; subst; cbn [requests_size].
    - now rewrite Z.add_0_r.
    - rewrite Z.add_assoc. eapply IH; eauto; [eapply answer_bounded; eauto|]. pose proof (request_size_nonneg q). lia. }
  eapply bounded_fits; [eapply (HB _ 0); [apply bounded_empty|lia|exact Ha]|lia].
Qed.
