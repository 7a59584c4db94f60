From Verif Require Import Base BaseFacts IntSpec IntParse IntParseProofs Resp RespSpec RespProofs Command SpecDb RequestSpec
  CommandProofs Db DbProofs Engine EngineProofs EngineFacts SpecFacts NodeProofs ServerSpec ReplySpec ReplyProofs Conn Client ClientSpec ClientProofs Cli CliSpec.
From Coq Require Import ZArith List Ascii String Bool Lia.
From stdpp Require Import gmap.
Open Scope Z_scope.

Lemma run_held h : forall n d s d' rs, Forall (fun x => env_ok (fst x)) h -> db_rel d s -> held n s -> 0 <= n -> n + requests_size (map snd h) < 2 ^ 62 ->
  run d h = Ret (d', rs) -> exists s', db_rel d' s' /\ held (n + requests_size (map snd h)) s'.
Proof.
  induction h as [|[e q] h IH]; intros n d s d' rs He Hr Hh Hn Hs E; cbn [run map snd requests_size] in *.
  { injection E as <- _. rewrite Z.add_0_r. eauto. }
  apply Forall_cons in He as [He1 He]. cbn [fst] in He1. pose proof (request_size_nonneg q). pose proof (requests_size_nonneg (map snd h)).
  destruct (handle e d q) as [[d1 r1]| |] eqn:E1; cbn [rbind fst snd] in E; try discriminate.
  destruct (run d1 h) as [[d2 rs2]| |] eqn:E2; cbn [rbind fst snd] in E; try discriminate. injection E as -> _.
  pose proof (handle_refines e d s q He1 Hr (bounded_fits n s (hd_b _ _ Hh) ltac:(lia))) as A. rewrite E1 in A. destruct A as (s1 & R1 & A).
  destruct (IH (n + request_size q) d1 s1 d' rs2 He R1) as (s' & R' & H'); try lia; auto.
  { eapply answer_held; eauto. }
  exists s'. split; auto. now rewrite Z.add_assoc.
Qed.

Lemma args_sizes ws : Z.of_nat (List.length ws) <= args_size (List.map RBulk ws) /\ forall w, In w ws -> blen w <= args_size (List.map RBulk ws).
Proof.
  induction ws as [|w ws [IH1 IH2]]; cbn [List.map args_size List.length str_size]; [split; [lia|now intros w []]|].
  pose proof (blen_nonneg w). split; [lia|]. intros w' [<-|H']; [lia|]. specialize (IH2 _ H'). lia.
Qed.
Lemma run_length h : forall d d' rs, run d h = Ret (d', rs) -> List.length rs = List.length h.
Proof.
  induction h as [|[e q] h IH]; intros d d' rs E; cbn [run] in E; [now injection E as <- <-|].
  destruct (handle e d q) as [[d1 r1]| |]; cbn [rbind fst snd] in E; try discriminate.
  destruct (run d1 h) as [[d2 rs2]| |] eqn:E2; cbn [rbind fst snd] in E; try discriminate. injection E as <- <-. cbn. f_equal. eauto.
Qed.
Lemma skipn_none {A} k : (k <= List.length (@nil A))%nat -> skipn k (@nil A) = [].
Proof. destruct k; auto. Qed.

Lemma talk_typed d u e t l scr req q d1 r : quits t = false -> format_input t = Some req -> parse req = POk q [] -> handle e d q = Ret (d1, Some r) ->
  talk d u (Typed e t :: l) scr ->
  (exists o rest k scr', parse (u ++ Resp.encode r) = POk o rest /\ (k <= List.length rest)%nat /\ talk d1 (skipn k rest) l scr' /\ scr = Shows (format_output o) :: scr') \/
  (exists er, parse (u ++ Resp.encode r) = PErr er).
Proof.
  intros Hq F P Hd T. inversion T as [| | |? ? ? ? ? Q|? ? ? ? ? scr' req' q' d' r' o rest k Q F' P' Hd' Po Hk T'|? ? ? ? ? req' q' d' r' er Q F' P' Hd' Po]; subst; [congruence| |];
    assert (req' = req) as -> by congruence; assert (q' = q) as -> by congruence; assert (d' = d1) as -> by congruence; assert (r' = r) as -> by congruence.
  - left. exists o, rest, k, scr'. auto.
  - right. eauto.
Qed.

Theorem session l h : asked l h -> forall n d s d' rs scr, Forall (fun x => env_ok (fst (snd x))) h -> db_rel d s -> held n s -> 0 <= n ->
  n + requests_size (map (fun x => snd (snd x)) h) < 2 ^ 62 -> run d (map snd h) = Ret (d', rs) -> (forall r, In (Some r) rs -> clean_text r) ->
  talk d [] l scr <-> scr = seen h rs.
Proof.
  induction 1 as [|e t items l h Hline Hne Hq Hl IH|hs l h Hl IH]; intros n d s d' rs scr He Hr Hh Hn Hs E Hc.
  - cbn in E. injection E as <- <-. split; [intros H; inversion H; reflexivity|intros ->; constructor].
  - apply Forall_cons in He as [He1 He]. cbn [fst snd] in He1. cbn [map snd requests_size] in Hs. cbn [map snd run] in E.
    set (q := RArr (map RBulk (map text items))) in *. pose proof (request_size_nonneg q). pose proof (requests_size_nonneg (map (fun x => snd (snd x)) h)).
    destruct (handle e d q) as [[d1 r1]| |] eqn:E1; cbn [rbind fst snd] in E; try discriminate.
    destruct (run d1 (map snd h)) as [[d2 rs2]| |] eqn:E2; cbn [rbind fst snd] in E; try discriminate. injection E as -> <-.
    pose proof (handle_refines e d s q He1 Hr (bounded_fits n s (hd_b _ _ Hh) ltac:(lia))) as A. rewrite E1 in A. destruct A as (s1 & R1 & A).
    pose proof (array_reply e d q _ d1 r1 (el_arr _) E1) as Hsome. destruct r1 as [r|]; [clear Hsome|congruence].
    assert (Hp : parse (Resp.encode r) = POk r []).
    { rewrite <- (app_nil_r (Resp.encode r)). apply parse_encode. refine (answer_reply n s q s1 r Hh Hn _ A (Hc r (or_introl eq_refl))). lia. }
    destruct (typed_received items t [] Hline Hne) as (req & F & P).
    { intros x Hx. pose proof (proj2 (args_sizes (List.map text items)) (text x) (in_map text _ _ Hx)). unfold q, request_size in *. lia. }
    { pose proof (proj1 (args_sizes (List.map text items))) as L. rewrite map_length in L. unfold q, request_size in *. lia. }
    rewrite app_nil_r in P. fold q in P.
    assert (IH' : forall scr', talk d1 [] l scr' <-> scr' = seen h rs2).
    { intros scr'. refine (IH (n + request_size q) d1 s1 d' rs2 scr' He R1 (answer_held _ _ _ _ _ Hh Hn A) _ _ E2 (fun r' Hr' => Hc r' (or_intror Hr'))); lia. }
    cbn [seen]. split.
    + intros T. destruct (talk_typed _ _ _ _ _ _ _ _ _ _ Hq F P E1 T) as [(o & rest & k & scr' & Po & Hk & T' & ->)|[er Po]]; cbn [app] in Po; rewrite Hp in Po; [|discriminate].
      assert (o = r) as -> by congruence. assert (rest = []) as -> by congruence. rewrite skipn_none in T' by assumption. f_equal. now apply IH'.
    + intros ->. eapply (talk_line _ _ _ _ _ _ req q d1 r r [] 0); eauto. cbn [skipn]. now apply IH'.
  - rewrite Forall_app in He. destruct He as [He1 He]. rewrite map_app in E, Hs. rewrite requests_size_app in Hs.
    assert (He1' : Forall (fun x => env_ok (fst x)) hs) by (rewrite List.Forall_map in He1; exact He1). clear He1. rewrite map_map in E, Hs. cbn [snd] in E, Hs. rewrite map_id in E. rewrite run_app in E.
    destruct (run d hs) as [[d1 rs1]| |] eqn:E1; cbn [rbind fst snd] in E; try discriminate.
    destruct (run d1 (map snd h)) as [[d2 rs2]| |] eqn:E2; cbn [rbind fst snd] in E; try discriminate. injection E as -> <-.
    change (fun x : env * robj => snd x) with (@snd env robj) in Hs.
    pose proof (requests_size_nonneg (map snd hs)). pose proof (requests_size_nonneg (map (fun x => snd (snd x)) h)).
    destruct (run_held hs n d s d1 rs1 He1' Hr Hh Hn ltac:(lia) E1) as (s1 & R1 & H1).
    assert (IH' : forall scr', talk d1 [] l scr' <-> scr' = seen h rs2).
    { intros scr'. refine (IH (n + requests_size (map snd hs)) d1 s1 d' rs2 scr' He R1 H1 _ _ E2 (fun r' Hr' => Hc r' (in_or_app _ _ _ (or_intror Hr')))); lia. }
    assert (Es : seen (map (fun x => (false, x)) hs ++ h) (rs1 ++ rs2) = seen h rs2).
    { assert (L : List.length rs1 = List.length hs) by (eapply run_length; eauto). clear - L. revert rs1 L. induction hs as [|x hs IHs]; intros [|r rs1] L; cbn [List.length] in L; try discriminate; [reflexivity|]. apply IHs. now injection L. }
    rewrite Es. split.
    + intros T. inversion T; subst. match goal with X : run d hs = Ret _ |- _ => rewrite E1 in X; injection X as <- <- end. now apply IH'.
    + intros ->. econstructor; [exact E1|]. now apply IH'.
Qed.

(* The message sent before closing is no reply. *)
Lemma close_unread : exists er, parse close_message = PErr er.
Proof. eexists. vm_compute. reflexivity. Qed.

Theorem closed_silent l : forall scr, talk_closed close_message l scr -> scr = [] \/ scr = [Leaves].
Proof.
  destruct close_unread as [er Hp]. induction l as [|x l IH]; intros scr T; inversion T; subst; auto; congruence.
Qed.
Theorem expired_silent d l scr : talk d [] (Expires :: l) scr -> scr = [] \/ scr = [Leaves].
Proof. intros T. inversion T; subst. cbn [app] in *. eapply closed_silent; eauto. Qed.
Theorem expired_leaves d e t l : quits t = false -> talk d [] (Expires :: Typed e t :: l) [Leaves].
Proof. intros Q. destruct close_unread as [er Hp]. constructor. eapply closed_error; eauto. Qed.

Theorem session_new l h d rs scr : asked l h -> Forall (fun x => env_ok (fst (snd x))) h ->
  requests_size (map (fun x => snd (snd x)) h) < 2 ^ 62 -> run new_db (map snd h) = Ret (d, rs) -> (forall r, In (Some r) rs -> clean_text r) ->
  talk new_db [] l scr <-> scr = seen h rs.
Proof. intros Ha He Hs E Hc. refine (session l h Ha 0 new_db empty_sdb d rs scr He new_db_rel held_empty _ _ E Hc); lia. Qed.

(* quit *)
Lemma quits_iff t : quits t = true <-> t = bs "quit" \/ t = bs "QUIT".
Proof. unfold quits. rewrite orb_true_iff, !bytes_eqb_eq. tauto. Qed.
Theorem quit_ends d u e t l scr : t = bs "quit" \/ t = bs "QUIT" -> talk d u (Typed e t :: l) scr <-> scr = [].
Proof. intros Q. apply quits_iff in Q. split; [intros T; inversion T; subst; congruence|intros ->; now constructor]. Qed.
Theorem quit_ends_closed u e t l scr : t = bs "quit" \/ t = bs "QUIT" -> talk_closed u (Typed e t :: l) scr <-> scr = [].
Proof. intros Q. apply quits_iff in Q. split; [intros T; inversion T; subst; try congruence; exfalso; match goal with N : forall e line, _ <> _ |- _ => now eapply N end|intros ->; now constructor]. Qed.
Theorem only_quit d u e t l scr : t <> bs "quit" -> t <> bs "QUIT" -> talk d u (Typed e t :: l) scr -> scr <> [].
Proof. intros N1 N2 T. inversion T; subst; try discriminate. exfalso. match goal with Q : quits t = true |- _ => apply quits_iff in Q as [Q|Q] end; contradiction. Qed.
