(* C101: what the server's answers depend on. *)
From Verif Require Import Base BaseFacts IntSpec Resp Command SpecDb RequestSpec CommandProofs Db DbProofs Engine EngineProofs SpecFacts EngineFacts SizeProofs OrderSpec Recovery RecoverySpec RecoveryProofs OrderProofs DetSpec.
From Coq Require Import ZArith List Lia Permutation.
From stdpp Require Import gmap.
Open Scope Z_scope.

Lemma lists_perm (l l' : list bytes) (X : gset bytes) : lists_set l X -> lists_set l' X -> Permutation l l'.
Proof. intros [N1 H1] [N2 H2]. apply NoDup_Permutation; auto. intros x. now rewrite H1, H2. Qed.
Lemma picks_length (l l' : list bytes) (n : Z) (X : gset bytes) : picks l n X -> picks l' n X -> length l = length l'.
Proof. intros (_ & _ & H1) (_ & _ & H2). lia. Qed.
Lemma pairs_map (h : gmap bytes bytes) (l : list bytes) : flat_map (fun f => [RBulk f; r_opt (h !! f)]) l = pairs (map (fun f => (RBulk f, r_opt (h !! f))) l).
Proof. unfold pairs. induction l as [|f l IH]; [reflexivity|]. cbn. now rewrite IH. Qed.
Definition same_out (c : cmd) (o1 o2 : option (sdb * (robj + cerr))) : Prop :=
  match o1, o2 with
  | Some (s1, inl r1), Some (s2, inl r2) => s1 = s2 /\ alike c r1 r2
  | Some (s1, inr e1), Some (s2, inr e2) => s1 = s2 /\ e1 = e2
  | None, None => True
  | _, _ => False
  end.
Lemma same_out_refl c o : same_out c o o.
Proof. destruct o as [[s [r|e]]|]; cbn; auto. split; [reflexivity|]. now left. Qed.
Lemma sets_alike op s ks c o1 o2 : (match c with CSdiff _ | CSinter _ | CSunion _ => True | _ => False end) -> spec_sets op s ks o1 -> spec_sets op s ks o2 -> same_out c o1 o2.
Proof.
  intros Hc H1 H2. unfold spec_sets in *. destruct (map (set_or_empty s) ks) as [|X Xs]; [rewrite H1, H2; apply same_out_refl|].
  destruct H1 as [[E1 H1]|[N1 (l1 & L1 & H1)]], H2 as [[E2 H2]|[N2 (l2 & L2 & H2)]]; try contradiction; [rewrite H1, H2; apply same_out_refl|]. subst. split; [reflexivity|]. right.
  destruct c; try contradiction; (eexists _, _; split; [reflexivity|]; split; [reflexivity|]; apply Permutation_map; eapply lists_perm; eassumption).
Qed.
Lemma spec_alike (s : sdb) (c : cmd) o1 o2 : (forall k n cs, c <> CSpop k n cs) -> spec s c o1 -> spec s c o2 -> same_out c o1 o2.
Proof.
  intros P H1 H2. destruct (is_modify c) eqn:M; [rewrite (spec_det _ _ _ _ M P H1 H2); apply same_out_refl|].
  destruct c; try discriminate M; cbn [spec] in H1, H2; try (eapply sets_alike; [exact I|eassumption|eassumption]);
    repeat match type of H1 with match ?x with _ => _ end => destruct x eqn:? end; try (rewrite H1, H2; apply same_out_refl).
  - destruct H1 as (l1 & L1 & ->), H2 as (l2 & L2 & ->). split; [reflexivity|]. right. rewrite !pairs_map. eexists _, _. split; [reflexivity|]. split; [reflexivity|]. apply Permutation_map. eapply lists_perm; eassumption.
  - destruct H1 as (l1 & L1 & ->), H2 as (l2 & L2 & ->). split; [reflexivity|]. right. eexists _, _. split; [reflexivity|]. split; [reflexivity|]. apply Permutation_map. eapply lists_perm; eassumption.
  - destruct H1 as (l1 & L1 & ->), H2 as (l2 & L2 & ->). split; [reflexivity|]. right. eexists _, _. split; [reflexivity|]. split; [reflexivity|]. apply Permutation_map. eapply lists_perm; eassumption.
  - destruct H1 as (l1 & L1 & ->), H2 as (l2 & L2 & ->). split; [reflexivity|]. right. eexists _, _. split; [reflexivity|]. split; [reflexivity|]. apply Permutation_map. eapply lists_perm; eassumption.
  - destruct H1 as (l1 & L1 & H1), H2 as (l2 & L2 & H2). pose proof (picks_length _ _ _ _ L1 L2) as L. unfold pick_reply in *. destruct count_set.
    + destruct l1 as [|x1 l1], l2 as [|x2 l2]; try discriminate L; [rewrite H1, H2; apply same_out_refl|]. rewrite H1, H2. split; [reflexivity|]. right. eexists _, _. split; [reflexivity|]. split; [reflexivity|]. now rewrite !map_length.
    + destruct l1 as [|x1 l1], l2 as [|x2 l2]; try discriminate L; [rewrite H1, H2; apply same_out_refl|]. rewrite H1, H2. split; [reflexivity|]. right. eauto.
Qed.
Lemma parts_fun q l l' : parts q l -> parts q l' -> l = l'.
Proof. intros H H'. inversion H; inversion H'; congruence. Qed.
Lemma elsewhere_alike (s : sdb) (q : robj) o1 o2 : (forall c, ~ asks q c) -> answer s q o1 -> answer s q o2 ->
  exists r1 r2, o1 = Some (s, r1) /\ o2 = Some (s, r2) /\ match_reply q r1 r2.
Proof.
  intros N H1 H2. inversion H1; subst; try (match goal with H : asks _ _ |- _ => destruct (N _ H) end); inversion H2; subst; try (match goal with H : asks _ _ |- _ => destruct (N _ H) end);
    try (match goal with H : forall l, ~ parts q l, K : parts q _ |- _ => destruct (H _ K) end); try (match goal with K : parts q _, K' : parts q _ |- _ => pose proof (parts_fun _ _ _ K K'); (discriminate || match goal with E : _ :: _ = _ :: _ |- _ => injection E as <- <- end) end);
    try (match goal with H : forall d, ~ is_str _ d, K : is_str _ _ |- _ => destruct (H _ K) end); try (eexists _, _; split; [reflexivity|]; split; [reflexivity|]; now constructor).
  all: match goal with K : is_str _ _, K' : is_str _ _ |- _ => assert (E : name = name0) by (inversion K; inversion K'; congruence); subst end; exfalso; match goal with H : forall w, w ∈ command_words -> _ |- _ => eapply H; eassumption end.
Qed.
Lemma errors_alike er q r r' : error_text er r -> error_text er r' -> match_reply q (Some r) (Some r').
Proof. intros H H'. destruct er; cbn in *; subst; first [apply m_same|now apply m_internal]. Qed.
Lemma asks_dec (q : robj) : (exists c, asks q c) \/ forall c, ~ asks q c.
Proof.
  assert (P : (exists l, parts q l) \/ forall l, ~ parts q l) by (destruct q; try (right; intros l H; inversion H; fail); left; eexists; constructor). destruct P as [[l P]|P]; [|right; intros c (o & n & w & a & H & _); exact (P _ H)].
  destruct l as [|o args]; [right; intros c (o & n & w & a & H & _); pose proof (parts_fun _ _ _ P H); discriminate|].
  destruct (str_arg o) as [name|] eqn:E.
  - apply str_arg_spec in E. pose proof (new_command_spec name args) as N. destruct (new_command name args) as [c|er] eqn:K.
    + destruct N as (w & Hs & Hc). left. exists c, o, name, w, args. auto.
    + right. intros c (o' & n & w & a & H & Ho & Hs & Hc). pose proof (parts_fun _ _ _ P H) as Q. injection Q as <- <-. assert (name = n) as <- by (inversion E; inversion Ho; congruence). rewrite (call_new_command _ _ _ _ Hs Hc) in K. discriminate.
  - right. intros c (o' & n & w & a & H & Ho & _). pose proof (parts_fun _ _ _ P H) as Q. injection Q as <- <-. apply str_arg_spec in Ho. congruence.
Qed.
Lemma answer_alike (s : sdb) (q : robj) o1 o2 : ~ pops q -> answer s q o1 -> answer s q o2 ->
  match o1, o2 with Some (s1, r1), Some (s2, r2) => s1 = s2 /\ match_reply q r1 r2 | None, None => True | _, _ => False end.
Proof.
  intros Np H1 H2. destruct (asks_dec q) as [[c A]|N].
  - assert (HP : forall k n cs, c <> CSpop k n cs) by (intros k n cs ->; apply Np; exists k, n, cs; exact A).
    pose proof (asks_answer _ _ _ _ A H1) as S1. pose proof (asks_answer _ _ _ _ A H2) as S2.
    destruct o1 as [[s1 [r1|]]|], o2 as [[s2 [r2|]]|]; try contradiction.
    + destruct S1 as [S1|(e1 & S1 & T1)], S2 as [S2|(e2 & S2 & T2)]; pose proof (spec_alike _ _ _ _ HP S1 S2) as Q; cbn in Q; try contradiction; destruct Q as [-> Q]; (split; [reflexivity|]).
      * econstructor; eassumption.
      * subst. eapply errors_alike; eassumption.
    + destruct S1 as [S1|(e1 & S1 & T1)]; pose proof (spec_alike _ _ _ _ HP S1 S2) as Q; exact Q.
    + destruct S2 as [S2|(e2 & S2 & T2)]; pose proof (spec_alike _ _ _ _ HP S1 S2) as Q; exact Q.
    + exact I.
  - destruct (elsewhere_alike _ _ _ _ N H1 H2) as (r1 & r2 & -> & -> & M). auto.
Qed.
Lemma answers_alike (l : list robj) : Forall (fun q => ~ pops q) l -> forall s o1 o2, answers s l o1 -> answers s l o2 ->
  match o1, o2 with Some (s1, rs1), Some (s2, rs2) => s1 = s2 /\ match_replies l rs1 rs2 | None, None => True | _, _ => False end.
Proof.
  induction 1 as [|q l Hq _ IH]; intros s o1 o2 H1 H2.
  - inversion H1; inversion H2; subst. split; [reflexivity|constructor].
  - inversion H1 as [|? ? ? A1|? ? ? s4 r4 s5 rs5 A1 H1'|? ? ? s4 r4 A1 H1']; subst; inversion H2 as [|? ? ? A2|? ? ? s6 r6 s7 rs7 A2 H2'|? ? ? s6 r6 A2 H2']; subst; pose proof (answer_alike _ _ _ _ Hq A1 A2) as Q; cbn in Q; try contradiction; try exact I;
      destruct Q as [<- Q]; specialize (IH _ _ _ H1' H2'); cbn in IH; try contradiction. destruct IH as [-> IH]. split; [reflexivity|]. now constructor.
Qed.
Theorem runs_alike (h h' : list (env * robj)) : Forall (fun x => env_ok (fst x)) h -> Forall (fun x => env_ok (fst x)) h' -> map snd h = map snd h' -> requests_size (map snd h) < 2 ^ 62 -> Forall (fun q => ~ pops q) (map snd h) ->
  match run new_db h, run new_db h' with
  | Ret (d, rs), Ret (d', rs') => (exists s, db_rel d s /\ db_rel d' s) /\ match_replies (map snd h) rs rs'
  | Panic, Panic => True
  | _, _ => False
  end.
Proof.
  intros E1 E2 EQ S P. pose proof (runs_refine h E1 S) as R1. assert (S' := S). rewrite EQ in S'. pose proof (runs_refine h' E2 S') as R2. rewrite <- EQ in R2.
  destruct (run new_db h) as [[d rs]| |], (run new_db h') as [[d' rs']| |]; try contradiction; auto.
  - destruct R1 as (s1 & D1 & _ & A1), R2 as (s2 & D2 & _ & A2). destruct (answers_alike _ P _ _ _ A1 A2) as [<- M]. split; [eauto|exact M].
  - destruct R1 as (s1 & D1 & _ & A1). exact (answers_alike _ P _ _ _ A1 R2).
  - destruct R2 as (s2 & D2 & _ & A2). exact (answers_alike _ P _ _ _ R1 A2).
Qed.
