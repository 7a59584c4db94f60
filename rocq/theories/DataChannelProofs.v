(* Invariants of the data channel. The history of each single call is one of a few fixed
   lists (stage); everything about exactly-once follows from that. *)
From Coq Require Import List Arith Bool Lia.
From Verif Require Import Lts DataChannel.
Import ListNotations.

Section Proofs.
  Context {A : Type}.
  Notation state := (state A). Notation event := (event A). Notation ret := (ret A). Notation op := (op A). Notation pc := (pc A).
  Notation step := (@DataChannel.step A).
  Implicit Types (tr : list event) (s : state).

  Definition about (i : nat) (a : event) : bool :=
    match a with ECall j _ | ERet j _ _ | EPut j _ | ETake j _ => Nat.eqb j i | EPass j k _ => Nat.eqb j i || Nat.eqb k i | EPanic => false end.
  Definition proj (i : nat) tr : list event := filter (about i) tr.
  Lemma proj_snoc i tr a : proj i (tr ++ [a]) = proj i tr ++ (if about i a then [a] else []).
  Proof. unfold proj. rewrite filter_app. reflexivity. Qed.
  Lemma in_proj i tr a : In a (proj i tr) <-> In a tr /\ about i a = true.
  Proof. unfold proj. apply filter_In. Qed.

  Inductive stage (i : nat) : list event -> pc -> Prop :=
  | st_idle : stage i [] PIdle
  | st_send e : stage i [ECall i (OSend e)] (PSend e)
  | st_sent e x : put_of x = [(i, e)] -> stage i [ECall i (OSend e); x] (PRet (OSend e) RSuccess)
  | st_closed e : stage i [ECall i (OSend e)] (PRet (OSend e) RClosed)
  | st_expired e : stage i [ECall i (OSend e)] (PRet (OSend e) RExpired)
  | st_load : stage i [ECall i ORecv] PLoad
  | st_recv : stage i [ECall i ORecv] PRecv
  | st_got e x : take_of x = [(i, e)] -> (forall u, put_of x <> [(i, u)]) -> stage i [ECall i ORecv; x] (PRet ORecv (REvent e))
  | st_err : stage i [ECall i ORecv] (PRet ORecv RErrClosed)
  | st_cas : stage i [ECall i OClose] PCas
  | st_close : stage i [ECall i OClose] PClose
  | st_unit : stage i [ECall i OClose] (PRet OClose RUnit)
  | st_done h o r : stage i h (PRet o r) -> stage i (h ++ [ERet i o r]) PDone.

  Lemma stage_hist i h p : stage i h p ->
    match p with PSend e => h = [ECall i (OSend e)] | PLoad | PRecv => h = [ECall i ORecv] | PCas | PClose => h = [ECall i OClose] | PIdle => h = [] | _ => True end.
  Proof. now destruct 1. Qed.

  Record inv (cap : nat) tr s : Prop := mkInv {
    i_stage : forall i, stage i (proj i tr) (d_pc s i);
    i_buf : map snd (puts tr) = map snd (takes tr) ++ d_buf s;
    i_cap : d_cap s = cap /\ length (d_buf s) <= cap;
    i_flag : d_closed s = true -> d_flag s = true;
    i_close : forall i, d_pc s i = PClose -> d_flag s = true /\ d_closed s = false /\ forall j, d_pc s j = PClose -> j = i;
    i_open : d_flag s = false -> forall i, d_pc s i <> PRet OClose RUnit /\ forall r, ~ In (ERet i OClose r) tr;
    i_late : forall i j r, before tr (ERet j OClose r) (ECall i ORecv) -> d_pc s i <> PRecv /\ forall e, d_pc s i <> PRet ORecv (REvent e);
    i_alive : d_crash s = false /\ ~ In EPanic tr }.

  Lemma inv_init cap : inv cap [] (init cap).
  Proof.
    constructor; cbn; try discriminate; auto; try lia.
    - intros i. constructor.
    - intros _ i. split; [discriminate|auto].
    - intros i j r H. now apply before_in in H as [].
  Qed.
  Ltac dpc i j := destruct (Nat.eq_dec j i) as [->|?]; [rewrite ?(upd_eq _ i)|rewrite ?(upd_ne _ i j) by assumption].

  Lemma stage_frame i j tr a p : j <> i -> about j a = false -> stage j (proj j tr) p -> stage j (proj j (tr ++ [a])) p.
  Proof. intros _ N H. now rewrite proj_snoc, N, app_nil_r. Qed.
  Lemma puts_snoc tr a : puts (tr ++ [a]) = puts tr ++ put_of a.
  Proof. unfold puts. rewrite flat_map_app. cbn. now rewrite app_nil_r. Qed.
  Lemma takes_snoc tr a : takes (tr ++ [a]) = takes tr ++ take_of a.
  Proof. unfold takes. rewrite flat_map_app. cbn. now rewrite app_nil_r. Qed.
  Lemma eqb_ne i j : j <> i -> Nat.eqb i j = false.
  Proof. intros H. apply Nat.eqb_neq. congruence. Qed.

  Lemma step_inv cap tr s l s' : inv cap tr s -> step s l s' -> inv cap (match l with None => tr | Some a => tr ++ [a] end) s'.
  Proof.
    intros I St. pose proof I as [Is Ib [Ic Ic'] If Icl Io Il [Ia Ia']].
    assert (ST : forall i h p, stage i h p -> d_pc s i = p -> True) by auto.
    destruct St; cbn [set_pc].
    1,2,3: (pose proof (Is i) as S1; rewrite H0 in S1; inversion S1 as [S2| | | | | | | | | | | |]; subst;
      constructor; cbn [set_pc d_cap d_buf d_flag d_closed d_pc d_crash]; auto;
      [ intros j; dpc i j; [rewrite proj_snoc, <- S2; cbn; rewrite Nat.eqb_refl; constructor|apply (stage_frame i); [assumption|cbn; now apply eqb_ne|apply Is]]
      | rewrite puts_snoc, takes_snoc; cbn; now rewrite !app_nil_r
      | intros j; dpc i j; [discriminate|]; intros Hj; destruct (Icl j Hj) as (C1 & C2 & C3); repeat split; auto; intros k; dpc i k; [discriminate|auto]
      | intros F j; destruct (Io F j) as [O1 O2]; split; [dpc i j; [discriminate|auto]|intros r Hr; apply in_snoc in Hr as [Hr|Hr]; [now apply O2 in Hr|discriminate]]
      | intros j k r Hb; dpc i j; [split; [discriminate|discriminate]|]; apply before_snoc in Hb as [Hb|[_ Hb]]; [eauto|congruence]
      | split; [exact Ia|]; intros Hp; apply in_snoc in Hp as [Hp|Hp]; [auto|discriminate] ]).
    - (* return *)
      pose proof (Is i) as S1. rewrite H0 in S1.
      constructor; cbn [set_pc d_cap d_buf d_flag d_closed d_pc d_crash]; auto.
      + intros j. dpc i j; [rewrite proj_snoc; cbn; rewrite Nat.eqb_refl; now constructor|apply (stage_frame i); [assumption|cbn; now apply eqb_ne|apply Is]].
      + rewrite puts_snoc, takes_snoc; cbn; now rewrite !app_nil_r.
      + intros j; dpc i j; [discriminate|]; intros Hj; destruct (Icl j Hj) as (C1 & C2 & C3); repeat split; auto; intros k; dpc i k; [discriminate|auto].
      + intros F j. destruct (Io F j) as [O1 O2]. split; [dpc i j; [discriminate|auto]|]. intros r' Hr. apply in_snoc in Hr as [Hr|Hr]; [now apply O2 in Hr|].
        inversion Hr; subst. inversion S1; subst; destruct (Io F i) as [O _]; contradiction.
      + intros j k r' Hb. dpc i j; [split; [discriminate|discriminate]|]. apply before_snoc in Hb as [Hb|[_ Hb]]; [eauto|congruence].
      + split; [exact Ia|]; intros Hp; apply in_snoc in Hp as [Hp|Hp]; [auto|discriminate].
    - (* send finds it closed *)
      pose proof (Is i) as S1. rewrite H0 in S1. apply stage_hist in S1; cbn in S1.
      constructor; cbn [set_pc d_cap d_buf d_flag d_closed d_pc d_crash]; auto.
      + intros j. dpc i j; [rewrite S1; constructor|apply Is].
      + intros j; dpc i j; [discriminate|]; intros Hj; destruct (Icl j Hj) as (C1 & C2 & C3); repeat split; auto; intros k; dpc i k; [discriminate|auto].
      + intros F j. destruct (Io F j) as [O1 O2]. split; [dpc i j; [discriminate|auto]|auto].
      + intros j k r' Hb. dpc i j; [split; discriminate|eauto].
    - (* send expires *)
      pose proof (Is i) as S1. rewrite H0 in S1. apply stage_hist in S1; cbn in S1.
      constructor; cbn [set_pc d_cap d_buf d_flag d_closed d_pc d_crash]; auto.
      + intros j. dpc i j; [rewrite S1; constructor|apply Is].
      + intros j; dpc i j; [discriminate|]; intros Hj; destruct (Icl j Hj) as (C1 & C2 & C3); repeat split; auto; intros k; dpc i k; [discriminate|auto].
      + intros F j. destruct (Io F j) as [O1 O2]. split; [dpc i j; [discriminate|auto]|auto].
      + intros j k r' Hb. dpc i j; [split; discriminate|eauto].
    - (* put *)
      pose proof (Is i) as S1. rewrite H0 in S1. apply stage_hist in S1; cbn in S1.
      constructor; cbn [set_pc d_cap d_buf d_flag d_closed d_pc d_crash]; auto.
      + intros j. dpc i j; [rewrite proj_snoc; cbn; rewrite Nat.eqb_refl, S1; now apply st_sent|apply (stage_frame i); [assumption|cbn; now apply eqb_ne|apply Is]].
      + rewrite puts_snoc, takes_snoc. cbn. rewrite app_nil_r, map_app, Ib. cbn. now rewrite app_assoc.
      + rewrite app_length. cbn. lia.
      + intros j; dpc i j; [discriminate|]; intros Hj; destruct (Icl j Hj) as (C1 & C2 & C3); repeat split; auto; intros k; dpc i k; [discriminate|auto].
      + intros F j. destruct (Io F j) as [O1 O2]. split; [dpc i j; [discriminate|auto]|]. intros r' Hr. apply in_snoc in Hr as [Hr|Hr]; [now apply O2 in Hr|discriminate].
      + intros j k r' Hb. dpc i j; [split; discriminate|]. apply before_snoc in Hb as [Hb|[_ Hb]]; [eauto|congruence].
      + split; [reflexivity|]; intros Hp; apply in_snoc in Hp as [Hp|Hp]; [auto|discriminate].
    - (* pass *)
      assert (N : j <> i) by congruence.
      pose proof (Is i) as S1. rewrite H0 in S1. apply stage_hist in S1; cbn in S1. pose proof (Is j) as S2. rewrite H1 in S2. apply stage_hist in S2; cbn in S2.
      assert (B0 : d_buf s = []) by (destruct (d_buf s); [reflexivity|cbn in Ic'; lia]).
      constructor; cbn [set_pc d_cap d_buf d_flag d_closed d_pc d_crash]; auto.
      + intros k. dpc j k.
        * rewrite proj_snoc. cbn. rewrite Nat.eqb_refl, orb_true_r, S2. apply st_got; [reflexivity|]. intros u. cbn. congruence.
        * dpc i k; [rewrite proj_snoc; cbn; rewrite Nat.eqb_refl, S1; now apply st_sent|].
          rewrite proj_snoc. cbn. rewrite !eqb_ne by assumption. cbn. rewrite app_nil_r. apply Is.
      + rewrite puts_snoc, takes_snoc. cbn. rewrite !map_app, Ib, B0. cbn. now rewrite !app_nil_r.
      + intros k. dpc j k; [discriminate|]. dpc i k; [discriminate|]. intros Hk. destruct (Icl k Hk) as (C1 & C2 & C3). repeat split; auto.
        intros m. dpc j m; [discriminate|]. dpc i m; [discriminate|auto].
      + intros F k. destruct (Io F k) as [O1 O2]. split; [dpc j k; [discriminate|]; dpc i k; [discriminate|auto]|]. intros r' Hr. apply in_snoc in Hr as [Hr|Hr]; [now apply O2 in Hr|discriminate].
      + intros k m r' Hb. apply before_snoc in Hb as [Hb|[_ Hb]]; [|discriminate]. destruct (Il _ _ _ Hb) as [L1 L2].
        dpc j k; [contradiction|]. dpc i k; [split; discriminate|auto].
      + split; [exact Ia|]; intros Hp; apply in_snoc in Hp as [Hp|Hp]; [auto|discriminate].
    - (* receive finds it closed *)
      pose proof (Is i) as S1. rewrite H0 in S1. apply stage_hist in S1; cbn in S1.
      constructor; cbn [set_pc d_cap d_buf d_flag d_closed d_pc d_crash]; auto.
      + intros j. dpc i j; [rewrite S1; constructor|apply Is].
      + intros j; dpc i j; [discriminate|]; intros Hj; destruct (Icl j Hj) as (C1 & C2 & C3); repeat split; auto; intros k; dpc i k; [discriminate|auto].
      + intros F j. congruence.
      + intros j k r' Hb. dpc i j; [split; discriminate|eauto].
    - (* receive goes on to wait *)
      pose proof (Is i) as S1. rewrite H0 in S1. apply stage_hist in S1; cbn in S1.
      constructor; cbn [set_pc d_cap d_buf d_flag d_closed d_pc d_crash]; auto.
      + intros j. dpc i j; [rewrite S1; constructor|apply Is].
      + intros j; dpc i j; [discriminate|]; intros Hj; destruct (Icl j Hj) as (C1 & C2 & C3); repeat split; auto; intros k; dpc i k; [discriminate|auto].
      + intros F j. destruct (Io F j) as [O1 O2]. split; [dpc i j; [discriminate|auto]|auto].
      + intros j k r' Hb. dpc i j; [|eauto]. apply before_in in Hb as [Hb _]. exfalso. now apply (proj2 (Io H1 k)) in Hb.
    - (* take *)
      pose proof (Is i) as S1. rewrite H0 in S1. apply stage_hist in S1; cbn in S1.
      constructor; cbn [set_pc d_cap d_buf d_flag d_closed d_pc d_crash]; auto.
      + intros j. dpc i j; [rewrite proj_snoc; cbn; rewrite Nat.eqb_refl, S1; apply st_got; [reflexivity|discriminate]|apply (stage_frame i); [assumption|cbn; now apply eqb_ne|apply Is]].
      + rewrite puts_snoc, takes_snoc. cbn. rewrite app_nil_r, map_app, Ib, H1. cbn. now rewrite <- app_assoc.
      + rewrite H1 in Ic'. cbn in Ic'. split; [exact Ic|lia].
      + intros j; dpc i j; [discriminate|]; intros Hj; destruct (Icl j Hj) as (C1 & C2 & C3); repeat split; auto; intros k; dpc i k; [discriminate|auto].
      + intros F j. destruct (Io F j) as [O1 O2]. split; [dpc i j; [discriminate|auto]|]. intros r' Hr. apply in_snoc in Hr as [Hr|Hr]; [now apply O2 in Hr|discriminate].
      + intros j k r' Hb. apply before_snoc in Hb as [Hb|[_ Hb]]; [|discriminate]. destruct (Il _ _ _ Hb) as [L1 L2]. dpc i j; [contradiction|auto].
      + split; [reflexivity|]; intros Hp; apply in_snoc in Hp as [Hp|Hp]; [auto|discriminate].
    - (* first close: the swap *)
      pose proof (Is i) as S1. rewrite H0 in S1. apply stage_hist in S1; cbn in S1.
      assert (NC : forall j, d_pc s j <> PClose) by (intros j Hj; destruct (Icl j Hj); congruence).
      constructor; cbn [set_pc d_cap d_buf d_flag d_closed d_pc d_crash]; auto; try discriminate.
      + intros j. dpc i j; [rewrite S1; constructor|apply Is].
      + intros j. dpc i j; [|intros Hj; now apply NC in Hj]. intros _. split; [reflexivity|]. split; [destruct (d_closed s); [rewrite If in H1 by reflexivity; discriminate|reflexivity]|].
        intros k. dpc i k; [auto|intros Hk; now apply NC in Hk].
      + intros j k r' Hb. dpc i j; [split; discriminate|eauto].
    - (* second close: the swap fails *)
      pose proof (Is i) as S1. rewrite H0 in S1. apply stage_hist in S1; cbn in S1.
      constructor; cbn [set_pc d_cap d_buf d_flag d_closed d_pc d_crash]; auto; try congruence.
      + intros j. dpc i j; [rewrite S1; constructor|apply Is].
      + intros j; dpc i j; [discriminate|]; intros Hj; destruct (Icl j Hj) as (C1 & C2 & C3); repeat split; auto; intros k; dpc i k; [discriminate|auto].
      + intros j k r' Hb. dpc i j; [split; discriminate|eauto].
    - (* the close *)
      pose proof (Is i) as S1. rewrite H0 in S1. apply stage_hist in S1; cbn in S1. destruct (Icl i H0) as (C1 & C2 & C3).
      constructor; cbn [set_pc d_cap d_buf d_flag d_closed d_pc d_crash]; auto; try congruence.
      + intros j. dpc i j; [rewrite S1; constructor|apply Is].
      + intros j. dpc i j; [discriminate|]. intros Hj. now apply C3 in Hj.
      + intros j k r' Hb. dpc i j; [split; discriminate|eauto].
    - (* close of a closed channel: impossible *)
      destruct (Icl i H0) as (C1 & C2 & C3). congruence.
  Qed.

  Lemma runs_inv cap tr s : runs cap tr s -> inv cap tr s.
  Proof.
    intros H. eapply (exec_inv step); [apply inv_init| | |exact H].
    - intros ? ? ? I St. exact (step_inv _ _ _ _ _ I St).
    - intros ? ? ? ? I St. exact (step_inv _ _ _ _ _ I St).
  Qed.

  Lemma stage_ret i h p o r : stage i h p -> In (ERet i o r) h -> p = PDone /\ exists h', h = h' ++ [ERet i o r] /\ stage i h' (PRet o r).
  Proof.
    intros S1 Hin. destruct S1; cbn in Hin; try (decompose [or] Hin; try discriminate; try contradiction; fail).
    - destruct Hin as [Hin|[Hin|[]]]; [discriminate|]. subst x. discriminate.
    - destruct Hin as [Hin|[Hin|[]]]; [discriminate|]. subst x. discriminate.
    - split; [reflexivity|]. apply in_snoc in Hin as [Hin|Hin].
      + exfalso. inversion S1; subst; cbn in Hin; try (decompose [or] Hin; try discriminate; try contradiction; fail);
        (destruct Hin as [Hin|[Hin|[]]]; [discriminate|]; subst x; discriminate).
      + inversion Hin; subst. exists h. auto.
  Qed.
  Lemma returned cap tr s i o r : runs cap tr s -> In (ERet i o r) tr -> d_pc s i = PDone /\ exists h, proj i tr = h ++ [ERet i o r] /\ stage i h (PRet o r).
  Proof.
    intros H Hin. apply (stage_ret i (proj i tr) (d_pc s i)); [apply (i_stage _ _ _ (runs_inv _ _ _ H))|].
    apply in_proj. cbn. now rewrite Nat.eqb_refl.
  Qed.
  Lemma stage_call i h p o : stage i h p -> In (ECall i o) h -> exists h', h = ECall i o :: h'.
  Proof.
    intros S1 Hin. revert Hin. induction S1; cbn; intros Hin; try contradiction; try (destruct Hin as [<-|[]]; eauto; fail).
    - destruct Hin as [<-|[->|[]]]; [eauto|discriminate].
    - destruct Hin as [<-|[->|[]]]; [eauto|discriminate].
    - apply in_snoc in Hin as [Hin|Hin]; [|discriminate]. destruct (IHS1 Hin) as [h' ->]. cbn. eauto.
  Qed.
  Theorem called_once cap tr s i o o' : runs cap tr s -> In (ECall i o) tr -> In (ECall i o') tr -> o = o'.
  Proof.
    intros H A1 A2. pose proof (i_stage _ _ _ (runs_inv _ _ _ H) i) as S1.
    assert (P : forall o, In (ECall i o) tr -> In (ECall i o) (proj i tr)) by (intros; apply in_proj; cbn; now rewrite Nat.eqb_refl).
    destruct (stage_call _ _ _ _ S1 (P _ A1)) as [h1 E1]. destruct (stage_call _ _ _ _ S1 (P _ A2)) as [h2 E2]. congruence.
  Qed.

  Lemma in_puts tr i e : In (i, e) (puts tr) <-> exists x, In x tr /\ put_of x = [(i, e)].
  Proof.
    unfold puts. rewrite in_flat_map. split; intros (x & Hx & P); exists x; (split; [exact Hx|]).
    - destruct x; cbn in *; try contradiction; destruct P as [P|[]]; congruence.
    - rewrite P. now left.
  Qed.
  Lemma in_takes tr i e : In (i, e) (takes tr) <-> exists x, In x tr /\ take_of x = [(i, e)].
  Proof.
    unfold takes. rewrite in_flat_map. split; intros (x & Hx & P); exists x; (split; [exact Hx|]).
    - destruct x; cbn in *; try contradiction; destruct P as [P|[]]; congruence.
    - rewrite P. now left.
  Qed.
  Lemma put_about x i e : put_of x = [(i, e)] -> about i x = true.
  Proof. destruct x; cbn; try discriminate; intros P; inversion P; subst; now rewrite Nat.eqb_refl. Qed.
  Lemma take_about x i e : take_of x = [(i, e)] -> about i x = true.
  Proof. destruct x; cbn; try discriminate; intros P; inversion P; subst; rewrite Nat.eqb_refl; [reflexivity|apply orb_true_r]. Qed.
  Lemma puts_proj tr i e : In (i, e) (puts tr) <-> exists x, In x (proj i tr) /\ put_of x = [(i, e)].
  Proof.
    rewrite in_puts. split; intros (x & Hx & P); exists x; (split; [|exact P]).
    - apply in_proj. split; [exact Hx|]. eapply put_about; eauto.
    - now apply in_proj in Hx.
  Qed.
  Lemma takes_proj tr i e : In (i, e) (takes tr) <-> exists x, In x (proj i tr) /\ take_of x = [(i, e)].
  Proof.
    rewrite in_takes. split; intros (x & Hx & P); exists x; (split; [|exact P]).
    - apply in_proj. split; [exact Hx|]. eapply take_about; eauto.
    - now apply in_proj in Hx.
  Qed.
  (* what the stages say about puts and takes *)
  Lemma stage_put i h p x e : stage i h p -> In x h -> put_of x = [(i, e)] ->
    exists h', h = [ECall i (OSend e); x] ++ h' /\ (p = PRet (OSend e) RSuccess \/ p = PDone).
  Proof.
    intros S1 Hin P. revert Hin. induction S1; cbn; intros Hin; try contradiction; try (destruct Hin as [<-|[]]; discriminate).
    - destruct Hin as [<-|[->|[]]]; [discriminate|]. exists []. rewrite P in H. inversion H; subst. auto.
    - destruct Hin as [<-|[->|[]]]; [discriminate|]. now apply H0 in P.
    - apply in_snoc in Hin as [Hin|Hin]; [|subst x; discriminate]. destruct (IHS1 Hin) as (h' & -> & [E|E]); [|discriminate].
      exists (h' ++ [ERet i o r]). split; [reflexivity|auto].
  Qed.
  Lemma stage_take i h p x e : stage i h p -> In x h -> take_of x = [(i, e)] ->
    (exists h', h = [ECall i ORecv; x] ++ h' /\ (p = PRet ORecv (REvent e) \/ p = PDone)) \/ (exists u h', h = [ECall i (OSend u); x] ++ h' /\ put_of x = [(i, u)]).
  Proof.
    intros S1 Hin P. revert Hin. induction S1; cbn; intros Hin; try contradiction; try (destruct Hin as [<-|[]]; discriminate).
    - destruct Hin as [<-|[->|[]]]; [discriminate|]. right. exists e0, []. auto.
    - destruct Hin as [<-|[->|[]]]; [discriminate|]. left. exists []. split; [auto|]. rewrite P in H. inversion H; subst. auto.
    - apply in_snoc in Hin as [Hin|Hin]; [|subst x; discriminate]. destruct (IHS1 Hin) as [(h' & -> & [E|E])|(u & h' & -> & E)]; [|discriminate|].
      + left. exists (h' ++ [ERet i o r]). split; [reflexivity|auto].
      + right. exists u, (h' ++ [ERet i o r]). split; [reflexivity|auto].
  Qed.
  Lemma no_self cap tr s i j e : runs cap tr s -> In (EPass i j e) tr -> i <> j.
  Proof.
    intros H Hin. apply in_split in Hin as (pre & post & ->). apply exec_split in H as (s1 & s2 & _ & St & _). inversion St; subst. congruence.
  Qed.

  (* Each send is accepted at most once, each receive gets at most one event. *)
  Theorem put_once cap tr s : runs cap tr s -> NoDup (map fst (puts tr)) /\ NoDup (map fst (takes tr)).
  Proof.
    intros H. induction H as [|tr s1 s2 H IH St|tr s1 a s2 H IH St]; [split; constructor|exact IH|].
    destruct IH as [IH1 IH2]. pose proof (runs_inv _ _ _ H) as I.
    assert (NP : forall i, d_pc s1 i <> PDone -> (forall e, d_pc s1 i <> PRet (OSend e) RSuccess) -> ~ In i (map fst (puts tr))).
    { intros i N1 N2 Hi. apply in_map_iff in Hi as ([k e] & E & Hi). cbn in E. subst k. apply puts_proj in Hi as (x & Hx & P).
      destruct (stage_put _ _ _ _ _ (i_stage _ _ _ I i) Hx P) as (h' & _ & [E|E]); [now apply N2 in E|contradiction]. }
    assert (NT : forall i, d_pc s1 i = PRecv -> ~ In i (map fst (takes tr))).
    { intros i N1 Hi. apply in_map_iff in Hi as ([k e] & E & Hi). cbn in E. subst k. apply takes_proj in Hi as (x & Hx & P).
      pose proof (i_stage _ _ _ I i) as S1. destruct (stage_take _ _ _ _ _ S1 Hx P) as [(h' & _ & [E|E])|(u & h' & E & _)]; try congruence.
      rewrite N1 in S1. apply stage_hist in S1. rewrite S1 in E. discriminate. }
    assert (ND : forall l x, NoDup l -> ~ In x l -> NoDup (l ++ [x : nat])).
    { intros l x N Hx. apply NoDup_rev in N. rewrite <- (rev_involutive (l ++ [x])), rev_app_distr. apply NoDup_rev. cbn. constructor; [now rewrite <- in_rev|exact N]. }
    rewrite puts_snoc, takes_snoc, !map_app. inversion St; subst; cbn; rewrite ?app_nil_r; try (split; [exact IH1|exact IH2]).
    - split; [|exact IH2]. apply ND; [exact IH1|]. apply NP; congruence.
    - split; (apply ND; [assumption|]); [apply NP; congruence|now apply NT].
    - split; [exact IH1|]. apply ND; [exact IH2|]. now apply NT.
  Qed.

  (* What the result of a call says. *)
  Theorem send_result cap tr s i e r : runs cap tr s -> In (ERet i (OSend e) r) tr ->
    (r = RSuccess /\ In (i, e) (puts tr)) \/ ((r = RClosed \/ r = RExpired) /\ forall u, ~ In (i, u) (puts tr)).
  Proof.
    intros H Hin. destruct (returned _ _ _ _ _ _ H Hin) as (_ & h & E & S1). inversion S1; subst.
    - left. split; [reflexivity|]. apply puts_proj. exists x. rewrite E. split; [apply in_snoc; left; cbn; auto|assumption].
    - right. split; [auto|]. intros u Hu. apply puts_proj in Hu as (x & Hx & P). rewrite E in Hx. cbn in Hx. destruct Hx as [<-|[<-|[]]]; discriminate.
    - right. split; [auto|]. intros u Hu. apply puts_proj in Hu as (x & Hx & P). rewrite E in Hx. cbn in Hx. destruct Hx as [<-|[<-|[]]]; discriminate.
  Qed.
  Theorem recv_result cap tr s j r : runs cap tr s -> In (ERet j ORecv r) tr ->
    (exists e, r = REvent e /\ In (j, e) (takes tr)) \/ (r = RErrClosed /\ forall u, ~ In (j, u) (takes tr)).
  Proof.
    intros H Hin. destruct (returned _ _ _ _ _ _ H Hin) as (_ & h & E & S1). inversion S1; subst.
    - left. exists e. split; [reflexivity|]. apply takes_proj. exists x. rewrite E. split; [apply in_snoc; left; cbn; auto|assumption].
    - right. split; [auto|]. intros u Hu. apply takes_proj in Hu as (x & Hx & P). rewrite E in Hx. cbn in Hx. destruct Hx as [<-|[<-|[]]]; discriminate.
  Qed.
  Theorem put_called cap tr s i e : runs cap tr s -> In (i, e) (puts tr) -> In (ECall i (OSend e)) tr.
  Proof.
    intros H Hin. apply puts_proj in Hin as (x & Hx & P). destruct (stage_put _ _ _ _ _ (i_stage _ _ _ (runs_inv _ _ _ H) i) Hx P) as (h' & E & _).
    apply (in_proj i). rewrite E. now left.
  Qed.
  (* Accepted events are handed over in the order accepted; what is not yet handed over is in the buffer. *)
  Theorem fifo cap tr s : runs cap tr s -> map snd (puts tr) = map snd (takes tr) ++ d_buf s /\ length (d_buf s) <= cap.
  Proof. intros H. destruct (runs_inv _ _ _ H) as [_ Ib [_ Ic] _ _ _ _ _]. auto. Qed.

  Lemma puts_app (t1 t2 : list event) : puts (t1 ++ t2) = puts t1 ++ puts t2.
  Proof. unfold puts. apply flat_map_app. Qed.
  Lemma takes_app (t1 t2 : list event) : takes (t1 ++ t2) = takes t1 ++ takes t2.
  Proof. unfold takes. apply flat_map_app. Qed.
  (* Events put by a send that returned were put before that; a call not made has put nothing. *)
  Lemma put_order cap tr s i a j b : runs cap tr s -> before tr (ERet i (OSend a) RSuccess) (ECall j (OSend b)) ->
    exists p q, puts tr = p ++ q /\ In (i, a) p /\ (forall u, ~ In (j, u) p).
  Proof.
    intros H B. apply before_cut in B as (pre & post & -> & Hi). exists (puts pre), (puts (ECall j (OSend b) :: post)).
    split; [apply puts_app|]. apply exec_split in H as (s1 & s2 & R & St & _). split.
    - destruct (send_result _ _ _ _ _ _ R Hi) as [[_ P]|[[?|?] _]]; [exact P|discriminate|discriminate].
    - intros u Hu. apply puts_proj in Hu as (x & Hx & P). pose proof (i_stage _ _ _ (runs_inv _ _ _ R) j) as S1. inversion St; subst.
      match goal with Q : d_pc s1 j = _ |- _ => rewrite Q in S1 end. apply stage_hist in S1. rewrite S1 in Hx. contradiction.
  Qed.
  Lemma take_order cap tr s i a j : runs cap tr s -> before tr (ERet i ORecv (REvent a)) (ECall j ORecv) ->
    exists p q, takes tr = p ++ q /\ In (i, a) p /\ (forall u, ~ In (j, u) p).
  Proof.
    intros H B. apply before_cut in B as (pre & post & -> & Hi). exists (takes pre), (takes (ECall j ORecv :: post)).
    split; [apply takes_app|]. apply exec_split in H as (s1 & s2 & R & St & _). split.
    - destruct (recv_result _ _ _ _ _ R Hi) as [(e & E & P)|[E _]]; [|discriminate]. now inversion E.
    - intros u Hu. apply takes_proj in Hu as (x & Hx & P). pose proof (i_stage _ _ _ (runs_inv _ _ _ R) j) as S1. inversion St; subst.
      match goal with Q : d_pc s1 j = _ |- _ => rewrite Q in S1 end. apply stage_hist in S1. rewrite S1 in Hx. contradiction.
  Qed.
  (* If only call i sends a, then a stands at one place among the accepted events. *)
  Lemma sent_once cap tr s a i : runs cap tr s -> (forall k, In (ECall k (OSend a)) tr -> k = i) ->
    forall m n, nth_error (map snd (puts tr)) m = Some a -> nth_error (map snd (puts tr)) n = Some a -> m = n.
  Proof.
    intros H U m n Hm Hn. assert (Q : forall k, nth_error (map snd (puts tr)) k = Some a -> nth_error (map fst (puts tr)) k = Some i).
    { intros k Hk. rewrite nth_error_map in Hk. destruct (nth_error (puts tr) k) as [[c e]|] eqn:E; [|discriminate]. cbn in Hk. inversion Hk; subst.
      rewrite nth_error_map, E. cbn. f_equal. apply U. eapply put_called; [exact H|]. eapply nth_error_In; eauto. }
    apply Q in Hm, Hn. destruct (put_once _ _ _ H) as [N _]. rewrite NoDup_nth_error in N. apply N; [|congruence].
    apply nth_error_Some. congruence.
  Qed.
  (* Order as a caller sees it. *)
  Theorem fifo_seen cap tr s i a j b k l : runs cap tr s ->
    (forall c, In (ECall c (OSend a)) tr -> c = i) -> (forall c, In (ECall c (OSend b)) tr -> c = j) ->
    before tr (ERet i (OSend a) RSuccess) (ECall j (OSend b)) -> before tr (ERet k ORecv (REvent b)) (ECall l ORecv) -> ~ In (ERet l ORecv (REvent a)) tr.
  Proof.
    intros H Ua Ub B1 B2 Hl.
    destruct (put_order _ _ _ _ _ _ _ H B1) as (p & q & E1 & Ha & Nb). destruct (take_order _ _ _ _ _ _ H B2) as (p' & q' & E2 & Hb & Nl).
    destruct (recv_result _ _ _ _ _ H Hl) as [(e & E & Hl')|[E _]]; [|discriminate]. inversion E; subst e.
    destruct (fifo _ _ _ H) as [F _].
    assert (X1 : exists na, nth_error (map snd (puts tr)) na = Some a /\ na < length p).
    { apply in_split in Ha as (x & y & ->). exists (length x). rewrite E1, !map_app. cbn. rewrite <- app_assoc. cbn.
      rewrite nth_error_app2 by (rewrite map_length; lia). rewrite map_length, Nat.sub_diag, app_length. cbn. split; [reflexivity|lia]. }
    assert (X2 : exists nb, nth_error (map snd (puts tr)) nb = Some b /\ nb < length p').
    { apply in_split in Hb as (x & y & ->). exists (length x). rewrite F, E2, !map_app. cbn. rewrite <- !app_assoc. cbn.
      rewrite nth_error_app2 by (rewrite map_length; lia). rewrite map_length, Nat.sub_diag, app_length. cbn. split; [reflexivity|lia]. }
    assert (X3 : exists na, nth_error (map snd (puts tr)) na = Some a /\ length p' <= na).
    { rewrite E2 in Hl'. apply in_app_iff in Hl' as [Hl'|Hl']; [now apply Nl in Hl'|]. apply in_split in Hl' as (x & y & ->). exists (length p' + length x). split; [|lia].
      rewrite F, E2, !map_app, <- !app_assoc. rewrite nth_error_app2 by (rewrite map_length; lia). rewrite map_length.
      replace (length p' + length x - length p') with (length x) by lia. rewrite nth_error_app2 by (rewrite map_length; lia). rewrite map_length, Nat.sub_diag. reflexivity. }
    assert (X4 : forall nb, nth_error (map snd (puts tr)) nb = Some b -> length p <= nb).
    { intros nb Hn. destruct (le_lt_dec (length p) nb) as [|Lt]; [assumption|]. exfalso. rewrite E1, map_app, nth_error_app1 in Hn by (rewrite map_length; lia).
      rewrite nth_error_map in Hn. destruct (nth_error p nb) as [[c e]|] eqn:En; [|discriminate]. cbn in Hn. inversion Hn; subst e. apply nth_error_In in En.
      assert (c = j) as ->; [|now apply Nb in En]. apply Ub. eapply put_called; [exact H|]. rewrite E1. apply in_app_iff. now left. }
    destruct X1 as (na & A1 & A2), X2 as (nb & B3 & B4), X3 as (na' & A3 & A4). pose proof (sent_once _ _ _ _ _ H Ua _ _ A1 A3). subst na'. specialize (X4 _ B3). lia.
  Qed.
  (* An event sent by one call is received by at most one call. *)
  Theorem received_once cap tr s i a k l : runs cap tr s -> (forall c, In (ECall c (OSend a)) tr -> c = i) ->
    In (ERet k ORecv (REvent a)) tr -> In (ERet l ORecv (REvent a)) tr -> k = l.
  Proof.
    intros H U Hk Hl. destruct (recv_result _ _ _ _ _ H Hk) as [(e & E & Tk)|[E _]]; [|discriminate]. inversion E; subst e. clear E.
    destruct (recv_result _ _ _ _ _ H Hl) as [(e & E & Tl)|[E _]]; [|discriminate]. inversion E; subst e. clear E.
    destruct (fifo _ _ _ H) as [F _].
    assert (Q : forall c, In (c, a) (takes tr) -> exists n, nth_error (takes tr) n = Some (c, a) /\ nth_error (map snd (puts tr)) n = Some a).
    { intros c Hc. apply In_nth_error in Hc as [n Hn]. exists n. split; [exact Hn|]. rewrite F, nth_error_app1; [rewrite nth_error_map, Hn; reflexivity|].
      rewrite map_length. apply nth_error_Some. congruence. }
    destruct (Q _ Tk) as (n & N1 & N2), (Q _ Tl) as (m & M1 & M2). pose proof (sent_once _ _ _ _ _ H U _ _ N2 M2). subst m. congruence.
  Qed.
  (* A received event was sent, by a call that did not report failure. *)
  Theorem received_sent cap tr s k a : runs cap tr s -> In (ERet k ORecv (REvent a)) tr ->
    exists i, In (ECall i (OSend a)) tr /\ forall r, In (ERet i (OSend a) r) tr -> r = RSuccess.
  Proof.
    intros H Hk. destruct (recv_result _ _ _ _ _ H Hk) as [(e & E & Tk)|[E _]]; [|discriminate]. inversion E; subst e. clear E.
    destruct (fifo _ _ _ H) as [F _].
    assert (Hp : In a (map snd (puts tr))) by (rewrite F; apply in_app_iff; left; apply in_map_iff; exists (k, a); auto).
    apply in_map_iff in Hp as ([i e] & E & Hp). cbn in E. subst e. exists i. split; [eapply put_called; eauto|].
    intros r Hr. destruct (send_result _ _ _ _ _ _ H Hr) as [[-> _]|[_ N]]; [reflexivity|now apply N in Hp].
  Qed.
  (* Without a buffer, a successful send means the event was handed over. *)
  Theorem unbuffered tr s i a : runs 0 tr s -> In (ERet i (OSend a) RSuccess) tr -> exists j, In (j, a) (takes tr) /\ In (ECall j ORecv) tr.
  Proof.
    intros H Hi. destruct (send_result _ _ _ _ _ _ H Hi) as [[_ P]|[[?|?] _]]; try discriminate. destruct (fifo _ _ _ H) as [F L].
    assert (d_buf s = []) as B by (destruct (d_buf s); [reflexivity|cbn in L; lia]). rewrite B, app_nil_r in F.
    assert (Hp : In a (map snd (takes tr))) by (rewrite <- F; apply in_map_iff; exists (i, a); auto).
    apply in_map_iff in Hp as ([j e] & E & Hp). cbn in E. subst e. exists j. split; [exact Hp|].
    apply takes_proj in Hp as (x & Hx & T). destruct (stage_take _ _ _ _ _ (i_stage _ _ _ (runs_inv _ _ _ H) j) Hx T) as [(h' & E & _)|(u & h' & E & E2)].
    - apply (in_proj j). rewrite E. now left.
    - apply in_proj in Hx as [Hx _]. destruct x; try discriminate. cbn in T, E2. inversion T; inversion E2; subst. exfalso. eapply (no_self _ _ _ _ _ _ H); eauto.
  Qed.

  (* ---- closing ---- *)
  Theorem never_crashes cap tr s : runs cap tr s -> ~ In EPanic tr.
  Proof. intros H. exact (proj2 (i_alive _ _ _ (runs_inv _ _ _ H))). Qed.
  Lemma not_called cap tr s k o v : runs cap (tr ++ ECall k o :: v) s -> ~ In (ECall k o) tr.
  Proof.
    intros H Hin. apply exec_split in H as (s1 & s2 & R & St & _). pose proof (i_stage _ _ _ (runs_inv _ _ _ R) k) as S1.
    assert (Z : In (ECall k o) (proj k tr)) by (apply in_proj; cbn; now rewrite Nat.eqb_refl).
    inversion St; subst; match goal with Q : d_pc s1 k = _ |- _ => rewrite Q in S1 end; apply stage_hist in S1; rewrite S1 in Z; contradiction.
  Qed.
  Lemma split_len (x x' y y' : list event) c : x ++ c :: y = x' ++ c :: y' -> length x < length x' -> In c x'.
  Proof.
    revert x'. induction x as [|z x IH]; intros [|z' x'] E L; cbn in *; try lia; inversion E; subst; [now left|right; apply IH; auto; lia].
  Qed.
  Lemma before_pre cap pre post s a k o : runs cap (pre ++ post) s -> before (pre ++ post) a (ECall k o) -> In (ECall k o) pre -> before pre a (ECall k o).
  Proof.
    intros H B Hin. apply before_cut in B as (x & y & E & Ha). apply in_split in Hin as (x' & y' & ->).
    pose proof H as H'. rewrite E in H'. apply not_called in H'. pose proof H as H2. rewrite <- app_assoc in H2. cbn in H2. apply not_called in H2.
    rewrite <- app_assoc in E. cbn in E.
    assert (L : length x = length x').
    { destruct (lt_eq_lt_dec (length x) (length x')) as [[L|L]|L]; [|exact L|].
      - exfalso. apply H2. exact (split_len _ _ _ _ _ (eq_sym E) L).
      - exfalso. apply H'. exact (split_len _ _ _ _ _ E L). }
    assert (x = x') as ->. { clear -E L. revert x' E L. induction x as [|z x IH]; intros [|z' x'] E L; cbn in *; try lia; [reflexivity|]. inversion E; subst. f_equal. apply IH; auto. }
    apply in_split in Ha as (a1 & a2 & ->). exists a1, a2, y'. now rewrite <- app_assoc.
  Qed.
  Theorem recv_after_close cap tr s c u k r : runs cap tr s -> before tr (ERet c OClose u) (ECall k ORecv) -> In (ERet k ORecv r) tr -> r = RErrClosed.
  Proof.
    intros H B Hr. apply in_split in Hr as (pre & post & E). subst tr. pose proof H as H'. apply exec_split in H as (s1 & s2 & R & St & _). pose proof (runs_inv _ _ _ R) as I.
    pose proof (i_stage _ _ _ I k) as S1. inversion St; subst.
    match goal with Q : d_pc s1 k = _ |- _ => rename Q into P end. rewrite P in S1.
    assert (B' : before pre (ERet c OClose u) (ECall k ORecv)).
    { destruct (stage_hist _ _ _ S1). assert (Hc : In (ECall k ORecv) (proj k pre)) by (inversion S1; subst; now left).
      apply in_proj in Hc as [Hc _].
      exact (before_pre _ _ _ _ _ _ _ H' B Hc). }
    destruct (i_late _ _ _ I _ _ _ B') as [_ L]. inversion S1; subst; [exfalso; eapply L; eassumption|reflexivity].
  Qed.
  Lemma closed_flag cap tr s c u : runs cap tr s -> In (ERet c OClose u) tr -> d_flag s = true.
  Proof.
    intros H Hc. destruct (d_flag s) eqn:F; [reflexivity|]. exfalso. now apply (proj2 (i_open _ _ _ (runs_inv _ _ _ H) F c)) in Hc.
  Qed.
  Lemma called_stage cap tr s i o : runs cap tr s -> In (ECall i o) tr -> (forall r, ~ In (ERet i o r) tr) ->
    match o with OSend e => d_pc s i = PSend e | ORecv => d_pc s i = PLoad \/ d_pc s i = PRecv | OClose => d_pc s i = PCas \/ d_pc s i = PClose end \/ exists r, d_pc s i = PRet o r.
  Proof.
    intros H Hc Hr. pose proof (i_stage _ _ _ (runs_inv _ _ _ H) i) as S1.
    assert (Q : In (ECall i o) (proj i tr)) by (apply in_proj; cbn; now rewrite Nat.eqb_refl).
    destruct (stage_call _ _ _ _ S1 Q) as [h' E]. rewrite E in S1. inversion S1; subst; eauto.
    exfalso. assert (Z : o0 = o).
    { match goal with K : stage i h (PRet o0 r) |- _ => inversion K; subst end; cbn in *; congruence. }
    subst o0. apply (Hr r). apply (in_proj i). rewrite E. rewrite <- H0. apply in_snoc. auto.
  Qed.
  (* Send and Close always can return; so can Receive once the channel is closed or an event is there, unless it already waits. *)
  Theorem send_can_return cap tr s i e : runs cap tr s -> In (ECall i (OSend e)) tr -> (forall r, ~ In (ERet i (OSend e) r) tr) -> exists r s', runs cap (tr ++ [ERet i (OSend e) r]) s'.
  Proof.
    intros H Hc Hr. destruct (i_alive _ _ _ (runs_inv _ _ _ H)) as [Al _]. destruct (called_stage _ _ _ _ _ H Hc Hr) as [P|[r P]].
    - exists RExpired. eexists. eapply exec_app; [exact H|]. eapply exec_cons_tau; [apply (s_expired _ i e); auto|]. apply exec_one, c_ret; [exact Al|apply upd_eq].
    - exists r. eexists. eapply exec_app; [exact H|]. apply exec_one, c_ret; [exact Al|exact P].
  Qed.
  Theorem close_can_return cap tr s i : runs cap tr s -> In (ECall i OClose) tr -> (forall r, ~ In (ERet i OClose r) tr) -> exists r s', runs cap (tr ++ [ERet i OClose r]) s'.
  Proof.
    intros H Hc Hr. destruct (runs_inv _ _ _ H) as [_ _ _ If Icl _ _ [Al _]]. destruct (called_stage _ _ _ _ _ H Hc Hr) as [[P|P]|[r P]].
    - destruct (d_flag s) eqn:F.
      + exists RUnit. eexists. eapply exec_app; [exact H|]. eapply exec_cons_tau; [apply x_again; eauto|]. apply exec_one, c_ret; [exact Al|apply upd_eq].
      + assert (C : d_closed s = false) by (destruct (d_closed s); [specialize (If eq_refl); discriminate|reflexivity]).
        exists RUnit. eexists. eapply exec_app; [exact H|]. eapply exec_cons_tau; [apply (x_first s i); eauto|].
        eapply exec_cons_tau; [apply x_close; [reflexivity|apply upd_eq|exact C]|]. apply exec_one, c_ret; [reflexivity|apply upd_eq].
    - destruct (Icl i P) as (_ & C & _). exists RUnit. eexists. eapply exec_app; [exact H|]. eapply exec_cons_tau; [apply (x_close s i); eauto|]. apply exec_one, c_ret; [reflexivity|apply upd_eq].
    - exists r. eexists. eapply exec_app; [exact H|]. apply exec_one, c_ret; [exact Al|exact P].
  Qed.
  (* A receiver that already waits on a closed, empty channel waits until somebody sends again. *)
  Theorem blocked cap tr s k : runs cap tr s -> d_pc s k = PRecv -> d_buf s = [] -> (forall i e, d_pc s i <> PSend e) ->
    forall tr' s', exec step s tr' s' -> (forall i e, ~ In (ECall i (OSend e)) tr') -> forall r, ~ In (ERet k ORecv r) tr'.
  Proof.
    intros _ P B N tr' s' H Hn.
    assert (G : d_pc s' k = PRecv /\ d_buf s' = [] /\ (forall i e, d_pc s' i <> PSend e) /\ forall r, ~ In (ERet k ORecv r) tr'); [|tauto].
    induction H as [|tr' s1 s2 H IH St|tr' s1 a s2 H IH St]; [repeat split; auto| |].
    - destruct (IH Hn) as (P1 & B1 & N1 & R1).
      inversion St; subst; cbn; repeat split; auto; try (rewrite upd_ne; [exact P1|congruence]); intros j e'; (destruct (Nat.eq_dec j i) as [->|?]; [rewrite upd_eq; discriminate|rewrite upd_ne by assumption; apply N1]).
    - destruct IH as (P1 & B1 & N1 & R1); [intros i e Hi; apply (Hn i e), in_snoc; auto|].
      inversion St; subst; cbn;
        try (exfalso; eapply N1; eassumption);
        try (exfalso; apply (Hn i e), in_snoc; now right);
        try congruence;
        (repeat split; [rewrite ?upd_ne by congruence; exact P1|exact B1|intros j e'; try (destruct (Nat.eq_dec j i) as [->|?]; [rewrite upd_eq; discriminate|rewrite upd_ne by assumption]); apply N1
          |intros r' Hr; apply in_snoc in Hr as [Hr|Hr]; [now apply R1 in Hr|try discriminate]]).
      inversion Hr; subst. congruence.
  Qed.
  (* Without a buffer, a send that succeeds after Close met a receive called before Close returned. *)
  Theorem send_after_close tr s c u i a : runs 0 tr s -> before tr (ERet c OClose u) (ECall i (OSend a)) -> In (ERet i (OSend a) RSuccess) tr ->
    exists k, In (k, a) (takes tr) /\ before tr (ECall k ORecv) (ERet c OClose u).
  Proof.
    intros H B Hi. destruct (send_result _ _ _ _ _ _ H Hi) as [[_ P]|[[?|?] _]]; try discriminate.
    apply in_puts in P as (x & Hx & P). apply in_split in Hx as (pre & post & ->). pose proof H as H'. apply exec_split in H as (s1 & s2 & R & St & X).
    pose proof (runs_inv _ _ _ R) as I. destruct x as [| |i' e'| |i' k e'|]; try discriminate.
    - exfalso. inversion St; subst. destruct (i_cap _ _ _ I) as [Z1 Z2]. lia.
    - cbn in P. inversion P; subst i' e'. inversion St; subst. match goal with Q : d_pc s1 k = _ |- _ => rename Q into Pk end.
      pose proof (i_stage _ _ _ I k) as S1. rewrite Pk in S1. apply stage_hist in S1.
      match goal with Q : d_pc s1 i = _ |- _ => rename Q into Pi end. pose proof (i_stage _ _ _ I i) as S2. rewrite Pi in S2. apply stage_hist in S2.
      exists k. split; [apply in_takes; eexists; split; [apply in_app_iff; right; left; reflexivity|reflexivity]|].
      (* Close returned before i was called, hence within pre *)
      assert (Hc : In (ERet c OClose u) pre).
      { assert (Hci : In (ECall i (OSend a)) pre) by (apply (in_proj i); rewrite S2; now left).
        exact (proj1 (before_in _ _ _ (before_pre _ _ _ _ _ _ _ H' B Hci))). }
      assert (Hk : In (ECall k ORecv) pre) by (apply (in_proj k); rewrite S1; now left).
      apply in_split in Hk as (y1 & z1 & ->). apply in_app_iff in Hc as [Hc|[Hc|Hc]]; [|discriminate|].
      + exfalso. apply in_split in Hc as (y2 & z2 & ->). apply (proj1 (i_late _ _ _ I k c u ltac:(exists y2, z2, z1; now rewrite <- app_assoc))). exact Pk.
      + apply in_split in Hc as (y2 & z2 & ->). exists y1, y2, (z2 ++ EPass i k a :: post). rewrite <- !app_assoc. cbn. now rewrite <- !app_assoc.
  Qed.

  (* A channel is closed only by a call of Close. *)
  Definition closing (tr : list event) (s : state) : Prop :=
    d_flag s = true \/ d_closed s = true \/ (exists i e, d_pc s i = PRet (OSend e) RClosed) \/ (exists i e, In (ERet i (OSend e) RClosed) tr) \/ (exists i, d_pc s i = PCas \/ d_pc s i = PClose).
  Definition marks (p : pc) : bool := match p with PRet (OSend _) RClosed | PCas | PClose => true | _ => false end.
  Lemma closing_frame tr s l s' : closing (match l with None => tr | Some a => tr ++ [a] end) s' ->
    d_flag s' = d_flag s -> d_closed s' = d_closed s -> (forall i, marks (d_pc s' i) = true -> d_pc s' i = d_pc s i) ->
    (forall i e, l <> Some (ERet i (OSend e) RClosed)) -> closing tr s.
  Proof.
    intros [H|[H|[(i & e & H)|[(i & e & H)|(i & H)]]]] Ef Ec Ep Er.
    - left. congruence.
    - right. left. congruence.
    - right. right. left. exists i, e. rewrite <- Ep; [exact H|]. now rewrite H.
    - right. right. right. left. exists i, e. destruct l; [|exact H]. apply in_snoc in H as [H|H]; [exact H|]. exfalso. apply (Er i e). now rewrite H.
    - right. right. right. right. exists i. rewrite <- Ep; [exact H|]. destruct H as [H|H]; now rewrite H.
  Qed.
  Lemma closing_step tr s l s' : step s l s' -> closing (match l with None => tr | Some a => tr ++ [a] end) s' -> closing tr s \/ exists i, l = Some (ECall i OClose).
  Proof.
    assert (U : forall (f : nat -> pc) k p i, marks p = false -> marks (upd f k p i) = true -> upd f k p i = f i).
    { intros f k p i M M'. destruct (Nat.eq_dec i k) as [->|N]; [rewrite upd_eq in M'; congruence|now rewrite upd_ne]. }
    intros St H. pose proof (closing_frame tr s l s' H) as Fr. destruct St as [s i e|s i|s i|s i o r|s i e|s i e|s i e|s i j e|s i|s i|s i e b|s i|s i|s i|s i];
      try (left; apply Fr; try reflexivity; cbn [set_pc d_pc]; [intros k; now apply U|intros ? ?; discriminate]).
    - right. eauto.
    - destruct o as [e| |]; [destruct r|..]; try (left; apply Fr; try reflexivity; cbn [set_pc d_pc]; [intros k; now apply U|intros ? ?; discriminate]).
      left. right. right. left. eauto.
    - left. right. left. assumption.
    - left. apply Fr; try reflexivity; cbn [set_pc d_pc]; [|intros ? ?; discriminate].
      intros k M. rewrite (U _ j) in M |- *; [now apply U|reflexivity|exact M|reflexivity|].
      destruct (Nat.eq_dec k j) as [->|N]; [rewrite upd_eq in M|rewrite (upd_ne _ j k) in M by exact N; rewrite upd_ne by exact N]; [discriminate|exact M].
    - left. right. right. right. right. eauto.
    - left. right. right. right. right. eauto.
    - left. right. left. assumption.
  Qed.
  Lemma closed_called cap tr s : runs cap tr s -> closing tr s -> exists j, In (ECall j OClose) tr.
  Proof.
    revert tr s. apply (exec_inv step (fun tr s => closing tr s -> exists j, In (ECall j OClose) tr) (init cap)).
    - intros [H|[H|[(i & e & H)|[(i & e & [])|(i & [H|H])]]]]; discriminate.
    - intros tr s s' IH St H. destruct (closing_step tr s None s' St H) as [X|[i X]]; [auto|discriminate].
    - intros tr s a s' IH St H. destruct (closing_step tr s (Some a) s' St H) as [X|[i X]].
      + destruct (IH X) as [j Hj]. exists j. apply in_snoc. auto.
      + injection X as ->. exists i. apply in_snoc. auto.
  Qed.
End Proofs.
