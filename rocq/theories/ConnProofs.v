(* Invariants of the connection model. *)
From Coq Require Import List Arith Bool Lia.
From Verif Require Import Base Lts Conn.
Import ListNotations.

Definition about (i : nat) (a : event) : bool := match a with ECall j _ | ERet j _ _ | EOut j _ | EWin j => Nat.eqb j i | _ => false end.
Definition proj (i : nat) (tr : list event) : list event := filter (about i) tr.
Lemma in_proj i tr a : In a (proj i tr) <-> In a tr /\ about i a = true.
Proof. apply filter_In. Qed.
Definition ext (tr : list event) (l : option event) : list event := match l with None => tr | Some a => tr ++ [a] end.
Lemma ext_in tr l a : In a tr -> In a (ext tr l).
Proof. destruct l; cbn; auto. intros. apply in_snoc. auto. Qed.
Lemma ext_inv tr l a : In a (ext tr l) -> In a tr \/ l = Some a.
Proof. destruct l; cbn; auto. intros H. apply in_snoc in H as [H| ->]; auto. Qed.
Lemma proj_ext i tr l : proj i (ext tr l) = proj i tr ++ match l with Some a => if about i a then [a] else [] | None => [] end.
Proof. destruct l; cbn; [|now rewrite app_nil_r]. unfold proj. rewrite filter_app. reflexivity. Qed.

(* how a call of Close starts, from outside or inside *)
Definition pre (i : nat) (x : bool) : list event := if x then [ECall i OClose] else [].
(* what call i has done when it is about to return r from o *)
Definition at_ret (i : nat) (o : op) (r : ret) (h : list event) : Prop :=
  match o with
  | ORead => h = [ECall i ORead]
  | OWrite b => (h = [ECall i (OWrite b)] /\ r <> ROk) \/ (h = [ECall i (OWrite b); EOut i b] /\ r = ROk) \/ (exists p, prefix_of p b /\ h = [ECall i (OWrite b); EOut i p] /\ r = RErr)
  | OClose => (h = [ECall i OClose] /\ r = RErrClosed) \/ (exists p, h = [ECall i OClose; EWin i; EOut i p] /\ r = ROk)
  end.
Definition stage (i : nat) (h : list event) (p : pc) : Prop :=
  match p with
  | PIdle | PLoop | PChk => h = []
  | PResetR | PReading => h = [ECall i ORead]
  | PChkW b | PResetW b | PWriting b => h = [ECall i (OWrite b)]
  | PRet o r => at_ret i o r h
  | PCas x => h = pre i x
  | PMsg x => h = pre i x ++ [EWin i]
  | PTcp x | PChan x => exists p, h = pre i x ++ [EWin i; EOut i p]
  | PDone => h = [] \/ (exists p, h = [EWin i; EOut i p]) \/ exists o r h', h = h' ++ [ERet i o r] /\ at_ret i o r h'
  end.

Definition winner (tr : list event) : Prop := exists i, In (EWin i) tr.
Record inv (tr : list event) (s : state) : Prop := mkInv {
  i_stage : forall i, stage i (proj i tr) (c_pc s i);
  i_flag : c_flag s = true <-> winner tr;
  i_one : forall i j, In (EWin i) tr -> In (EWin j) tr -> i = j;
  i_lost : forall i, c_pc s i = PRet OClose RErrClosed -> winner tr;
  i_lost' : forall i, In (ERet i OClose RErrClosed) tr -> winner tr;
  i_tcp : forall i x, c_pc s i = PChan x -> c_tcp s = false;
  i_chan : c_chan s = true -> c_tcp s = false /\ winner tr /\ forall i x, c_pc s i <> PMsg x /\ c_pc s i <> PTcp x /\ c_pc s i <> PChan x;
  i_won : forall i, c_pc s i = PRet OClose ROk -> c_chan s = true;
  i_won' : forall i, In (ERet i OClose ROk) tr -> c_chan s = true;
  i_worker : c_pc s 0 = PLoop \/ winner tr \/ In ETimer tr;
  i_alive : c_crash s = false /\ ~ In EPanic tr }.

Ltac dupd i j := destruct (Nat.eq_dec j i) as [->|?]; [rewrite ?(upd_eq _ i)|rewrite ?(upd_ne _ i j) by assumption].
Lemma eqb_ne i j : j <> i -> Nat.eqb i j = false.
Proof. intros H. apply Nat.eqb_neq. congruence. Qed.
Lemma stage_win i h p : stage i h p -> (exists x, p = PMsg x \/ p = PTcp x \/ p = PChan x) -> In (EWin i) h.
Proof.
  intros S1 (x & [->|[->| ->]]); cbn in S1; [rewrite S1|destruct S1 as [p ->]|destruct S1 as [p ->]]; apply in_app_iff; right; now left.
Qed.
Lemma in_about i tr a : In a (proj i tr) -> In a tr.
Proof. intros H. now apply in_proj in H. Qed.

Ltac st I i := let Q := fresh "S1" in pose proof (i_stage _ _ I i) as Q; match goal with P : c_pc _ i = _ |- _ => rewrite P in Q end; cbn [stage] in Q.
Lemma stage_step tr s l s' i : inv tr s -> step s l s' -> stage i (proj i (ext tr l)) (c_pc s' i).
Proof.
  intros I St. rewrite proj_ext. destruct St as [s k o|s k o r|s k|s k b|s|s|s k|s k|s k j|s k|s k b|s k b|s k b p|s k b|s k x|s k x|s k x p|s k x|s k x|s k x]; cbn [set_pc c_pc about];
    rewrite ?app_nil_r; try (dupd k i; [|rewrite ?eqb_ne, ?app_nil_r by assumption; apply (i_stage _ _ I)]; st I k; rewrite ?Nat.eqb_refl).
  - rewrite S1. destruct o; reflexivity.
  - cbn. right. right. eauto.
  - exact S1.
  - exact S1.
  - dupd 0 i; [|apply (i_stage _ _ I)]. st I 0. now left.
  - dupd 0 i; [|apply (i_stage _ _ I)]. st I 0. exact S1.
  - exact S1.
  - exact S1.
  - dupd j i; [st I j; exact S1|]. dupd k i; [|apply (i_stage _ _ I)]. st I k. exact S1.
  - destruct (c_flag s); cbn; [now left|exact S1].
  - destruct (c_flag s); cbn; [left; split; [exact S1|discriminate]|exact S1].
  - rewrite S1. cbn. auto.
  - rewrite S1. cbn. right. right. eauto.
  - cbn. left. split; [exact S1|discriminate].
  - rewrite S1. reflexivity.
  - destruct x; cbn; auto.
  - rewrite S1. rewrite <- app_assoc. cbn. eauto.
  - exact S1.
  - destruct S1 as [p S1]. destruct x; cbn; rewrite S1; cbn; eauto.
  - apply (i_stage _ _ I).
Qed.
Lemma inv_init : inv [] init.
Proof.
  constructor; cbn; try discriminate; try contradiction; auto.
  - intros [|i]; reflexivity.
  - split; [discriminate|]. intros [i []].
  - intros [|i]; discriminate.
  - intros [|i]; discriminate.
  - intros [|i]; discriminate.
Qed.
Lemma winner_ext tr l : winner tr -> winner (ext tr l).
Proof. intros [i H]. exists i. now apply ext_in. Qed.
Lemma winner_old tr l : (forall i, l <> Some (EWin i)) -> winner (ext tr l) -> winner tr.
Proof. intros N [i H]. exists i. apply ext_inv in H as [H|H]; [exact H|]. exfalso. exact (N i H). Qed.
(* steps that neither decide a close nor return one *)
Lemma inv_frame tr s l s' : inv tr s -> step s l s' -> (forall i, l <> Some (EWin i)) -> (forall i r, l <> Some (ERet i OClose r)) -> l <> Some EPanic ->
  c_flag s' = c_flag s -> c_tcp s' = c_tcp s -> c_chan s' = c_chan s -> c_crash s' = false ->
  (forall i, c_pc s' i = c_pc s i \/ ((forall x, c_pc s' i <> PMsg x /\ c_pc s' i <> PTcp x /\ c_pc s' i <> PChan x) /\ c_pc s' i <> PRet OClose ROk /\ (c_pc s' i = PRet OClose RErrClosed -> c_flag s = true))) ->
  (c_pc s' 0 = c_pc s 0 \/ winner tr \/ In ETimer (ext tr l)) -> inv (ext tr l) s'.
Proof.
  intros I St N1 N2 N3 Ef Et Ec Ek Ep E0. destruct I as [Is If Io Il Il' It Ic Iw Iw' Ik Ia] eqn:EI. clear EI.
  assert (W : winner (ext tr l) <-> winner tr) by (split; [apply winner_old; assumption|apply winner_ext]).
  constructor.
  - intros i. eapply stage_step; eauto.
  - now rewrite Ef, W.
  - intros i j H H'. apply ext_inv in H as [H|H]; [|exfalso; exact (N1 _ H)]. apply ext_inv in H' as [H'|H']; [|exfalso; exact (N1 _ H')]. auto.
  - intros i H. apply W. destruct (Ep i) as [E|(_ & _ & E)]; [apply (Il i); congruence|]. apply If. auto.
  - intros i H. apply W. apply ext_inv in H as [H|H]; [eauto|exfalso; exact (N2 _ _ H)].
  - intros i x H. rewrite Et. destruct (Ep i) as [E|(E & _)]; [apply (It i x); congruence|]. destruct (E x) as (_ & _ & E'). contradiction.
  - rewrite Ec, Et. intros H. destruct (Ic H) as (A & B & C). split; [exact A|]. split; [now apply W|]. intros i x. destruct (Ep i) as [->|(E & _)]; auto.
  - intros i H. rewrite Ec. destruct (Ep i) as [E|(_ & E & _)]; [apply (Iw i); congruence|contradiction].
  - intros i H. rewrite Ec. apply ext_inv in H as [H|H]; [eauto|exfalso; exact (N2 _ _ H)].
  - destruct E0 as [->|[E0|E0]]; [|right; left; now apply W|auto]. destruct Ik as [K|[K|K]]; [auto|right; left; now apply W|right; right; now apply ext_in].
  - split; [exact Ek|]. intros H. apply ext_inv in H as [H|H]; [now apply Ia|contradiction].
Qed.
Lemma won_pc x : won x = PRet OClose ROk \/ won x = PDone. Proof. destruct x; auto. Qed.
Lemma lost_pc x : lost x = PRet OClose RErrClosed \/ lost x = PDone. Proof. destruct x; auto. Qed.
Lemma closing_unique tr s i j : inv tr s -> (exists x, c_pc s i = PMsg x \/ c_pc s i = PTcp x \/ c_pc s i = PChan x) -> (exists x, c_pc s j = PMsg x \/ c_pc s j = PTcp x \/ c_pc s j = PChan x) -> i = j.
Proof.
  intros I Hi Hj. apply (i_one _ _ I); eapply in_about; eapply stage_win; try apply (i_stage _ _ I); assumption.
Qed.
Lemma closing_wins tr s i : inv tr s -> (exists x, c_pc s i = PMsg x \/ c_pc s i = PTcp x \/ c_pc s i = PChan x) -> winner tr.
Proof. intros I Hi. exists i. eapply in_about; eapply stage_win; [apply (i_stage _ _ I)|assumption]. Qed.
Lemma worker_loop tr s i : inv tr s -> c_pc s i <> PLoop -> i = 0 -> winner tr \/ In ETimer tr.
Proof. intros I N ->. destruct (i_worker _ _ I); [contradiction|assumption]. Qed.

Lemma step_inv tr s l s' : inv tr s -> step s l s' -> inv (ext tr l) s'.
Proof.
  intros I St. pose proof St as St0.
  assert (W0 : forall k p, c_pc s k = p -> p <> PLoop -> c_pc s' 0 = c_pc s 0 \/ k = 0 -> c_pc s' 0 = c_pc s 0 \/ winner tr \/ In ETimer (ext tr l)).
  { intros k p E N [Q|Q]; [auto|]. destruct (worker_loop tr s k I) as [X|X]; [congruence|exact Q|auto|right; right; now apply ext_in]. }
  assert (U0 : forall k p, upd (c_pc s) k p 0 = c_pc s 0 \/ k = 0) by (intros k p; destruct (Nat.eq_dec 0 k) as [<-|]; [auto|left; now rewrite upd_ne]).
  destruct St as [s k o|s k o r|s k|s k b|s|s|s k|s k|s k j|s k|s k b|s k b|s k b p|s k b|s k x|s k x|s k x p|s k x|s k x|s k x].
  1,3,4,7,8,10,11,12,13,14,16: (apply (inv_frame tr s _ _ I St0); try discriminate; try reflexivity; try exact H; try (intros; discriminate);
    [cbn [set_pc c_pc]; intros i; dupd k i; [right|now left]|cbn [set_pc c_pc]; eapply (W0 k); [eassumption|discriminate|apply U0]];
    try (repeat split; discriminate)).
  - destruct o; cbn; repeat split; discriminate.
  - destruct (c_flag s); repeat split; discriminate.
  - destruct (c_flag s); repeat split; discriminate.
  - destruct x; cbn; repeat split; try discriminate. intros _. exact H1.
  - (* return *) st I k. destruct o as [|b|].
    1,2: (apply (inv_frame tr s _ _ I St0); try discriminate; try reflexivity; try exact H; try (intros; discriminate);
      [cbn [set_pc c_pc]; intros i; dupd k i; [right; repeat split; discriminate|now left]|cbn [set_pc c_pc]; eapply (W0 k); [eassumption|discriminate|apply U0]]).
    assert (W : winner (ext tr (Some (ERet k OClose r))) <-> winner tr) by (split; [apply winner_old; discriminate|apply winner_ext]).
    pose proof I as [Is If Io Il Il' It Ic Iw Iw' Ik Ia]. constructor; cbn [set_pc c_flag c_tcp c_chan c_pc c_crash].
    + intros i. exact (stage_step _ _ _ _ i I St0).
    + now rewrite W.
    + intros i j Q Q'. apply ext_inv in Q as [Q|Q]; [|discriminate]. apply ext_inv in Q' as [Q'|Q']; [auto|discriminate].
    + intros i. dupd k i; [discriminate|]. intros Q. apply W. eauto.
    + intros i Q. apply W. apply ext_inv in Q as [Q|Q]; [eauto|]. inversion Q; subst. eauto.
    + intros i x. dupd k i; [discriminate|]. apply It.
    + intros Q. destruct (Ic Q) as (A & B & C). split; [exact A|]. split; [now apply W|]. intros i x. dupd k i; [repeat split; discriminate|apply C].
    + intros i. dupd k i; [discriminate|apply Iw].
    + intros i Q. apply ext_inv in Q as [Q|Q]; [eauto|]. inversion Q; subst. eauto.
    + specialize (W0 k _ H0 ltac:(discriminate)). destruct (W0 (U0 k PDone)) as [X|[X|X]]; [cbn [set_pc c_pc] in X; rewrite X|right; left; now apply W|auto].
      destruct Ik as [K|[K|K]]; [auto|right; left; now apply W|right; right; now apply ext_in].
    + split; [exact H|]. intros Q. apply ext_inv in Q as [Q|Q]; [now apply Ia|discriminate].
  - (* worker sees closeChan *) apply (inv_frame tr s _ _ I St0); try discriminate; try reflexivity; try exact H; try (intros; discriminate).
    + cbn [set_pc c_pc]. intros i. dupd 0 i; [right; repeat split; discriminate|now left].
    + right. left. now apply (i_chan _ _ I).
  - (* timer *) apply (inv_frame tr s _ _ I St0); try discriminate; try reflexivity; try exact H; try (intros; discriminate).
    + cbn [set_pc c_pc]. intros i. dupd 0 i; [right; repeat split; discriminate|now left].
    + right. right. apply in_snoc. auto.
  - (* end of stream *) apply (inv_frame tr s _ _ I St0); try discriminate; try reflexivity; try exact H; try (intros; discriminate).
    + cbn [set_pc c_pc]. intros i. dupd j i; [right; repeat split; discriminate|]. dupd k i; [right; repeat split; discriminate|now left].
    + cbn [set_pc c_pc]. destruct (Nat.eq_dec 0 j) as [<-|Nj].
      * eapply (W0 0); [exact H1|discriminate|auto].
      * eapply (W0 k); [exact H0|discriminate|]. cbn [set_pc c_pc]. rewrite (upd_ne _ j 0) by assumption. apply U0.
  - (* win *) st I k. pose proof I as [Is If Io Il Il' It Ic Iw Iw' Ik Ia].
    assert (NW : ~ winner tr) by (intros Q; apply If in Q; congruence).
    assert (W : winner (ext tr (Some (EWin k)))) by (exists k; apply in_snoc; auto).
    assert (Cf : c_chan s = false) by (destruct (c_chan s); [exfalso; apply NW; now apply Ic|reflexivity]).
    constructor; cbn [set_pc c_flag c_tcp c_chan c_pc c_crash].
    + intros i. exact (stage_step _ _ _ _ i I St0).
    + split; auto.
    + intros i j Q Q'. apply ext_inv in Q as [Q|Q]; [exfalso; apply NW; exists i; exact Q|]. apply ext_inv in Q' as [Q'|Q']; [exfalso; apply NW; exists j; exact Q'|]. congruence.
    + auto.
    + auto.
    + intros i y. dupd k i; [discriminate|apply It].
    + congruence.
    + intros i. dupd k i; [discriminate|apply Iw].
    + intros i Q. apply ext_inv in Q as [Q|Q]; [eauto|discriminate].
    + auto.
    + split; [reflexivity|]. intros Q. apply ext_inv in Q as [Q|Q]; [now apply Ia|discriminate].
  - (* message *) st I k. pose proof I as [Is If Io Il Il' It Ic Iw Iw' Ik Ia].
    assert (Wk : winner tr) by (apply (closing_wins tr s k I); eauto).
    assert (W : winner (ext tr (Some (EOut k p)))) by now apply winner_ext.
    constructor; cbn [set_pc c_flag c_tcp c_chan c_pc c_crash]; auto.
    + intros i. exact (stage_step _ _ _ _ i I St0).
    + split; auto. intros _. now apply If.
    + intros i j Q Q'. apply ext_inv in Q as [Q|Q]; [|discriminate]. apply ext_inv in Q' as [Q'|Q']; [auto|discriminate].
    + intros i y. dupd k i; [discriminate|apply It].
    + intros Q. destruct (Ic Q) as (_ & _ & C). exfalso. destruct (C k x) as (C1 & _). congruence.
    + intros i. dupd k i; [discriminate|apply Iw].
    + intros i Q. apply ext_inv in Q as [Q|Q]; [eauto|discriminate].
    + split; [exact H|]. intros Q. apply ext_inv in Q as [Q|Q]; [now apply Ia|discriminate].
  - (* tcp closed *) st I k. pose proof I as [Is If Io Il Il' It Ic Iw Iw' Ik Ia].
    assert (Wk : winner tr) by (apply (closing_wins tr s k I); eauto).
    constructor; cbn [set_pc c_flag c_tcp c_chan c_pc c_crash ext]; auto.
    + intros i. exact (stage_step _ _ _ _ i I St0).
    + intros Q. destruct (Ic Q) as (_ & _ & C). exfalso. destruct (C k x) as (_ & C1 & _). congruence.
    + intros i. dupd k i; [discriminate|apply Iw].
    + tauto.
  - (* closeChan closed *) st I k. pose proof I as [Is If Io Il Il' It Ic Iw Iw' Ik Ia].
    assert (Wk : winner tr) by (apply (closing_wins tr s k I); eauto).
    assert (Tk : c_tcp s = false) by eauto.
    constructor; cbn [set_pc c_flag c_tcp c_chan c_pc c_crash ext]; auto.
    + intros i. exact (stage_step _ _ _ _ i I St0).
    + intros _. split; [exact Tk|]. split; [exact Wk|]. intros i y. dupd k i; [destruct x; repeat split; discriminate|].
      repeat split; intros Q; (assert (i = k) by (apply (closing_unique tr s); eauto 6)); contradiction.
    + tauto.
  - (* panic *) exfalso. destruct (i_chan _ _ I H1) as (_ & _ & C). destruct (C k x) as (_ & _ & C1). congruence.
Qed.
Lemma runs_inv tr s : runs tr s -> inv tr s.
Proof.
  intros H. eapply (exec_inv step); [apply inv_init| | |exact H].
  - intros ? ? ? I St. exact (step_inv _ _ _ _ I St).
  - intros ? ? ? ? I St. exact (step_inv _ _ _ _ I St).
Qed.

(* ---- theorems ---- *)
Theorem no_panic tr s : runs tr s -> ~ In EPanic tr.
Proof. intros H. apply (i_alive _ _ (runs_inv _ _ H)). Qed.
Lemma ret_stage tr s i o r : runs tr s -> In (ERet i o r) tr -> exists h, proj i tr = h ++ [ERet i o r] /\ at_ret i o r h.
Proof.
  intros H Hin. pose proof (i_stage _ _ (runs_inv _ _ H) i) as S1.
  assert (Z : In (ERet i o r) (proj i tr)) by (apply in_proj; cbn; now rewrite Nat.eqb_refl).
  assert (A : forall o' r' h, at_ret i o' r' h -> ~ In (ERet i o r) h).
  { intros o' r' h A Hh. destruct o' as [|b|]; cbn in A; [subst h| |].
    - cbn in Hh. intuition discriminate.
    - destruct A as [[-> _]|[[-> _]|(p & _ & -> & _)]]; cbn in Hh; intuition discriminate.
    - destruct A as [[-> _]|(p & -> & _)]; cbn in Hh; intuition discriminate. }
  destruct (c_pc s i) as [| | | | | | | |x|x|x|x|o' r'|]; cbn in S1; try (rewrite S1 in Z; cbn in Z; intuition discriminate).
  - destruct x; rewrite S1 in Z; cbn in Z; intuition discriminate.
  - destruct x; rewrite S1 in Z; cbn in Z; intuition discriminate.
  - destruct S1 as [p S1]; destruct x; rewrite S1 in Z; cbn in Z; intuition discriminate.
  - destruct S1 as [p S1]; destruct x; rewrite S1 in Z; cbn in Z; intuition discriminate.
  - exfalso. exact (A _ _ _ S1 Z).
  - destruct S1 as [S1|[(p & S1)|(o' & r' & h & S1 & A')]].
    + rewrite S1 in Z. contradiction.
    + rewrite S1 in Z. cbn in Z. intuition discriminate.
    + rewrite S1 in Z. apply in_snoc in Z as [Z|Z]; [exfalso; exact (A _ _ _ A' Z)|]. inversion Z; subst. eauto.
Qed.
(* A Close that returned nil has won; one that returned the error has not, but someone has. *)
Theorem close_nil_wins tr s i : runs tr s -> In (ERet i OClose ROk) tr -> In (EWin i) tr.
Proof.
  intros H Hin. destruct (ret_stage _ _ _ _ _ H Hin) as (h & E & [[_ A]|(p & A & _)]); [discriminate|]. apply (in_about i). rewrite E, A. cbn. auto.
Qed.
Theorem close_err_lost tr s i : runs tr s -> In (ERet i OClose RErrClosed) tr -> ~ In (EWin i) tr /\ exists j, In (EWin j) tr.
Proof.
  intros H Hin. split; [|exact (i_lost' _ _ (runs_inv _ _ H) i Hin)].
  destruct (ret_stage _ _ _ _ _ H Hin) as (h & E & [[A _]|(p & _ & A)]); [|discriminate]. intros W.
  assert (Z : In (EWin i) (proj i tr)) by (apply in_proj; cbn; now rewrite Nat.eqb_refl). rewrite E, A in Z. cbn in Z. intuition discriminate.
Qed.
Theorem one_winner tr s i j : runs tr s -> In (EWin i) tr -> In (EWin j) tr -> i = j.
Proof. intros H. apply (i_one _ _ (runs_inv _ _ H)). Qed.
Theorem close_results tr s i r : runs tr s -> In (ERet i OClose r) tr -> r = ROk \/ r = RErrClosed.
Proof. intros H Hin. destruct (ret_stage _ _ _ _ _ H Hin) as (h & E & [[_ A]|(p & _ & A)]); auto. Qed.
Theorem close_once tr s i j : runs tr s -> In (ERet i OClose ROk) tr -> In (ERet j OClose ROk) tr -> i = j.
Proof. intros H A B. apply (one_winner tr s); eauto using close_nil_wins. Qed.
Lemma close_returned_flag tr s i r : runs tr s -> In (ERet i OClose r) tr -> c_flag s = true.
Proof.
  intros H Hin. apply (i_flag _ _ (runs_inv _ _ H)). destruct (close_results _ _ _ _ H Hin) as [->| ->].
  - exists i. eapply close_nil_wins; eauto.
  - eapply close_err_lost; eauto.
Qed.
Lemma flag_stays s tr s' : exec step s tr s' -> c_flag s = true -> c_flag s' = true.
Proof.
  intros H F. induction H as [|tr s1 s2 H IH St|tr s1 a s2 H IH St]; [exact F| |]; destruct St; cbn; auto.
Qed.
(* Writing after a Close has returned: the error, and not a byte. *)
Lemma write_closed_from s i b : c_flag s = true -> c_pc s i = PChkW b -> forall tr s', exec step s tr s' ->
  c_flag s' = true /\ (c_pc s' i = PChkW b \/ c_pc s' i = PRet (OWrite b) RErrClosed \/ c_pc s' i = PDone) /\
  (forall r, In (ERet i (OWrite b) r) tr -> r = RErrClosed) /\ (forall p, ~ In (EOut i p) tr).
Proof.
  intros F P. apply (exec_inv step (fun tr s' => c_flag s' = true /\ (c_pc s' i = PChkW b \/ c_pc s' i = PRet (OWrite b) RErrClosed \/ c_pc s' i = PDone) /\
    (forall r, In (ERet i (OWrite b) r) tr -> r = RErrClosed) /\ (forall p, ~ In (EOut i p) tr)) s).
  - split; [exact F|]. split; [auto|]. split; [intros r []|intros p []].
  - intros tr s1 s2 (F1 & P1 & R1 & O1) St. split; [inversion St; subst; auto|]. split; [|auto].
    inversion St as [| |t k|t k x|t|t|t k|t k|t k j|t k|t k x|t k x|t k x p|t k x|t k x|t k x|t k x p|t k x|t k x|t k x]; subst; cbn [set_pc c_pc] in *;
      try (destruct (Nat.eq_dec i k) as [->|]; [rewrite upd_eq; destruct P1 as [P1|[P1|P1]]; try congruence|now rewrite upd_ne]).
    + destruct (Nat.eq_dec i 0) as [->|]; [rewrite upd_eq; auto|now rewrite upd_ne].
    + destruct (Nat.eq_dec i j) as [->|Nj]; [rewrite upd_eq; destruct P1 as [P1|[P1|P1]]; congruence|rewrite (upd_ne _ j i) by assumption].
      destruct (Nat.eq_dec i k) as [->|]; [rewrite upd_eq; destruct P1 as [P1|[P1|P1]]; congruence|now rewrite upd_ne].
    + rewrite F1. assert (x = b) as -> by congruence. auto.
  - intros tr s1 a s2 (F1 & P1 & R1 & O1) St. split; [inversion St; subst; auto|]. split; [|split].
    + inversion St as [t k o|t k o r| | | |t| | | | | |t k x|t k x p| |t k x| |t k x p| | |t k x]; subst; cbn [set_pc c_pc] in *; try congruence;
        try (destruct (Nat.eq_dec i k) as [->|]; [rewrite upd_eq; destruct P1 as [P1|[P1|P1]]; first [congruence|now auto]|now rewrite upd_ne]).
      destruct (Nat.eq_dec i 0) as [->|]; [rewrite upd_eq; destruct P1 as [P1|[P1|P1]]; congruence|now rewrite upd_ne].
    + intros r Hin. apply in_snoc in Hin as [Hin|Hin]; [exact (R1 _ Hin)|]. subst a. inversion St; subst. destruct P1 as [P1|[P1|P1]]; congruence.
    + intros p Hin. apply in_snoc in Hin as [Hin|Hin]; [exact (O1 _ Hin)|]. subst a. inversion St; subst; destruct P1 as [P1|[P1|P1]]; congruence.
Qed.
Theorem write_after_close tr s j r i b : runs tr s -> before tr (ERet j OClose r) (ECall i (OWrite b)) ->
  (forall r', In (ERet i (OWrite b) r') tr -> r' = RErrClosed) /\ (forall p, ~ In (EOut i p) tr).
Proof.
  intros H B. apply before_cut in B as (p & q & -> & Hj). apply exec_split in H as (s1 & s2 & H1 & St & H2).
  assert (F : c_flag s1 = true) by (eapply close_returned_flag; eauto). inversion St; subst.
  assert (Q : c_pc (set_pc s1 i (start (OWrite b))) i = PChkW b) by (cbn; now rewrite upd_eq).
  destruct (write_closed_from (set_pc s1 i (start (OWrite b))) i b F Q _ _ H2) as (_ & _ & R & O).
  pose proof (i_stage _ _ (runs_inv _ _ H1) i) as S1. match goal with Q : c_pc s1 i = PIdle |- _ => rewrite Q in S1 end. cbn in S1.
  assert (N : forall a, about i a = true -> ~ In a p).
  { intros a Ha Hin. assert (Z : In a (proj i p)) by (now apply in_proj). rewrite S1 in Z. contradiction. }
  split.
  - intros r' Hin. apply in_app_iff in Hin as [Hin|[Hin|Hin]]; [|discriminate|auto]. exfalso. apply (N (ERet i (OWrite b) r')); [cbn; apply Nat.eqb_refl|exact Hin].
  - intros p' Hin. apply in_app_iff in Hin as [Hin|[Hin|Hin]]; [|discriminate|exact (O _ Hin)]. apply (N (EOut i p')); [cbn; apply Nat.eqb_refl|exact Hin].
Qed.
(* A Write that returned nil has sent exactly its bytes, in one piece; any Write sends at most a prefix. *)
Theorem write_ok tr s i b : runs tr s -> In (ERet i (OWrite b) ROk) tr -> proj i tr = [ECall i (OWrite b); EOut i b; ERet i (OWrite b) ROk].
Proof.
  intros H Hin. destruct (ret_stage _ _ _ _ _ H Hin) as (h & E & [[_ A]|[[A _]|(p & _ & _ & A)]]); try congruence; try discriminate. rewrite E, A. reflexivity.
Qed.
(* Once a Close has returned nil nothing is sent any more. *)
Lemma tcp_stays s tr s' : exec step s tr s' -> c_tcp s = false -> c_tcp s' = false.
Proof. intros H F. induction H as [|tr s1 s2 H IH St|tr s1 a s2 H IH St]; [exact F| |]; destruct St; cbn; auto. Qed.
Theorem silent_after_close tr s i j p : runs tr s -> ~ before tr (ERet i OClose ROk) (EOut j p).
Proof.
  intros H B. apply before_cut in B as (x & y & -> & Hi). apply exec_split in H as (s1 & s2 & H1 & St & _).
  pose proof (runs_inv _ _ H1) as I. pose proof (i_won' _ _ I i Hi) as C. destruct (i_chan _ _ I C) as (T & _ & N).
  inversion St; subst; try congruence. destruct (N j x0) as (N1 & _). congruence.
Qed.
(* A send to the reset channel after the worker has gone is never accepted. *)
Definition stuck (p : pc) : Prop := p = PResetR \/ exists b, p = PResetW b.
Theorem blocked_forever s i : stuck (c_pc s i) -> c_pc s 0 = PDone -> forall tr s', exec step s tr s' ->
  c_pc s' i = c_pc s i /\ c_pc s' 0 = PDone /\ forall o r, ~ In (ERet i o r) tr.
Proof.
  intros K W. apply (exec_inv step (fun tr s' => c_pc s' i = c_pc s i /\ c_pc s' 0 = PDone /\ forall o r, ~ In (ERet i o r) tr) s).
  - split; [reflexivity|]. split; [exact W|]. intros o r [].
  - intros tr s1 s2 (P1 & W1 & R1) St. split; [|split; [|exact R1]].
    + rewrite <- P1 in K |- *. inversion St as [| |t k|t k x|t|t|t k|t k|t k j|t k|t k x|t k x|t k x p|t k x|t k x|t k x|t k x p|t k x|t k x|t k x]; subst; cbn [set_pc c_pc] in *; try congruence;
        try (destruct (Nat.eq_dec i k) as [->|]; [rewrite upd_eq; destruct K as [K|[b' K]]; congruence|now rewrite upd_ne]).
      destruct (Nat.eq_dec i j) as [->|Nj]; [rewrite upd_eq; destruct K as [K|[b' K]]; congruence|rewrite (upd_ne _ j i) by assumption].
      destruct (Nat.eq_dec i k) as [->|]; [rewrite upd_eq; destruct K as [K|[b' K]]; congruence|now rewrite upd_ne].
    + inversion St as [| |t k|t k x|t|t|t k|t k|t k j|t k|t k x|t k x|t k x p|t k x|t k x|t k x|t k x p|t k x|t k x|t k x]; subst; cbn [set_pc c_pc] in *; try congruence;
        try (destruct (Nat.eq_dec 0 k) as [<-|]; [congruence|now rewrite upd_ne]).
      destruct (Nat.eq_dec 0 j) as [<-|Nj]; [congruence|rewrite (upd_ne _ j 0) by assumption].
      destruct (Nat.eq_dec 0 k) as [<-|]; [congruence|now rewrite upd_ne].
  - intros tr s1 a s2 (P1 & W1 & R1) St. split; [|split].
    + rewrite <- P1 in K |- *. inversion St as [t k o|t k o r| | | |t| | | | | |t k x|t k x p| |t k x| |t k x p| | |t k x]; subst; cbn [set_pc c_pc] in *; try congruence;
        try (destruct (Nat.eq_dec i k) as [->|]; [rewrite upd_eq; destruct K as [K|[b' K]]; congruence|now rewrite upd_ne]).
    + inversion St as [t k o|t k o r| | | |t| | | | | |t k x|t k x p| |t k x| |t k x p| | |t k x]; subst; cbn [set_pc c_pc] in *; try congruence;
        try (destruct (Nat.eq_dec 0 k) as [<-|]; [congruence|now rewrite upd_ne]).
    + intros o r Hin. apply in_snoc in Hin as [Hin|Hin]; [exact (R1 _ _ Hin)|]. subst a. inversion St; subst. destruct K as [K|[b' K]]; congruence.
Qed.
(* As long as nobody began to close, every Write can return. *)
Theorem write_can_return tr s i b : runs tr s -> ~ In ETimer tr -> (forall j, ~ In (EWin j) tr) -> In (ECall i (OWrite b)) tr ->
  (exists r, In (ERet i (OWrite b) r) tr) \/ exists tr' s' r, runs (tr ++ tr' ++ [ERet i (OWrite b) r]) s'.
Proof.
  intros H NT NW Hin. pose proof (runs_inv _ _ H) as I.
  assert (W : c_pc s 0 = PLoop) by (destruct (i_worker _ _ I) as [W|[[j W]|W]]; [exact W|exfalso; exact (NW j W)|contradiction]).
  assert (F : c_flag s = false) by (destruct (c_flag s) eqn:F; [exfalso; apply (i_flag _ _ I) in F as [j F]; exact (NW j F)|reflexivity]).
  destruct (i_alive _ _ I) as [Al _]. pose proof (i_stage _ _ I i) as S1.
  assert (Z : In (ECall i (OWrite b)) (proj i tr)) by (apply in_proj; cbn; now rewrite Nat.eqb_refl).
  assert (G : forall t x r, exec step s t x -> c_pc x i = PRet (OWrite b) r -> c_crash x = false -> exists tr' s' r, runs (tr ++ tr' ++ [ERet i (OWrite b) r]) s').
  { intros t x r E P C. exists t, (set_pc x i PDone), r. unfold runs. eapply exec_app; [exact H|]. eapply exec_act; [exact E|]. now constructor. }
  assert (A : forall o r h, at_ret i o r h -> In (ECall i (OWrite b)) h -> o = OWrite b).
  { intros o r h A Hh. destruct o as [|b0|]; cbn in A.
    - rewrite A in Hh. cbn in Hh. intuition discriminate.
    - destruct A as [[-> _]|[[-> _]|(p & _ & -> & _)]]; cbn in Hh; intuition congruence.
    - destruct A as [[-> _]|(p & -> & _)]; cbn in Hh; intuition discriminate. }
  assert (X : forall p, stage i (proj i tr) p -> c_pc s i = p -> (exists r, In (ERet i (OWrite b) r) tr) \/ exists tr' s' r, runs (tr ++ tr' ++ [ERet i (OWrite b) r]) s').
  { intros p S2 P. destruct p as [| | |b0| |b0|b0| |x|x|x|x|o r|]; cbn in S2; try (rewrite S2 in Z; cbn in Z; intuition discriminate).
    - (* PResetW *) assert (b0 = b) as -> by (rewrite S2 in Z; cbn in Z; destruct Z as [Z|[]]; congruence). right.
      eapply (G _ _ RErr); [eapply exec_cons_tau; [eapply (reset_w _ i); eassumption|]; eapply exec_cons_tau; [eapply (wr_fail _ i); cbn; [exact Al|now rewrite upd_eq]|]; apply exec_start| |]; cbn; [now rewrite upd_eq|exact Al].
    - (* PChkW *) assert (b0 = b) as -> by (rewrite S2 in Z; cbn in Z; destruct Z as [Z|[]]; congruence). right.
      assert (N0 : i <> 0) by (intros ->; congruence).
      eapply (G _ _ RErr).
      + eapply exec_cons_tau; [eapply (wr_chk _ i); eassumption|]. rewrite F.
        eapply exec_cons_tau; [eapply (reset_w _ i); cbn; [exact Al|now rewrite upd_eq|now rewrite upd_ne by auto]|].
        eapply exec_cons_tau; [eapply (wr_fail _ i); cbn; [exact Al|now rewrite upd_eq]|]. apply exec_start.
      + cbn. now rewrite upd_eq.
      + exact Al.
    - (* PWriting *) assert (b0 = b) as -> by (rewrite S2 in Z; cbn in Z; destruct Z as [Z|[]]; congruence). right.
      eapply (G _ _ RErr); [eapply exec_cons_tau; [eapply (wr_fail _ i); eassumption|]; apply exec_start| |]; cbn; [now rewrite upd_eq|exact Al].
    - destruct x; rewrite S2 in Z; cbn in Z; intuition discriminate.
    - destruct x; rewrite S2 in Z; cbn in Z; intuition discriminate.
    - destruct S2 as [q S2]; destruct x; rewrite S2 in Z; cbn in Z; intuition discriminate.
    - destruct S2 as [q S2]; destruct x; rewrite S2 in Z; cbn in Z; intuition discriminate.
    - pose proof (A _ _ _ S2 Z) as ->. right. eapply (G [] s r); [apply exec_start|exact P|exact Al].
    - destruct S2 as [S2|[(q & S2)|(o & r & h & S2 & A')]].
      + rewrite S2 in Z. contradiction.
      + rewrite S2 in Z. cbn in Z. intuition discriminate.
      + assert (Y : In (ERet i o r) (proj i tr)) by (rewrite S2; apply in_snoc; auto). rewrite S2 in Z. apply in_snoc in Z as [Z|Z]; [|discriminate].
        pose proof (A _ _ _ A' Z) as ->. left. exists r. now apply in_about in Y. }
  exact (X _ S1 eq_refl).
Qed.
Theorem close_answers tr s i r : runs tr s -> In (ERet i OClose r) tr ->
  (r = ROk /\ In (EWin i) tr) \/ (r = RErrClosed /\ ~ In (EWin i) tr /\ exists j, In (EWin j) tr).
Proof.
  intros H Hin. destruct (close_results _ _ _ _ H Hin) as [->| ->]; [left|right]; (split; [reflexivity|]); [eapply close_nil_wins|eapply close_err_lost]; eauto.
Qed.
