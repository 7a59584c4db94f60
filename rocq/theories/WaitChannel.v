(* What calls of a data channel wait for, and how many steps they take. *)
From Coq Require Import List Arith Bool Lia.
From Verif Require Import Base Lts Counted CountedFacts Budget DataChannel DataChannelProofs WaitSpec.
Import ListNotations.

Section Channel.
  Context {A : Type}.
  Implicit Types (tr : list (event A)) (s : state A).
  Lemma ch_moves s l s' : channel_rests s -> step s l s' -> match l with Some (ECall _ _) => True | Some _ => False | None => exists i e, d_pc s i = PSend e /\ d_pc s' i = PRet (OSend e) RExpired end.
  Proof. intros Q St. destruct (Q l s' St) as [(i & o & ->)|(i & e & -> & H)]; [exact I|eauto]. Qed.
  Lemma no_ret s i o r : channel_rests s -> d_crash s = false -> d_pc s i <> PRet o r.
  Proof. intros Q C P. exact (ch_moves _ _ _ Q (c_ret s i o r C P)). Qed.
  (* a step of one call that does not expire it *)
  Lemma ch_tau s i p p' s' : channel_rests s -> d_pc s i = p -> (forall j, d_pc s' j = upd (d_pc s) i p' j) -> (forall e, p <> PSend e) \/ (forall e, p' <> PRet (OSend e) RExpired) -> ~ step s None s'.
  Proof.
    intros Q P U N St. destruct (ch_moves _ _ _ Q St) as (j & e & J & J'). rewrite U in J'. destruct (Nat.eq_dec j i) as [->|D].
    - rewrite upd_eq in J'. destruct N as [N|N]; [apply (N e); congruence|now apply (N e)].
    - rewrite upd_ne in J' by exact D. congruence.
  Qed.
  Lemma ret_or_not tr i o : o = ORecv -> (exists r, In (ERet i o r) tr) \/ forall r, ~ In (ERet i o r) tr.
  Proof.
    intros ->. induction tr as [|a tr [[r IH]|IH]]; [right; auto|left; exists r; now right|].
    assert (D : (exists r, a = ERet i ORecv r) \/ forall r, a <> ERet i ORecv r).
    { destruct a as [| j [| |] r| | | |]; try (right; discriminate). destruct (Nat.eq_dec j i) as [->|N]; [left; now exists r|right; congruence]. }
    destruct D as [[r ->]|D]; [left; exists r; now left|]. right. intros r [E|E]; [now apply (D r)|now apply (IH r)].
  Qed.
  Lemma flag_closed cap tr s : runs cap tr s -> d_flag s = true -> d_closed s = true \/ exists i, d_pc s i = PClose.
  Proof.
    intros R. induction R as [|tr s1 s2 R IH St|tr s1 a s2 R IH St]; [discriminate| |].
    - inversion St; subst; cbn [d_flag d_closed d_pc set_pc]; auto;
        try (intros F; destruct (IH F) as [D|[k K]]; [now left|]; destruct (Nat.eq_dec k i) as [->|N]; [congruence|]; right; exists k; rewrite upd_ne by exact N; exact K).
      intros _. right. exists i. apply upd_eq.
    - inversion St; subst; cbn [d_flag d_closed d_pc set_pc]; auto;
        try (intros F; destruct (IH F) as [D|[k K]]; [now left|]; destruct (Nat.eq_dec k i) as [->|N]; [congruence|]; right; exists k; rewrite upd_ne by exact N; exact K).
      intros F. destruct (IH F) as [D|[k K]]; [now left|]. right. exists k. rewrite !upd_ne by congruence. exact K.
  Qed.
  Theorem channel_rest cap tr s : runs cap tr s -> channel_rests s -> forall i o, In (ECall i o) tr -> (forall r, ~ In (ERet i o r) tr) ->
    match o with
    | OClose => False
    | ORecv => map snd (puts tr) = map snd (takes tr) /\ forall j u, ~ before tr (ERet j OClose u) (ECall i ORecv)
    | OSend _ => length (puts tr) = length (takes tr) + cap /\ (forall j u, ~ In (ERet j OClose u) tr) /\
        (cap = 0 -> forall j, In (ECall j ORecv) tr -> exists r, In (ERet j ORecv r) tr)
    end.
  Proof.
    intros R Q i o Hc Hr. pose proof (runs_inv _ _ _ R) as I. destruct (i_alive _ _ _ I) as [C _]. pose proof (i_cap _ _ _ I) as [Ec Lc]. pose proof (i_buf _ _ _ I) as B.
    assert (NL : forall j, d_pc s j <> PLoad).
    { intros j P. destruct (d_flag s) eqn:F.
      - eapply (ch_tau s j); [exact Q|exact P| |left; discriminate|apply (r_closed s j C P F)]. reflexivity.
      - eapply (ch_tau s j); [exact Q|exact P| |left; discriminate|apply (r_open s j C P F)]. reflexivity. }
    assert (NC : forall j, d_pc s j <> PCas /\ d_pc s j <> PClose).
    { intros j. split; intros P.
      - destruct (d_flag s) eqn:F.
        + eapply (ch_tau s j); [exact Q|exact P| |left; discriminate|apply (x_again s j C P F)]. reflexivity.
        + eapply (ch_tau s j); [exact Q|exact P| |left; discriminate|apply (x_first s j C P F)]. reflexivity.
      - destruct (i_close _ _ _ I j P) as (_ & D & _). eapply (ch_tau s j); [exact Q|exact P| |left; discriminate|apply (x_close s j C P D)]. reflexivity. }
    destruct (called_stage _ _ _ _ _ R Hc Hr) as [P|[r P]]; [|destruct (no_ret _ _ _ _ Q C P)]. destruct o as [e| |].
    - assert (F : d_closed s = false).
      { destruct (d_closed s) eqn:F; [|reflexivity]. exfalso. eapply (ch_tau s i); [exact Q|exact P| |right|apply (s_closed s i e C P F)]; [reflexivity|discriminate]. }
      split; [|split].
      + destruct (Nat.lt_ge_cases (length (d_buf s)) (d_cap s)) as [L|L]; [destruct (ch_moves _ _ _ Q (s_put s i e C P L))|].
        apply (f_equal (@length A)) in B. rewrite app_length, !map_length in B. lia.
      + intros j u Hj. destruct (flag_closed _ _ _ R (closed_flag _ _ _ _ _ R Hj)) as [D|[k K]]; [congruence|]. destruct (NC k). contradiction.
      + intros Z j Hj. destruct (ret_or_not tr j ORecv eq_refl) as [H|N]; [exact H|]. exfalso. destruct (called_stage _ _ _ _ _ R Hj N) as [[P'|P']|[r P']]; [now apply (NL j)| |exact (no_ret _ _ _ _ Q C P')].
        assert (E0 : d_cap s = 0) by lia. exact (ch_moves _ _ _ Q (s_pass s i j e C P P' E0)).
    - destruct P as [P|P]; [destruct (NL i P)|]. split.
      + destruct (d_buf s) as [|e b] eqn:D; [now rewrite B, app_nil_r|]. destruct (ch_moves _ _ _ Q (r_take s i e b C P D)).
      + intros j u H. exact (proj1 (i_late _ _ _ I i j u H) P).
    - destruct P as [P|P]; destruct (NC i); contradiction.
  Qed.
  Definition ch_cost (p : pc A) : nat :=
    match p with PIdle | PDone => 0 | PRet _ _ => 1 | PSend _ => 2 | PRecv => 2 | PLoad => 3 | PCas => 3 | PClose => 2 end.
  (* What a step brings in: only a call does. *)
  Definition ch_income (l : option (event A)) : nat := match l with Some (ECall _ (OSend _)) => 3 | Some (ECall _ _) => 4 | _ => 0 end.
  Lemma ch_pays cap tr s l s' w : runs cap tr s -> step s l s' -> owns ch_cost (d_pc s) w -> exists w', owns ch_cost (d_pc s') w' /\ S w' <= w + ch_income l.
  Proof.
    intros R St W. inversion St; subst; cbn [d_pc set_pc ch_income].
    all: try (match goal with |- exists w, owns _ (upd (upd _ _ _) _ _) w /\ _ => fail 1
      | |- exists w, owns _ (upd _ ?i ?p) w /\ _ => destruct (owns_upd ch_cost _ _ i p W) as (w' & W' & Q); exists w'; split; [exact W'|] end;
      match goal with P : d_pc _ _ = _ |- _ => rewrite P in Q end; cbn [ch_cost] in Q; lia).
    - destruct (owns_upd ch_cost _ _ i (PRet (OSend e) RSuccess) W) as (w1 & W1 & Q1). match goal with P : d_pc _ i = _ |- _ => rewrite P in Q1 end. cbn [ch_cost] in Q1.
      destruct (owns_upd ch_cost _ _ j (PRet ORecv (REvent e)) W1) as (w2 & W2 & Q2). rewrite upd_ne in Q2 by congruence. match goal with P : d_pc _ j = _ |- _ => rewrite P in Q2 end. cbn [ch_cost] in Q2.
      exists w2. split; [exact W2|]. lia.
    - exfalso. match goal with P : d_pc _ i = _ |- _ => destruct (i_close _ _ _ (runs_inv _ _ _ R) i P) as (_ & D & _) end. congruence.
  Qed.
  Lemma ch_counted cap n tr s : steps step (init cap) n tr s ->
    exists w, owns ch_cost (d_pc s) w /\ n + w <= 4 * length (channel_calls tr).
  Proof.
    induction 1 as [|n tr s1 s2 H (w & W & L) St|n tr s1 a s2 H (w & W & L) St].
    - exists 0. split; [now apply owns_none|cbn; lia].
    - destruct (ch_pays _ _ _ _ _ _ (steps_exec _ _ _ _ _ H) St W) as (w' & W' & Q). exists w'. split; [exact W'|]. cbn in Q. lia.
    - destruct (ch_pays _ _ _ _ _ _ (steps_exec _ _ _ _ _ H) St W) as (w' & W' & Q). exists w'. split; [exact W'|].
      unfold channel_calls in *. rewrite flat_map_app, app_length. destruct a as [i []| | | | |]; cbn in *; lia.
  Qed.
  Theorem channel_bound cap n tr s : steps step (init cap) n tr s -> n <= 4 * length (channel_calls tr).
  Proof. intros H. destruct (ch_counted _ _ _ _ H) as (w & _ & L). lia. Qed.
End Channel.
