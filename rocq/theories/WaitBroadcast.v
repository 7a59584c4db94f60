(* What calls of a broadcaster wait for, and how many steps they take. *)
From Coq Require Import List Arith Bool Lia.
From Verif Require Import Base Lts Counted CountedFacts Budget Broadcast BroadcastProofs WaitSpec.
Import ListNotations.

Section Broadcast.
  Context {V : Type} (vnil : V).
  Implicit Types (tr : list (event V)) (s : state V).
  Notation runs := (runs vnil).
  Lemma b_moves s l s' : at_rest step is_bcall s -> step s l s' -> match l with Some (ECallSet _ _) | Some (ECallGet _) => True | _ => False end.
  Proof. intros Q St. destruct (Q l s' St) as (a & -> & H). destruct a; exact H. Qed.
  Definition about (i : nat) (a : event V) : bool := match a with ECallSet j _ | ERetSet j _ | ECallGet j | ERetGet j _ => Nat.eqb j i | EPanic => false end.
  Definition proj i tr := filter (about i) tr.
  Lemma proj_snoc i tr a : proj i (tr ++ [a]) = proj i tr ++ (if about i a then [a] else []).
  Proof. unfold proj. rewrite filter_app. reflexivity. Qed.
  Lemma eqb_ne i j : j <> i -> Nat.eqb i j = false.
  Proof. intros H. apply Nat.eqb_neq. congruence. Qed.
  (* what a call has done so far *)
  Definition stage (i : nat) (h : list (event V)) (p : pc V) : Prop :=
    match p with
    | PIdle => h = []
    | PSet v | PSetClose v | PSetRet v => h = [ECallSet i v]
    | PGet | PRead | PGetRet _ => h = [ECallGet i]
    | PDone => (exists v, h = [ECallSet i v; ERetSet i v]) \/ exists v, h = [ECallGet i; ERetGet i v]
    end.
  Lemma stages tr s i : runs tr s -> stage i (proj i tr) (b_pc s i).
  Proof.
    intros H. induction H as [|tr s1 s2 H IH St|tr s1 a s2 H IH St]; [reflexivity| |].
    - inversion St; subst; cbn [b_pc set_pc]; try exact IH;
      (destruct (Nat.eq_dec i i0) as [->|?]; [rewrite upd_eq|rewrite upd_ne by assumption; exact IH]);
      match goal with P : b_pc _ _ = _ |- _ => rewrite P in IH end; exact IH.
    - rewrite proj_snoc. inversion St; subst; cbn [b_pc set_pc about];
      try (rewrite app_nil_r; exact IH);
      (destruct (Nat.eq_dec i i0) as [->|N]; [rewrite upd_eq, Nat.eqb_refl|rewrite upd_ne, (eqb_ne _ _ N), app_nil_r by assumption; exact IH]);
      match goal with P : b_pc _ _ = _ |- _ => rewrite P in IH end; cbn [stage] in *; rewrite IH; cbn [app]; eauto.
  Qed.
  Lemma in_proj i tr a : In a (proj i tr) <-> In a tr /\ about i a = true.
  Proof. apply filter_In. Qed.
  Theorem broadcast_rest tr s : runs tr s -> ~ In EPanic tr -> at_rest step is_bcall s ->
    (forall i v, In (ECallSet i v) tr -> In (ERetSet i v) tr) /\
    (forall i, In (ECallGet i) tr -> (exists v, In (ERetGet i v) tr) \/ forall j v, ~ In (ECallSet j v) tr).
  Proof.
    intros R NP Q. pose proof (alive _ _ _ R NP) as C.
    assert (S : forall i v, In (ECallSet i v) tr -> In (ERetSet i v) tr).
    { intros i v G. assert (G' : In (ECallSet i v) (proj i tr)) by (apply in_proj; cbn; now rewrite Nat.eqb_refl). pose proof (stages _ _ i R) as T.
      destruct (b_pc s i) as [|w|w|w| | |w|] eqn:P; cbn in T; try (rewrite T in G'; cbn in G'; intuition discriminate).
      - destruct (b_moves _ _ _ Q (set_message s i w C P)).
      - destruct (b_ready s) eqn:D; [destruct (b_moves _ _ _ Q (set_panic s i w C P D))|destruct (b_moves _ _ _ Q (set_close s i w C P D))].
      - destruct (b_moves _ _ _ Q (set_ret s i w C P)).
      - destruct T as [[w T]|[w T]]; rewrite T in G'; cbn in G'.
        + assert (w = v) as -> by (destruct G' as [G'|[G'|[]]]; congruence). apply (in_proj i). rewrite T. cbn. auto.
        + intuition discriminate. }
    split; [exact S|]. intros i G. assert (G' : In (ECallGet i) (proj i tr)) by (apply in_proj; cbn; now rewrite Nat.eqb_refl). pose proof (stages _ _ i R) as T.
    destruct (b_pc s i) as [|w|w|w| | |w|] eqn:P; cbn in T; try (rewrite T in G'; cbn in G'; intuition discriminate).
    - right. intros j v J. destruct (b_ready s) eqn:D; [destruct (b_moves _ _ _ Q (get_ready s i C P D))|].
      exact (proj2 (i_unready _ _ (runs_inv _ _ _ R) D j v) (S j v J)).
    - destruct (b_moves _ _ _ Q (get_read s i C P)).
    - destruct (b_moves _ _ _ Q (get_ret s i w C P)).
    - destruct T as [[w T]|[w T]]; rewrite T in G'; cbn in G'; [intuition discriminate|]. left. exists w. apply (in_proj i). rewrite T. cbn. auto.
  Qed.
  Definition b_cost (p : pc V) : nat := match p with PIdle | PDone => 0 | PSetRet _ | PGetRet _ => 1 | PSetClose _ | PRead => 2 | PSet _ | PGet => 3 end.
  Lemma b_counted n tr s : steps step (init vnil) n tr s ->
    exists w, owns b_cost (b_pc s) w /\ n + w <= 4 * length (broadcast_calls tr) + (if b_crash s then 1 else 0) /\ (b_crash s = true -> 1 <= w).
  Proof.
    induction 1 as [|n tr s1 s2 H (w & W & L & Lc) St|n tr s1 a s2 H (w & W & L & Lc) St].
    - exists 0. split; [now apply owns_none|]. split; [cbn; lia|discriminate].
    - inversion St; subst; cbn [b_pc b_crash set_pc];
      repeat match goal with F : b_crash _ = _ |- _ => rewrite F in * end;
      match goal with |- exists w, owns _ (upd _ ?i ?p) w /\ _ => destruct (owns_upd b_cost _ _ i p W) as (w' & W' & Q); exists w'; split; [exact W'|] end;
      match goal with P : b_pc _ _ = _ |- _ => rewrite P in Q end; cbn [b_cost] in Q; (split; [lia|discriminate]).
    - unfold broadcast_calls in *. rewrite flat_map_app, app_length. inversion St; subst; cbn [b_pc b_crash set_pc flat_map app length] in *;
      repeat match goal with F : b_crash _ = _ |- _ => rewrite F in * end.
      3: exists w; split; [exact W|]; split; [lia|]; intros _; match goal with P : b_pc _ ?i = _ |- _ => pose proof (owns_le b_cost _ _ i W) as Q; rewrite P in Q; cbn [b_cost] in Q; lia end.
      all: match goal with |- exists w, owns _ (upd _ ?i ?p) w /\ _ => destruct (owns_upd b_cost _ _ i p W) as (w' & W' & Q); exists w'; split; [exact W'|] end;
      match goal with P : b_pc _ _ = _ |- _ => rewrite P in Q end; cbn [b_cost] in Q; (split; [lia|discriminate]).
  Qed.
  Theorem broadcast_bound n tr s : steps step (init vnil) n tr s -> n <= 4 * length (broadcast_calls tr).
  Proof. intros H. destruct (b_counted _ _ _ H) as (w & _ & L & Lc). destruct (b_crash s); [specialize (Lc eq_refl)|]; lia. Qed.
End Broadcast.
