(* What calls of a connection wait for, and how many steps they take. *)
From Coq Require Import List Arith Bool Lia.
From Verif Require Import Base Lts Counted CountedFacts Budget Conn ConnProofs WaitSpec.
Import ListNotations.

Lemma cn_moves s l s' : conn_rests s -> step s l s' -> match l with Some (ECall _ _) | Some ETimer => True | Some _ => False | None => exists i r, c_pc s i = PReading /\ c_pc s' i = PRet ORead r end.
Proof. intros Q St. destruct (Q l s' St) as [(i & o & ->)|[->|(i & -> & H & r & H')]]; [exact I|exact I|eauto]. Qed.
Lemma cn_tau s i p' s' : conn_rests s -> c_pc s i <> PReading -> (forall j, c_pc s' j = upd (c_pc s) i p' j) -> ~ step s None s'.
Proof.
  intros Q N U St. destruct (cn_moves _ _ _ Q St) as (j & r & J & J'). rewrite U in J'. destruct (Nat.eq_dec j i) as [->|D]; [contradiction|]. rewrite upd_ne in J' by exact D. congruence.
Qed.
Definition closing (p : pc) : Prop := exists x, p = PMsg x \/ p = PTcp x \/ p = PChan x.
Lemma only_worker tr s : runs tr s -> forall i, c_pc s i = PLoop -> i = 0.
Proof.
  intros R. induction R as [|tr s1 s2 R IH St|tr s1 a s2 R IH St]; [intros [|i]; [reflexivity|discriminate]| |]; intros k; inversion St; subst; cbn [c_pc set_pc]; try apply IH;
  unfold upd, start, won, lost; repeat match goal with |- context[if ?b then _ else _] => destruct b eqn:? end; try apply IH; try discriminate;
  match goal with |- context[match ?o with _ => _ end] => destruct o end; discriminate.
Qed.
(* The worker goes on until the connection is closed. *)
Lemma worker_gone tr s : runs tr s -> match c_pc s 0 with PLoop | PCas false => True | PMsg false | PTcp false | PChan false | PDone => winner tr | _ => False end.
Proof.
  intros R. induction R as [|tr s1 s2 R IH St|tr s1 a s2 R IH St]; [exact I| |]; pose proof (runs_inv _ _ R) as Iv.
  - inversion St; subst; cbn [c_pc set_pc]; try exact IH;
    try (destruct (Nat.eq_dec 0 i) as [<-|N]; [rewrite upd_eq; match goal with P : c_pc _ 0 = _ |- _ => rewrite P in IH end; try contradiction|rewrite (upd_ne _ i 0) by exact N; exact IH]).
    + congruence.
    + congruence.
    + rewrite upd_eq. match goal with D : c_chan _ = true |- _ => exact (proj1 (proj2 (i_chan _ _ Iv D))) end.
    + destruct (Nat.eq_dec 0 j) as [<-|N]; [match goal with P : c_pc _ 0 = _ |- _ => rewrite P in IH end; contradiction|]. rewrite (upd_ne _ j 0) by exact N.
      destruct (Nat.eq_dec 0 i) as [<-|N']; [match goal with P : c_pc _ 0 = _ |- _ => rewrite P in IH end; contradiction|]. rewrite (upd_ne _ i 0) by exact N'. exact IH.
    + destruct x; [contradiction|]. now apply (i_flag _ _ Iv).
    + destruct x; [contradiction|]. exact IH.
    + destruct x; [contradiction|]. exact IH.
  - assert (E : winner tr -> winner (tr ++ [a])) by (intros [j J]; exists j; apply in_snoc; now left).
    assert (IH' : match c_pc s1 0 with PLoop | PCas false => True | PMsg false | PTcp false | PChan false | PDone => winner (tr ++ [a]) | _ => False end)
      by (destruct (c_pc s1 0) as [| | | | | | | |[]|[]|[]|[]| |]; auto).
    clear IH E. inversion St; subst; cbn [c_pc set_pc]; try exact IH';
    try (destruct (Nat.eq_dec 0 i) as [<-|N]; [rewrite upd_eq; match goal with P : c_pc _ 0 = _ |- _ => rewrite P in IH' end; try contradiction|rewrite (upd_ne _ i 0) by exact N; exact IH']).
    + rewrite upd_eq. exact I.
    + destruct x; [contradiction|]. exists 0. apply in_snoc. now right.
    + destruct x; [contradiction|]. exact IH'.
Qed.
Lemma flag_chan tr s : runs tr s -> c_flag s = true -> c_chan s = true \/ exists i, closing (c_pc s i).
Proof.
  intros R. induction R as [|tr s1 s2 R IH St|tr s1 a s2 R IH St]; [discriminate| |]; inversion St; subst; cbn [c_flag c_chan c_pc set_pc]; auto;
  try (intros F; destruct (IH F) as [D|(k & x' & K)]; [now left|]; right; exists k, x'; repeat rewrite upd_ne by (intros ->; destruct K as [K|[K|K]]; congruence); exact K);
  try (intros _; right; exists i, x; rewrite upd_eq; auto).
Qed.
(* Where calls are when nothing moves. *)
Lemma cn_pcs tr s : runs tr s -> conn_rests s -> forall i,
  match c_pc s i with
  | PIdle | PDone | PReading => True
  | PLoop => c_chan s = false
  | PResetR | PResetW _ => c_pc s 0 <> PLoop
  | _ => False
  end.
Proof.
  intros R Q i. pose proof (runs_inv _ _ R) as I. destruct (i_alive _ _ I) as [C _]. destruct (c_pc s i) as [| | |b| |b|b| |x|x|x|x|o r|] eqn:P; try exact Logic.I.
  - (* PLoop: only the worker *) pose proof (only_worker _ _ R i P) as ->. destruct (c_chan s) eqn:D; [|reflexivity]. exfalso. eapply (cn_tau s 0); [exact Q|congruence| |apply (w_closed s C P D)]. reflexivity.
  - intros W. eapply (cn_tau s i); [exact Q|congruence| |apply (reset_r s i C P W)]. reflexivity.
  - intros W. eapply (cn_tau s i); [exact Q|congruence| |apply (reset_w s i b C P W)]. reflexivity.
  - eapply (cn_tau s i); [exact Q|congruence| |apply (wr_chk s i b C P)]. reflexivity.
  - eapply (cn_tau s i); [exact Q|congruence| |apply (wr_fail s i b C P)]. reflexivity.
  - eapply (cn_tau s i); [exact Q|congruence| |apply (r_chk s i C P)]. reflexivity.
  - destruct (c_flag s) eqn:F.
    + eapply (cn_tau s i); [exact Q|congruence| |apply (x_lose s i x C P F)]. reflexivity.
    + exact (cn_moves _ _ _ Q (x_win s i x C P F)).
  - assert (Z : prefix_of [] close_message) by (exists close_message; reflexivity). exact (cn_moves _ _ _ Q (x_msg s i x [] C P Z)).
  - eapply (cn_tau s i); [exact Q|congruence| |apply (x_tcp s i x C P)]. reflexivity.
  - destruct (c_chan s) eqn:D.
    + exact (cn_moves _ _ _ Q (x_panic s i x C P D)).
    + eapply (cn_tau s i); [exact Q|congruence| |apply (x_chan s i x C P D)]. reflexivity.
  - exact (cn_moves _ _ _ Q (ret_ s i o r C P)).
Qed.

Lemma at_ret_call i o r h o' : at_ret i o r h -> In (ECall i o') h -> o = o'.
Proof.
  intros A Hh. destruct o as [|b0|]; cbn in A.
  - rewrite A in Hh. cbn in Hh. destruct Hh as [Hh|[]]. congruence.
  - destruct A as [[-> _]|[[-> _]|(p & _ & -> & _)]]; cbn in Hh; intuition congruence.
  - destruct A as [[-> _]|(p & -> & _)]; cbn in Hh; intuition congruence.
Qed.
Theorem conn_rest tr s : runs tr s -> conn_rests s ->
  (forall i o, In (ECall i o) tr -> (forall r, ~ In (ERet i o r) tr) ->
    match o with OClose => False | OWrite _ => winner tr | ORead => c_pc s i = PReading \/ winner tr end) /\
  (winner tr -> c_tcp s = false).
Proof.
  intros R Q. pose proof (runs_inv _ _ R) as I. pose proof (cn_pcs _ _ R Q) as K.
  assert (W : c_pc s 0 <> PLoop -> winner tr).
  { intros N. pose proof (worker_gone _ _ R) as G. specialize (K 0). destruct (c_pc s 0) as [| | | | | | | |[]|[]|[]|[]| |]; tauto. }
  split.
  - intros i o Hc Hr. pose proof (i_stage _ _ I i) as S1. specialize (K i). assert (Z : In (ECall i o) (proj i tr)) by (apply in_proj; cbn; now rewrite Nat.eqb_refl).
    destruct (c_pc s i) as [| | |b| |b|b| |x|x|x|x|o' r|] eqn:P; cbn in S1; try contradiction; try (rewrite S1 in Z; cbn in Z; try contradiction; destruct Z as [Z|[]]; injection Z as <-; auto).
    destruct S1 as [S1|[(q & S1)|(o' & r & h & S1 & A')]].
    + rewrite S1 in Z. contradiction.
    + rewrite S1 in Z. cbn in Z. intuition discriminate.
    + assert (Y : In (ERet i o' r) (proj i tr)) by (rewrite S1; apply in_snoc; auto). rewrite S1 in Z. apply in_snoc in Z as [Z|Z]; [|discriminate].
      pose proof (at_ret_call _ _ _ _ _ A' Z) as ->. exfalso. apply (Hr r). now apply in_about in Y.
  - intros Wn. apply (i_flag _ _ I) in Wn. destruct (flag_chan _ _ R Wn) as [D|(i & x & D)]; [exact (proj1 (i_chan _ _ I D))|]. specialize (K i). destruct D as [D|[D|D]]; rewrite D in K; contradiction.
Qed.

Definition cn_cost (p : pc) : nat :=
  match p with
  | PIdle | PDone => 0 | PRet _ _ => 1 | PChan _ => 2 | PTcp _ => 3 | PMsg _ => 4 | PCas _ => 5 | PChk => 6 | PLoop => 6
  | PReading => 8 | PResetR => 9 | PWriting _ => 2 | PResetW _ => 3 | PChkW _ => 4
  end.
Ltac spend W := match goal with |- exists w, owns _ (upd _ ?i ?p) w /\ _ => let w' := fresh "w" in let W' := fresh "W" in let Q := fresh "Q" in destruct (owns_upd cn_cost _ _ i p W) as (w' & W' & Q); exists w'; split; [exact W'|];
  match goal with P : c_pc _ i = _ |- _ => rewrite P in Q end; cbn [cn_cost] in Q end.
Lemma cn_counted n tr s : steps step init n tr s -> exists w, owns cn_cost (c_pc s) w /\ n + w <= 10 * length (conn_calls tr) + 6.
Proof.
  induction 1 as [|n tr s1 s2 H (w & W & L) St|n tr s1 a s2 H (w & W & L) St].
  - exists 6. split; [|cbn; lia]. exists [0]. split; [repeat constructor; auto|]. split; [|reflexivity]. intros [|i] N; [exfalso; apply N; now left|reflexivity].
  - inversion St; subst; cbn [c_pc set_pc] in *; try (spend W; cbn [cn_cost] in *; lia).
    + destruct (owns_upd cn_cost _ _ i (PRet ORead RErrClosed) W) as (w1 & W1 & Q1). match goal with P : c_pc _ i = _ |- _ => rewrite P in Q1 end. cbn [cn_cost] in Q1.
      destruct (owns_upd cn_cost _ _ j PChk W1) as (w2 & W2 & Q2). rewrite upd_ne in Q2 by congruence. match goal with P : c_pc _ j = _ |- _ => rewrite P in Q2 end. cbn [cn_cost] in Q2.
      exists w2. split; [exact W2|]. lia.
    + spend W. destruct (c_flag s1); cbn [cn_cost] in *; lia.
    + spend W. destruct (c_flag s1); cbn [cn_cost] in *; lia.
    + spend W. destruct x; cbn [cn_cost lost] in *; lia.
    + spend W. destruct x; cbn [cn_cost won] in *; lia.
  - unfold conn_calls in *. rewrite flat_map_app, app_length. inversion St; subst; cbn [c_pc set_pc flat_map app length] in *; try (spend W; cbn [cn_cost] in *; lia).
    + spend W. destruct o; cbn [cn_cost start] in *; lia.
    + exfalso. pose proof (steps_exec _ _ _ _ _ H) as R. pose proof (runs_inv _ _ R) as Iv. match goal with D : c_chan _ = true, P : c_pc _ i = _ |- _ => exact (proj2 (proj2 (proj2 (proj2 (i_chan _ _ Iv D)) i x)) P) end.
Qed.
Theorem conn_bound n tr s : steps step init n tr s -> n <= 10 * length (conn_calls tr) + 6.
Proof. intros H. destruct (cn_counted _ _ _ H) as (w & _ & L). lia. Qed.
