(* C100: the calls of PersistentFile. *)
From Coq Require Import List Arith Bool Lia.
From Verif Require Import Base Persist PersistSpec PersistProofs Writer WriterSpec.
Import ListNotations.
Local Open Scope nat_scope.

Lemma roomy : 0 < buf_size.
Proof. unfold buf_size. lia. Qed.
Local Opaque buf_size.
(* The buffer holds what it can hold; a dead process has an error. *)
Definition sane (p : pfile) : Prop := List.length (p_buf p) <= buf_size /\ (p_dead p = true -> p_err p = true).
Definition held (p : pfile) : bytes := p_file p ++ p_buf p.

Lemma skipn_le {A} n (l : list A) : List.length (skipn n l) <= List.length l.
Proof. rewrite skipn_length. lia. Qed.
Lemma file_write_held f d w : let '(f', n, e, dd) := file_write f d w in f' = f ++ firstn n d /\ n <= List.length d /\ (e = false -> n = List.length d) /\ (dd = true -> e = true).
Proof.
  destruct w as [|n|n]; cbn.
  - rewrite firstn_all. auto.
  - repeat split; try discriminate; [|lia]. destruct (le_lt_dec n (List.length d)) as [L|L]; [now rewrite Nat.min_l|]. rewrite Nat.min_r by lia. now rewrite firstn_all, firstn_all2 by lia.
  - repeat split; try discriminate; [|lia]. destruct (le_lt_dec n (List.length d)) as [L|L]; [now rewrite Nat.min_l|]. rewrite Nat.min_r by lia. now rewrite firstn_all, firstn_all2 by lia.
Qed.
Lemma flush_held p ws : sane p -> let '(p', _) := flush p ws in sane p' /\ held p' = held p /\ begins (p_file p) (p_file p') /\ (p_err p' = false -> p_buf p' = [] /\ p_err p = false) /\ List.length (p_buf p') <= List.length (p_buf p).
Proof.
  intros S. unfold flush. destruct (p_err p) eqn:E; [split; [exact S|]; repeat split; auto; try congruence; apply begins_refl|].
  destruct (p_buf p) as [|c b] eqn:B; [split; [exact S|]; rewrite B, E; repeat split; auto; apply begins_refl|]. destruct S as [S D]. rewrite B in S.
  destruct (next_out ws) as [w ws']. pose proof (file_write_held (p_file p) (c :: b) w) as F. destruct (file_write _ _ w) as [[[f n] e] dd]. destruct F as (F1 & F2 & F3 & F4). subst f.
  unfold sane, held. cbn [p_file p_buf p_err p_dead]. rewrite <- app_assoc, firstn_skipn, B. pose proof (skipn_le n (c :: b)). split; [split; [lia|exact F4]|]. split; [reflexivity|]. split; [now exists (firstn n (c :: b))|]. split; [|assumption].
  intros Z. rewrite (F3 Z). split; [apply skipn_all|reflexivity].
Qed.

(* What the loop takes: [nn] more each round. *)
Lemma put_held dir fuel : forall p d nn ws p' n ws', sane p -> put dir fuel p d nn ws = Some (p', n, ws') ->
  sane p' /\ exists k, n = nn + k /\ k <= List.length d /\ held p' = held p ++ firstn k d /\ begins (p_file p) (p_file p') /\ (p_err p' = false -> k = List.length d /\ p_err p = false).
Proof.
  induction fuel as [|fuel IH]; intros p d nn ws p' n ws' S H; [discriminate|]. cbn [put] in H. destruct (available p <? List.length d) eqn:L; cbn [andb] in H.
  - destruct (p_err p) eqn:E; cbn [negb] in H.
    { injection H as <- <- <-. split; [exact S|]. exists 0. cbn. rewrite app_nil_r. repeat split; auto; try lia; try congruence. apply begins_refl. }
    destruct (dir && (buffered p =? 0)) eqn:B.
    + apply andb_prop in B as [_ B]. apply Nat.eqb_eq in B. unfold buffered in B. destruct (p_buf p) as [|c b] eqn:B'; [|discriminate]. clear B.
      destruct (next_out ws) as [w ws1]. pose proof (file_write_held (p_file p) d w) as F. destruct (file_write _ _ w) as [[[f m] e] dd]. destruct F as (F1 & F2 & F3 & F4).
      apply IH in H; [|split; [cbn; lia|exact F4]]. destruct H as (S1 & k & -> & K & Hh & Bg & Er). split; [exact S1|]. rewrite skipn_length in K. exists (m + k).
      split; [lia|]. split; [lia|]. unfold held at 2 in Hh. cbn [p_file p_buf p_err] in *. subst f. rewrite Hh. unfold held. rewrite B', !app_nil_r, <- app_assoc.
      split; [|split].
      * f_equal. rewrite <- (firstn_skipn m d) at 3. rewrite firstn_app, firstn_length, Nat.min_l by lia. replace (m + k - m) with k by lia. f_equal. symmetry. apply firstn_all2. rewrite firstn_length. lia.
      * eapply begins_trans; [|exact Bg]. now exists (firstn m d).
      * intros Z. destruct (Er Z) as [Y1 Y2]. rewrite skipn_length in Y1. split; [lia|reflexivity].
    + set (m := Nat.min (available p) (List.length d)) in *. assert (M : m <= List.length d /\ m <= available p) by (unfold m; lia). destruct M as [M1 M2].
      assert (S0 : sane (mkPfile (p_file p) (p_buf p ++ firstn m d) false (p_dead p))).
      { destruct S as [S1 S2]. split; cbn [p_buf p_dead p_err]; [rewrite app_length, firstn_length; unfold available in M2; lia|intros Z; specialize (S2 Z); congruence]. }
      pose proof (flush_held _ ws S0) as F. destruct (flush _ ws) as [p1 ws1]. destruct F as (F1 & F2 & F3 & F4 & _). cbn [p_file] in F3.
      apply IH in H; [|exact F1]. destruct H as (S1 & k & -> & K & Hh & Bg & Er). split; [exact S1|]. rewrite skipn_length in K. exists (m + k). split; [lia|]. split; [lia|].
      rewrite Hh, F2. unfold held. cbn [p_file p_buf]. split; [|split].
      * rewrite <- !app_assoc. do 2 f_equal. rewrite <- (firstn_skipn m d) at 3. rewrite firstn_app, firstn_length, Nat.min_l by lia. replace (m + k - m) with k by lia. f_equal. symmetry. apply firstn_all2. rewrite firstn_length. lia.
      * eapply begins_trans; [exact F3|exact Bg].
      * intros Z. destruct (Er Z) as [Y1 Y2]. rewrite skipn_length in Y1. split; [lia|reflexivity].
  - destruct (p_err p) eqn:E.
    { injection H as <- <- <-. split; [exact S|]. exists 0. cbn. rewrite app_nil_r. repeat split; auto; try lia; try congruence. apply begins_refl. }
    injection H as <- <- <-. apply Nat.ltb_ge in L. unfold available in L. destruct S as [S1 S2]. unfold sane, held. cbn [p_file p_buf p_err p_dead]. split; [split; [rewrite app_length; lia|now rewrite <- E]|].
    exists (List.length d). rewrite firstn_all, <- app_assoc. repeat split; auto. apply begins_refl.
Qed.
(* The loop ends. *)
Lemma put_ends dir fuel : forall p d nn ws, sane p -> List.length d + (if buffered p =? 0 then 0 else 1) + 1 < fuel -> exists r, put dir fuel p d nn ws = Some r.
Proof.
  induction fuel as [|fuel IH]; intros p d nn ws S L; [lia|]. cbn [put]. destruct (available p <? List.length d) eqn:A; cbn [andb]; [|destruct (p_err p); eauto]. apply Nat.ltb_lt in A.
  destruct (p_err p) eqn:E; cbn [negb]; [eauto|]. destruct (dir && (buffered p =? 0)) eqn:B.
  - apply andb_prop in B as [_ B]. rewrite B in L. apply Nat.eqb_eq in B. unfold buffered in B. destruct (p_buf p) as [|c b] eqn:B'; [|discriminate].
    destruct (next_out ws) as [w ws1]. pose proof (file_write_held (p_file p) d w) as F. destruct (file_write _ _ w) as [[[f m] e] dd]. destruct F as (F1 & F2 & F3 & F4).
    destruct e.
    + destruct fuel as [|fuel]; [lia|]. cbn [put p_err negb]. rewrite andb_false_r. eauto.
    + apply IH; [split; [cbn; lia|exact F4]|]. rewrite skipn_length, F3 by reflexivity. cbn. assert (available p = buf_size) by (unfold available; rewrite B'; apply Nat.sub_0_r). pose proof roomy. lia.
  - set (m := Nat.min (available p) (List.length d)) in *. assert (M : m = available p) by (unfold m; lia).
    assert (S0 : sane (mkPfile (p_file p) (p_buf p ++ firstn m d) false (p_dead p))).
    { destruct S as [S1 S2]. split; cbn [p_buf p_dead p_err]; [rewrite app_length, firstn_length; unfold available in M; lia|intros Z; specialize (S2 Z); congruence]. }
    pose proof (flush_held _ ws S0) as F. destruct (flush _ ws) as [p1 ws1]. destruct F as (F1 & _ & _ & F4 & _). destruct (p_err p1) eqn:E1.
    + destruct fuel as [|fuel]; [lia|]. cbn [put]. rewrite E1. cbn [negb]. rewrite andb_false_r. eauto.
    + destruct (F4 eq_refl) as [F5 _]. apply IH; [exact F1|]. unfold buffered at 1. rewrite F5. cbn [List.length Nat.eqb]. rewrite skipn_length. destruct (buffered p =? 0) eqn:Z; [|apply Nat.eqb_neq in Z; lia].
      apply Nat.eqb_eq in Z. unfold buffered in Z. unfold available in M. pose proof roomy. lia.
Qed.
Lemma byte_held p c ws : sane p -> let '(p', n, _) := put_byte p c ws in
  sane p' /\ n <= 1 /\ held p' = held p ++ firstn n [c] /\ begins (p_file p) (p_file p') /\ (p_err p' = false -> n = 1 /\ p_err p = false).
Proof.
  intros S. unfold put_byte. destruct (p_err p) eqn:E; [cbn; rewrite app_nil_r; repeat split; auto; try congruence; try apply S; apply begins_refl|].
  assert (F : let '(p', ws') := if available p =? 0 then flush p ws else (p, ws) in sane p' /\ held p' = held p /\ begins (p_file p) (p_file p') /\ (p_err p' = false -> List.length (p_buf p') < buf_size)).
  { destruct (available p =? 0) eqn:A.
    - pose proof (flush_held p ws S) as F. destruct (flush p ws) as [p1 ws1]. destruct F as (F1 & F2 & F3 & F4 & _). repeat split; auto; try apply F1. intros Z. destruct (F4 Z) as [-> _]. cbn. pose proof roomy. lia.
    - apply Nat.eqb_neq in A. unfold available in A. repeat split; auto; try apply S; [apply begins_refl|lia]. }
  destruct (if available p =? 0 then flush p ws else (p, ws)) as [p1 ws1]. destruct F as ([F1 F1'] & F2 & F3 & F4). destruct (p_err p1) eqn:E1.
  - cbn. rewrite app_nil_r. repeat split; auto; congruence.
  - unfold sane, held in *. cbn [p_file p_buf p_err p_dead firstn]. rewrite app_length, app_assoc, F2. specialize (F4 eq_refl). cbn [List.length]. repeat split; auto. lia.
Qed.
Lemma do_held fuel p o ws p' n ok ws' : sane p -> do fuel p o ws = Some (p', n, ok, ws') ->
  sane p' /\ n <= List.length (given o) /\ held p' = held p ++ taken o n /\ begins (p_file p) (p_file p') /\ ok = negb (p_err p') /\
  (p_err p' = false -> n = List.length (given o) /\ p_err p = false /\ (o = CFlush -> p_buf p' = [])).
Proof.
  intros S H. unfold do in H. destruct (p_dead p) eqn:D.
  { injection H as <- <- <- <-. rewrite (proj2 S D). unfold taken. cbn. rewrite app_nil_r. repeat split; try lia; try congruence; try apply S; apply begins_refl. }
  destruct o as [d|c|d|]; unfold taken; cbn [given].
  - destruct (put true fuel p d 0 ws) as [[[p1 n1] ws1]|] eqn:P; [|discriminate]. injection H as <- <- <- <-. apply put_held in P as (S1 & k & -> & K & Hh & B & E); [|exact S]. cbn [Nat.add]. split; [exact S1|]. split; [exact K|]. split; [exact Hh|]. split; [exact B|]. split; [reflexivity|]. intros Z. destruct (E Z). repeat split; auto; discriminate.
  - pose proof (byte_held p c ws S) as B. destruct (put_byte p c ws) as [[p1 n1] ws1]. injection H as <- <- <- <-. destruct B as (S1 & K & Hh & B & E). split; [exact S1|]. split; [exact K|]. split; [exact Hh|]. split; [exact B|]. split; [reflexivity|]. intros Z. destruct (E Z). repeat split; auto; discriminate.
  - destruct (put false fuel p d 0 ws) as [[[p1 n1] ws1]|] eqn:P; [|discriminate]. injection H as <- <- <- <-. apply put_held in P as (S1 & k & -> & K & Hh & B & E); [|exact S]. cbn [Nat.add]. split; [exact S1|]. split; [exact K|]. split; [exact Hh|]. split; [exact B|]. split; [reflexivity|]. intros Z. destruct (E Z). repeat split; auto; discriminate.
  - pose proof (flush_held p ws S) as F. destruct (flush p ws) as [p1 ws1]. injection H as <- <- <- <-. destruct F as (S1 & Hh & B & E & _). cbn. rewrite app_nil_r. split; [exact S1|]. split; [lia|]. split; [exact Hh|]. split; [exact B|]. split; [reflexivity|]. intros Z. destruct (E Z). auto.
Qed.
Lemma do_ends fuel p o ws : sane p -> List.length (given o) + 2 < fuel -> exists r, do fuel p o ws = Some r.
Proof.
  intros S L. unfold do. destruct (p_dead p); [eauto|]. destruct o as [d|c|d|]; cbn [given] in L.
  - destruct (put_ends true fuel p d 0 ws S) as [[[p1 n] ws1] ->]; [destruct (buffered p =? 0); lia|]. eauto.
  - destruct (put_byte p c ws) as [[p1 n] ws1]. eauto.
  - destruct (put_ends false fuel p d 0 ws S) as [[[p1 n] ws1] ->]; [destruct (buffered p =? 0); lia|]. eauto.
  - destruct (flush p ws) as [p1 ws1]. eauto.
Qed.
Lemma sane_open f : sane (open_file f).
Proof. split; [cbn; lia|discriminate]. Qed.

Theorem calls_end fuel l : enough fuel l -> forall p ws, sane p -> exists p' rs, calls fuel p l ws = Some (p', rs).
Proof.
  induction l as [|o l IH]; intros F p ws S; [cbn; eauto|]. cbn [calls]. destruct (do_ends fuel p o ws S (F o (or_introl eq_refl))) as [[[[p1 n] ok] ws1] E]. rewrite E.
  destruct (do_held _ _ _ _ _ _ _ _ S E) as (S1 & _). destruct (IH (fun o' H => F o' (or_intror H)) p1 ws1 S1) as (p2 & rs & ->). eauto.
Qed.
Theorem calls_held fuel l : forall p ws p' rs, sane p -> calls fuel p l ws = Some (p', rs) ->
  sane p' /\ held p' = held p ++ all_taken l rs /\ begins (p_file p) (p_file p') /\
  Forall2 (fun o r => fst r <= List.length (given o) /\ (snd r = true -> fst r = List.length (given o))) l rs /\
  (p_err p' = false -> p_err p = false /\ Forall (fun r => snd r = true) rs /\ all_taken l rs = all_given l).
Proof.
  induction l as [|o l IH]; intros p ws p' rs S H; cbn [calls] in H.
  - injection H as <- <-. cbn. rewrite app_nil_r. repeat split; auto; try apply S. apply begins_refl.
  - destruct (do fuel p o ws) as [[[[p1 n] ok] ws1]|] eqn:E; [|discriminate]. destruct (calls fuel p1 l ws1) as [[p2 rs1]|] eqn:E2; [|discriminate]. injection H as <- <-.
    destruct (do_held _ _ _ _ _ _ _ _ S E) as (S1 & N & Hh & B & K & Er). destruct (IH _ _ _ _ S1 E2) as (S2 & Hh2 & B2 & F2 & Er2). split; [exact S2|]. cbn [all_taken]. split; [|split; [|split]].
    + now rewrite Hh2, Hh, app_assoc.
    + eapply begins_trans; eassumption.
    + constructor; [|exact F2]. cbn [fst snd]. split; [exact N|]. intros ->. symmetry in K. apply negb_true_iff in K. now apply Er.
    + intros Z. destruct (Er2 Z) as (Z1 & Z2 & Z3). destruct (Er Z1) as (Z4 & Z5 & _). split; [exact Z5|]. split; [constructor; [cbn; rewrite K, Z1; reflexivity|exact Z2]|].
      unfold all_given in *. cbn [map concat]. rewrite Z3. unfold taken. now rewrite Z4, firstn_all.
Qed.
Lemma calls_app fuel l1 l2 : forall p ws p' rs, calls fuel p (l1 ++ l2) ws = Some (p', rs) -> exists p1 rs1 ws1 rs2, calls fuel p l1 ws = Some (p1, rs1) /\ calls fuel p1 l2 ws1 = Some (p', rs2) /\ rs = rs1 ++ rs2 /\ List.length rs1 = List.length l1.
Proof.
  induction l1 as [|o l1 IH]; intros p ws p' rs H; cbn [app calls] in *.
  - exists p, [], ws, rs. auto.
  - destruct (do fuel p o ws) as [[[[p1 n] ok] ws1]|]; [|discriminate]. destruct (calls fuel p1 (l1 ++ l2) ws1) as [[p2 rs1]|] eqn:E2; [|discriminate]. injection H as <- <-.
    destruct (IH _ _ _ _ E2) as (p3 & rs3 & ws3 & rs4 & E3 & E4 & -> & L). rewrite E3. exists p3, ((n, ok) :: rs3), ws3, rs4. cbn. auto.
Qed.
(* what a Flush that succeeded leaves *)
Theorem flushed fuel f l ws p rs n : calls fuel (open_file f) (l ++ [CFlush]) ws = Some (p, rs ++ [(n, true)]) -> p_file p = f ++ all_given l /\ buffered p = 0.
Proof.
  intros H. destruct (calls_app _ _ _ _ _ _ _ H) as (p1 & rs1 & ws1 & rs2 & E1 & E2 & E & L). cbn [calls] in E2. destruct (do fuel p1 CFlush ws1) as [[[[p2 n2] ok2] ws2]|] eqn:D; [|discriminate]. injection E2 as <- <-.
  apply app_inj_tail in E as [-> E]. injection E as <- <-. destruct (calls_held _ _ _ _ _ _ (sane_open f) E1) as (S1 & Hh & _ & _ & Er). destruct (do_held _ _ _ _ _ _ _ _ S1 D) as (_ & _ & H2 & _ & K & Er2).
  symmetry in K. apply negb_true_iff in K. destruct (Er2 K) as (_ & Z & Bf). specialize (Bf eq_refl). destruct (Er Z) as (_ & _ & G). rewrite Hh, G in H2. unfold held in H2. rewrite Bf in H2. unfold taken in H2. cbn in H2. rewrite firstn_nil, !app_nil_r in H2.
  split; [exact H2|]. unfold buffered. now rewrite Bf.
Qed.
(* a call that failed is the last that does anything *)
Lemma do_err fuel p o ws : p_err p = true -> 0 < fuel -> do fuel p o ws = Some (p, 0, false, ws).
Proof.
  intros E F. unfold do. destruct (p_dead p); [reflexivity|]. destruct fuel as [|fuel]; [lia|]. destruct o as [d|c|d|]; cbn [put].
  - rewrite E. cbn [negb]. rewrite andb_false_r, E. reflexivity.
  - unfold put_byte. rewrite E, E. reflexivity.
  - rewrite E. cbn [negb]. rewrite andb_false_r, E. reflexivity.
  - unfold flush. rewrite E, E. reflexivity.
Qed.
Theorem calls_err fuel l : 0 < fuel -> forall p ws, p_err p = true -> calls fuel p l ws = Some (p, repeat (0, false) (List.length l)).
Proof. intros F. induction l as [|o l IH]; intros p ws E; [reflexivity|]. cbn [calls]. rewrite do_err by assumption. rewrite IH by exact E. reflexivity. Qed.
(* data for which there is room *)
Lemma do_room fuel p o ws : sane p -> 0 < fuel -> p_err p = false -> o <> CFlush -> List.length (given o) <= available p ->
  do fuel p o ws = Some (mkPfile (p_file p) (p_buf p ++ given o) false (p_dead p), List.length (given o), true, ws).
Proof.
  intros S F E N L. unfold do. destruct (p_dead p) eqn:D; [rewrite (proj2 S D) in E; discriminate|]. destruct fuel as [|fuel]; [lia|]. destruct o as [d|c|d|]; cbn [put given] in *; [| | |congruence].
  - replace (available p <? List.length d) with false by (symmetry; apply Nat.ltb_ge; exact L). cbn [andb]. rewrite E. cbn. rewrite D. reflexivity.
  - unfold put_byte. rewrite E. cbn [List.length] in L. replace (available p =? 0) with false by (symmetry; apply Nat.eqb_neq; lia). rewrite E, D. reflexivity.
  - replace (available p <? List.length d) with false by (symmetry; apply Nat.ltb_ge; exact L). cbn [andb]. rewrite E. cbn. rewrite D. reflexivity.
Qed.
(* Persist.v's Write is this one *)
Theorem write_same fuel p d ws : sane p -> List.length d + 2 < fuel -> exists n, put true fuel p d 0 ws = Some (fst (write p d ws), n, snd (write p d ws)).
Proof.
  intros S L. assert (Z : exists f, fuel = Datatypes.S (Datatypes.S (Datatypes.S f))) by (exists (fuel - 3); lia). destruct Z as [g ->]. unfold write. cbn [put]. destruct (p_err p) eqn:E; [cbn [negb]; rewrite andb_false_r; eauto|]. cbn [negb]. rewrite andb_true_r.
  change (buf_size - List.length (p_buf p)) with (available p). destruct (available p <? List.length d) eqn:A.
  2: { apply Nat.ltb_ge in A. replace (List.length d <=? available p) with true by (symmetry; apply Nat.leb_le; exact A). cbn. eauto. }
  apply Nat.ltb_lt in A. replace (List.length d <=? available p) with false by (symmetry; apply Nat.leb_gt; exact A).
  assert (Fr : forall q c nn vs g, p_err q = false -> p_buf q = [] -> exists n, put true (Datatypes.S (Datatypes.S g)) q c nn vs = Some (fst (write_fresh q c vs), n, snd (write_fresh q c vs))).
  { clear. intros q c nn vs g E B. cbn [put]. unfold available, buffered, write_fresh. rewrite B, E. cbn [List.length negb Nat.eqb andb]. rewrite Nat.sub_0_r, andb_true_r. destruct (buf_size <? List.length c) eqn:A.
    - apply Nat.ltb_lt in A. replace (List.length c <=? buf_size) with false by (symmetry; apply Nat.leb_gt; exact A). destruct (next_out vs) as [w vs']. pose proof (file_write_held (p_file q) c w) as F.
      destruct (file_write _ _ w) as [[[f n] e] dd]. destruct F as (_ & _ & F & _). cbn [p_buf p_err p_file p_dead fst snd List.length]. destruct e.
      + cbn [negb]. rewrite andb_false_r. cbn. eauto.
      + rewrite F by reflexivity. rewrite skipn_all. cbn [List.length]. cbn. eauto.
    - apply Nat.ltb_ge in A. replace (List.length c <=? buf_size) with true by (symmetry; apply Nat.leb_le; exact A). cbn. eauto. }
  destruct (p_buf p) as [|c b] eqn:B.
  - destruct (Fr p d 0 ws (Datatypes.S g) E B) as [n Q]. exists n. rewrite <- Q. cbn [put]. rewrite E. cbn [negb]. rewrite andb_true_r. replace (available p <? List.length d) with true by (symmetry; apply Nat.ltb_lt; exact A). rewrite B. reflexivity.
  - unfold buffered. rewrite B. cbn [List.length Nat.eqb andb]. rewrite Nat.min_l by lia. destruct (flush _ ws) as [p1 ws1] eqn:Fl.
    assert (S0 : sane (mkPfile (p_file p) (p_buf p ++ firstn (available p) d) false (p_dead p))).
    { destruct S as [S1 S2]. split; cbn [p_buf p_dead p_err]; [rewrite app_length, firstn_length; unfold available; lia|intros Z; specialize (S2 Z); congruence]. }
    pose proof (flush_held _ ws S0) as F. rewrite B, Fl in F. destruct F as (_ & _ & _ & F4 & _). destruct (p_err p1) eqn:E1.
    + cbn [negb]. rewrite andb_false_r. eauto.
    + destruct (F4 eq_refl) as [F5 _]. destruct (Fr p1 (skipn (available p) d) (0 + available p) ws1 g E1 F5) as [n Q]. exists n. rewrite <- Q. cbn [put]. rewrite E1. cbn [negb andb]. reflexivity.
Qed.
