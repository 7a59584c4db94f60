(* The reader of records accepts the messages of WireSpec.v and no other bytes. *)
From Verif Require Import Base BaseFacts UtilIndex Resp Utf8 Utf8Spec Utf8Proofs Log LogSpec LogProofs WireSpec.
From Coq Require Import ZArith List Ascii Bool Lia.
From Coq Require Import ZifyBool.
Import ListNotations.
Open Scope Z_scope.

(* ---- numbers ---- *)
Lemma groups7_nonneg b x : groups7 b x -> 0 <= x.
Proof. induction 1; pose proof (byteZ_range c); lia. Qed.
Lemma get_more n c t : get_varint (S (S n)) (c :: t) =
  (if byteZ c <? 128 then Some (byteZ c, t) else match get_varint (S n) t with Some (v, r) => Some (byteZ c - 128 + 128 * v, r) | None => None end).
Proof. reflexivity. Qed.
Lemma get_groups7 b x r : groups7 b x -> forall n, (List.length b <= S n)%nat -> x < 2 ^ (7 * Z.of_nat n + 1) -> get_varint (S n) (b ++ r) = Some (x, r).
Proof.
  induction 1 as [c H|c b x H G IH]; intros n L X.
  - pose proof (byteZ_range c). destruct n as [|n].
    + cbn [app get_varint]. rewrite (proj2 (Z.ltb_lt _ _) H). change (2 ^ (7 * Z.of_nat 0 + 1)) with 2 in X. now rewrite (proj2 (Z.ltb_lt _ _) X).
    + cbn [app]. rewrite get_more. now rewrite (proj2 (Z.ltb_lt _ _) H).
  - pose proof (byteZ_range c). pose proof (groups7_nonneg _ _ G). destruct n as [|n].
    + cbn [List.length] in L. destruct b; [inversion G|cbn in L; lia].
    + cbn [app]. rewrite get_more. rewrite (proj2 (Z.ltb_ge _ _)) by lia. rewrite IH; [reflexivity|cbn in L; lia|].
      replace (7 * Z.of_nat (S n) + 1) with (7 + (7 * Z.of_nat n + 1)) in X by lia. rewrite Z.pow_add_r in X by lia. change (2 ^ 7) with 128 in X. lia.
Qed.
Lemma consume_int b x r : int b x -> consume_varint (b ++ r) = Some (x, r).
Proof. intros (G & L & X). apply (get_groups7 b x r G 9); [exact L|exact X]. Qed.
Lemma got_groups7 n : forall b x r, get_varint (S n) b = Some (x, r) -> exists p, b = p ++ r /\ groups7 p x /\ (List.length p <= S n)%nat /\ x < 2 ^ (7 * Z.of_nat n + 1).
Proof.
  induction n as [|n IH]; intros [|c b] x r E; try discriminate E.
  - cbn [get_varint] in E. destruct (byteZ c <? 128) eqn:H; [|discriminate]. destruct (byteZ c <? 2) eqn:H2; [|discriminate]. injection E as <- <-.
    exists [c]. split; [reflexivity|]. split; [constructor; lia|]. split; [cbn; lia|]. change (2 ^ (7 * Z.of_nat 0 + 1)) with 2. lia.
  - rewrite get_more in E. assert (P : 2 ^ (7 * Z.of_nat (S n) + 1) = 128 * 2 ^ (7 * Z.of_nat n + 1)).
    { replace (7 * Z.of_nat (S n) + 1) with (7 + (7 * Z.of_nat n + 1)) by lia. now rewrite Z.pow_add_r by lia. }
    assert (Pos : 2 <= 2 ^ (7 * Z.of_nat n + 1)) by (change 2 with (2 ^ 1) at 1; apply Z.pow_le_mono_r; lia).
    destruct (byteZ c <? 128) eqn:H.
    + injection E as <- <-. exists [c]. split; [reflexivity|]. split; [constructor; lia|]. split; [cbn; lia|]. lia.
    + destruct (get_varint (S n) b) as [[y t]|] eqn:G; [|discriminate]. injection E as <- <-. apply IH in G as (p & -> & G & L & X).
      exists (c :: p). split; [reflexivity|]. split; [constructor; [lia|exact G]|]. split; [cbn; lia|]. pose proof (byteZ_range c). lia.
Qed.
Lemma consumed_int b x r : consume_varint b = Some (x, r) -> exists p, b = p ++ r /\ int p x.
Proof. intros E. apply (got_groups7 9) in E as (p & -> & G & L & X). exists p. split; [reflexivity|]. split; [exact G|]. split; [exact L|exact X]. Qed.
Lemma int_nonneg b x : int b x -> 0 <= x.
Proof. intros (G & _). exact (groups7_nonneg _ _ G). Qed.

(* ---- the parts of a field ---- *)
Lemma tag_split n typ : 0 <= typ < 8 -> (n * 8 + typ) / 8 = n /\ (n * 8 + typ) mod 8 = typ.
Proof. intros H. replace (n * 8 + typ) with (typ + n * 8) by lia. rewrite Z.div_add, Z.mod_add, Z.div_small, Z.mod_small by lia. lia. Qed.
Lemma top_int t n typ r : int t (n * 8 + typ) -> 1 <= n < 2 ^ 29 -> 0 <= typ < 8 -> top_tag (t ++ r) = Some (n, typ, r).
Proof. intros I N T. unfold top_tag. rewrite (consume_int _ _ _ I). destruct (tag_split n typ T) as [-> ->]. rewrite (proj2 (orb_false_iff _ _)); [reflexivity|lia]. Qed.
Lemma inner_int t n typ r : int t (n * 8 + typ) -> 1 <= n < 2 ^ 31 -> 0 <= typ < 8 -> inner_tag (t ++ r) = Some (n, typ, r).
Proof. intros I N T. unfold inner_tag. rewrite (consume_int _ _ _ I). destruct (tag_split n typ T) as [-> ->]. rewrite (proj2 (orb_false_iff _ _)); [reflexivity|lia]. Qed.
Lemma top_split b n typ r : top_tag b = Some (n, typ, r) -> exists t, b = t ++ r /\ int t (n * 8 + typ) /\ 1 <= n < 2 ^ 29 /\ 0 <= typ < 8.
Proof.
  unfold top_tag. destruct (consume_varint b) as [[x s]|] eqn:C; [|discriminate]. destruct (_ || _) eqn:O; [discriminate|]. intros E. injection E as <- <- <-.
  apply consumed_int in C as (p & -> & I). exists p. pose proof (Z.div_mod x 8 ltac:(lia)). pose proof (Z.mod_pos_bound x 8 ltac:(lia)).
  split; [reflexivity|]. split; [now replace (x / 8 * 8 + x mod 8) with x by lia|]. split; [|lia]. apply orb_false_iff in O. lia.
Qed.
Lemma inner_split b n typ r : inner_tag b = Some (n, typ, r) -> exists t, b = t ++ r /\ int t (n * 8 + typ) /\ 1 <= n < 2 ^ 31 /\ 0 <= typ < 8.
Proof.
  unfold inner_tag. destruct (consume_varint b) as [[x s]|] eqn:C; [|discriminate]. destruct (_ || _) eqn:O; [discriminate|]. intros E. injection E as <- <- <-.
  apply consumed_int in C as (p & -> & I). exists p. pose proof (Z.div_mod x 8 ltac:(lia)). pose proof (Z.mod_pos_bound x 8 ltac:(lia)).
  split; [reflexivity|]. split; [now replace (x / 8 * 8 + x mod 8) with x by lia|]. split; [|lia]. apply orb_false_iff in O. lia.
Qed.
Lemma consume_text h s r : int h (blen s) -> consume_bytes ((h ++ s) ++ r) = Some (s, r).
Proof.
  intros I. unfold consume_bytes. rewrite <- app_assoc, (consume_int _ _ _ I), blen_app. pose proof (blen_nonneg r).
  rewrite (proj2 (Z.ltb_ge _ _)) by lia. unfold blen. rewrite Nat2Z.id. rewrite firstn_app, Nat.sub_diag, firstn_all, firstn_O, app_nil_r.
  rewrite skipn_app, skipn_all, Nat.sub_diag. reflexivity.
Qed.
Lemma consumed_text b s r : consume_bytes b = Some (s, r) -> exists h, b = (h ++ s) ++ r /\ int h (blen s).
Proof.
  unfold consume_bytes. destruct (consume_varint b) as [[n t]|] eqn:C; [|discriminate]. destruct (blen t <? n) eqn:L; [discriminate|]. intros E. injection E as <- <-.
  apply consumed_int in C as (h & -> & I). pose proof (int_nonneg _ _ I). exists h. split; [now rewrite <- app_assoc, firstn_skipn|].
  replace (blen (firstn (Z.to_nat n) t)) with n; [exact I|]. unfold blen in *. rewrite firstn_length. lia.
Qed.
Lemma consume_fix k b r : List.length b = k -> consume_fixed k (b ++ r) = Some r.
Proof.
  intros <-. unfold consume_fixed. rewrite app_length. destruct (Nat.ltb_spec (List.length b + List.length r) (List.length b)); [lia|].
  rewrite skipn_app, skipn_all, Nat.sub_diag. reflexivity.
Qed.
Lemma consumed_fix k b r : consume_fixed k b = Some r -> exists p, b = p ++ r /\ List.length p = k.
Proof.
  unfold consume_fixed. destruct (Nat.ltb_spec (List.length b) k); [discriminate|]. intros E. injection E as <-. exists (firstn k b). split; [now rewrite firstn_skipn|]. rewrite firstn_length. lia.
Qed.

Scheme value_mind := Minimality for value Sort Prop with group_mind := Minimality for group Sort Prop.
Combined Scheme value_group_mind from value_mind, group_mind.
Lemma value_typ n typ b c : value n typ b c -> 0 <= typ < 8 /\ typ <> 4.
Proof. destruct 1; lia. Qed.
Lemma skips : (forall n typ b c, value n typ b c -> 1 <= n < 2 ^ 31 -> forall r, exists f0, forall f, (f0 <= f)%nat -> skip_field f n typ (b ++ r) = Some r) /\
  (forall n b, group n b -> 1 <= n < 2 ^ 31 -> forall r, exists f0, forall f, (f0 <= f)%nat -> skip_group f n (b ++ r) = Some r).
Proof.
  apply value_group_mind.
  - intros n b x I _ r. exists 1%nat. intros [|f] F; [lia|]. cbn [skip_field]. change (0 =? 0) with true. cbn iota. now rewrite (consume_int _ _ _ I).
  - intros n b L _ r. exists 1%nat. intros [|f] F; [lia|]. cbn [skip_field]. change (1 =? 0) with false. change (1 =? 1) with true. cbn iota. now apply consume_fix.
  - intros n h s I _ r. exists 1%nat. intros [|f] F; [lia|]. cbn [skip_field]. change (2 =? 0) with false. change (2 =? 1) with false. change (2 =? 2) with true. cbn iota. now rewrite consume_text.
  - intros n b _ IH N r. destruct (IH N r) as [f0 H]. exists (S f0). intros [|f] F; [lia|]. cbn [skip_field].
    change (3 =? 0) with false. change (3 =? 1) with false. change (3 =? 2) with false. change (3 =? 3) with true. cbn iota. apply H. lia.
  - intros n b L _ r. exists 1%nat. intros [|f] F; [lia|]. cbn [skip_field].
    change (5 =? 0) with false. change (5 =? 1) with false. change (5 =? 2) with false. change (5 =? 3) with false. change (5 =? 5) with true. cbn iota. now apply consume_fix.
  - intros n t I N r. exists 1%nat. intros [|f] F; [lia|]. cbn [skip_group]. rewrite (inner_int t n 4 r I) by lia. change (4 =? 4) with true. cbn iota. now rewrite Z.eqb_refl.
  - intros n t m typ b c r0 I M V IHv _ IHg N r. destruct (IHv M (r0 ++ r)) as [f1 H1]. destruct (IHg N r) as [f2 H2]. destruct (value_typ _ _ _ _ V) as [T T4].
    exists (S (f1 + f2)). intros [|f] F; [lia|]. cbn [skip_group]. rewrite <- !app_assoc. rewrite (inner_int t m typ _ I M T). rewrite (proj2 (Z.eqb_neq _ _) T4).
    rewrite H1 by lia. apply H2. lia.
Qed.
Lemma skip_value n typ b c r : value n typ b c -> 1 <= n < 2 ^ 31 -> skip_unknown n typ (b ++ r) = Some r.
Proof. intros V N. destruct (proj1 skips _ _ _ _ V N r) as [f0 H]. rewrite <- (skip_enough n typ (b ++ r) f0). apply H. lia. Qed.
Lemma skipped f : (forall n typ b r, skip_field f n typ b = Some r -> exists p c, b = p ++ r /\ value n typ p c) /\
  (forall n b r, skip_group f n b = Some r -> exists p, b = p ++ r /\ group n p).
Proof.
  induction f as [|f [IH1 IH2]]; [split; discriminate|]. split.
  - intros n typ b r H. cbn [skip_field] in H.
    destruct (Z.eqb_spec typ 0) as [->|]. { destruct (consume_varint b) as [[x s]|] eqn:E; [|discriminate]. injection H as <-. apply consumed_int in E as (p & -> & I). exists p, (CInt x). split; [reflexivity|now constructor]. }
    destruct (Z.eqb_spec typ 1) as [->|]. { apply consumed_fix in H as (p & -> & L). exists p, COther. split; [reflexivity|now constructor]. }
    destruct (Z.eqb_spec typ 2) as [->|]. { destruct (consume_bytes b) as [[x s]|] eqn:E; [|discriminate]. injection H as <-. apply consumed_text in E as (p & -> & I). exists (p ++ x), (CText x). split; [reflexivity|now constructor]. }
    destruct (Z.eqb_spec typ 3) as [->|]. { apply IH2 in H as (p & -> & G). exists p, COther. split; [reflexivity|now constructor]. }
    destruct (Z.eqb_spec typ 5) as [->|]; [|discriminate]. apply consumed_fix in H as (p & -> & L). exists p, COther. split; [reflexivity|now constructor].
  - intros n b r H. cbn [skip_group] in H. destruct (inner_tag b) as [[[m typ] r1]|] eqn:E; [|discriminate]. apply inner_split in E as (t & -> & I & M & T).
    destruct (Z.eqb_spec typ 4) as [->|].
    + destruct (Z.eqb_spec m n) as [->|]; [|discriminate]. injection H as <-. exists t. split; [reflexivity|now constructor].
    + destruct (skip_field f m typ r1) as [r2|] eqn:E2; [|discriminate]. apply IH1 in E2 as (p & c & -> & V). apply IH2 in H as (g & -> & G).
      exists (t ++ p ++ g). split; [now rewrite <- !app_assoc|]. econstructor; eassumption.
Qed.

(* ---- one field of the message ---- *)
Lemma string_number n : is_string_field n = true <-> text_field n.
Proof. unfold is_string_field, text_field. rewrite !orb_true_iff, !Z.eqb_eq. cbn [In]. intuition. Qed.
Lemma take_text v n s : text_field n -> take v (n, CText s) = set_string v n s.
Proof. unfold text_field. cbn [In]. intros H. decompose [or] H; subst; try contradiction; reflexivity. Qed.
Lemma int_number n : is_int_field n = true <-> n = 2 \/ n = 5.
Proof. unfold is_int_field. rewrite !orb_true_iff, !Z.eqb_eq. tauto. Qed.
Lemma take_int v n x : n = 2 \/ n = 5 -> take v (n, CInt x) = set_int v n x.
Proof. intros [->| ->]; reflexivity. Qed.
Lemma take_else v n c : ~ known n -> take v (n, c) = v.
Proof.
  unfold known. cbn [In]. intros H. unfold take. destruct n as [|p|p]; try reflexivity.
  do 8 (destruct p as [p|p|]; try reflexivity; try (exfalso; apply H; clear H; auto 10; fail)).
Qed.
Lemma take_other v n : take v (n, COther) = v.
Proof.
  unfold take. destruct n as [|p|p]; try reflexivity. do 8 (destruct p as [p|p|]; try reflexivity).
Qed.
Lemma take_wrong_text v n s : ~ text_field n -> take v (n, CText s) = v.
Proof.
  intros H. destruct (Z.eq_dec n 2) as [->|]; [reflexivity|]. destruct (Z.eq_dec n 5) as [->|]; [reflexivity|]. apply take_else. unfold text_field in H. unfold known. cbn [In] in *. intuition.
Qed.
Lemma take_wrong_int v n x : n <> 2 -> n <> 5 -> take v (n, CInt x) = v.
Proof.
  intros A B. unfold take. destruct n as [|p|p]; try reflexivity. do 8 (destruct p as [p|p|]; try reflexivity; try congruence).
Qed.
Lemma read_field v t n typ b c r : int t (n * 8 + typ) -> 1 <= n < 2 ^ 29 -> value n typ b c ->
  (forall s, c = CText s -> text_field n -> utf8 s) -> unmarshal_field v (t ++ b ++ r) = Some (take v (n, c), r).
Proof.
  intros I N V U. destruct (value_typ _ _ _ _ V) as [T T4]. unfold unmarshal_field. rewrite (top_int t n typ _ I N T). rewrite (proj2 (Z.eqb_neq _ _) T4).
  assert (K : skip_unknown n typ (b ++ r) = Some r) by (eapply skip_value; [exact V|lia]).
  destruct V as [n b x J|n b L|n h s J|n b G|n b L].
  - change (0 =? 2) with false. rewrite andb_false_r. change (0 =? 0) with true. rewrite andb_true_r. destruct (is_int_field n) eqn:F.
    + apply int_number in F. rewrite (consume_int _ _ _ J), take_int by exact F. reflexivity.
    + rewrite K, take_wrong_int; [reflexivity|intros ->; discriminate F|intros ->; discriminate F].
  - change (1 =? 2) with false. change (1 =? 0) with false. rewrite !andb_false_r, K, take_other. reflexivity.
  - change (2 =? 2) with true. change (2 =? 0) with false. rewrite andb_true_r, andb_false_r. destruct (is_string_field n) eqn:F.
    + apply string_number in F. rewrite (consume_text _ _ _ J). specialize (U s eq_refl F). apply valid_utf8_spec in U. rewrite U, take_text by exact F. reflexivity.
    + rewrite K, take_wrong_text; [reflexivity|]. intros Q. apply string_number in Q. congruence.
  - change (3 =? 2) with false. change (3 =? 0) with false. rewrite !andb_false_r, K, take_other. reflexivity.
  - change (5 =? 2) with false. change (5 =? 0) with false. rewrite !andb_false_r, K, take_other. reflexivity.
Qed.
Lemma field_read v b v' r : unmarshal_field v b = Some (v', r) ->
  exists t n typ p c, b = t ++ p ++ r /\ int t (n * 8 + typ) /\ 1 <= n < 2 ^ 29 /\ value n typ p c /\ v' = take v (n, c) /\ forall s, c = CText s -> text_field n -> utf8 s.
Proof.
  unfold unmarshal_field. destruct (top_tag b) as [[[n typ] r1]|] eqn:E; [|discriminate]. apply top_split in E as (t & -> & I & N & T).
  destruct (Z.eqb_spec typ 4) as [|T4]; [discriminate|]. destruct (is_string_field n && (typ =? 2)) eqn:F.
  { apply andb_true_iff in F as [F F2]. apply Z.eqb_eq in F2. subst typ. apply string_number in F. destruct (consume_bytes r1) as [[s r2]|] eqn:C; [|discriminate].
    destruct (valid_utf8 s) eqn:U; [|discriminate]. intros E. injection E as <- <-. apply consumed_text in C as (h & -> & J). apply valid_utf8_spec in U.
    exists t, n, 2, (h ++ s), (CText s). rewrite take_text by exact F. split; [reflexivity|]. split; [exact I|]. split; [exact N|]. split; [now constructor|]. split; [reflexivity|]. intros s' [= <-] _. exact U. }
  destruct (is_int_field n && (typ =? 0)) eqn:G.
  { apply andb_true_iff in G as [G G2]. apply Z.eqb_eq in G2. subst typ. apply int_number in G. destruct (consume_varint r1) as [[x r2]|] eqn:C; [|discriminate].
    intros E. injection E as <- <-. apply consumed_int in C as (h & -> & J). exists t, n, 0, h, (CInt x). rewrite take_int by exact G. split; [reflexivity|]. split; [exact I|]. split; [exact N|]. split; [now constructor|]. split; [reflexivity|]. discriminate. }
  destruct (skip_unknown n typ r1) as [r2|] eqn:S; [|discriminate]. intros E. injection E as <- <-. apply skipped in S as (p & c & -> & V).
  exists t, n, typ, p, c. split; [reflexivity|]. split; [exact I|]. split; [exact N|]. split; [exact V|].
  destruct V as [n p x J|n p L|n h s J|n p Gr|n p L]; try (split; [now rewrite take_other|discriminate]).
  - change (0 =? 0) with true in G. rewrite andb_true_r in G. split; [|discriminate]. rewrite take_wrong_int; [reflexivity|intros ->; discriminate G|intros ->; discriminate G].
  - change (2 =? 2) with true in F. rewrite andb_true_r in F. assert (K : ~ text_field n) by (intros Q; apply string_number in Q; congruence). split; [now rewrite take_wrong_text|]. intros s' _ Q. contradiction.
Qed.

(* ---- whole messages ---- *)
Lemma read_fields b fs : message b fs -> texts_ok fs -> forall v, fields v b = Some (fold_left take fs v).
Proof.
  induction 1 as [|t n typ p c r fs I N V M IH]; intros U v; [reflexivity|]. rewrite (fields_step v _ (take v (n, c)) r).
  - rewrite IH; [reflexivity|]. intros m s Hi. apply U. now right.
  - eapply read_field; eauto. intros s -> K. eapply U; [left; reflexivity|exact K].
Qed.
Lemma fields_none v c b : unmarshal_field v (c :: b) = None -> fields v (c :: b) = None.
Proof. intros E. unfold fields. cbn [List.length unmarshal_loop]. now rewrite E. Qed.
Lemma fields_read k : forall b v v', (List.length b <= k)%nat -> fields v b = Some v' -> exists fs, message b fs /\ texts_ok fs /\ v' = fold_left take fs v.
Proof.
  induction k as [|k IH]; intros b v v' L E.
  - destruct b; [|cbn in L; lia]. injection E as <-. exists []. split; [constructor|]. split; [intros ? ? []|reflexivity].
  - destruct b as [|x b]; [injection E as <-; exists []; split; [constructor|]; split; [intros ? ? []|reflexivity]|].
    destruct (unmarshal_field v (x :: b)) as [[v1 r]|] eqn:F; [|rewrite fields_none in E by exact F; discriminate].
    pose proof (unmarshal_field_len _ _ _ _ F) as L1. rewrite (fields_step _ _ _ _ F) in E. apply IH in E as (fs & M & U & ->); [|cbn [List.length] in *; lia].
    apply field_read in F as (t & n & typ & p & c & -> & I & N & V & -> & K). exists ((n, c) :: fs). split; [econstructor; eassumption|]. split; [|reflexivity].
    intros m s [Q|Q] Tm; [injection Q as -> ->; eapply K; [reflexivity|exact Tm]|eapply U; eassumption].
Qed.
Theorem unmarshal_exact b v : unmarshal b = Some v <-> exists fs, message b fs /\ texts_ok fs /\ v = meaning fs.
Proof.
  change (unmarshal b) with (fields empty_vlog b). split.
  - intros E. eapply fields_read; [apply Nat.le_refl|exact E].
  - intros (fs & M & U & ->). now apply read_fields.
Qed.
Lemma head_fun t n typ p c r t' n' typ' p' c' r' : int t (n * 8 + typ) -> 1 <= n < 2 ^ 29 -> value n typ p c -> int t' (n' * 8 + typ') -> 1 <= n' < 2 ^ 29 -> value n' typ' p' c' ->
  t ++ p ++ r = t' ++ p' ++ r' -> n = n' /\ c = c' /\ r = r'.
Proof.
  intros I N V I' N' V' Q. destruct (value_typ _ _ _ _ V) as [T _]. destruct (value_typ _ _ _ _ V') as [T' _]. pose proof (top_int t n typ (p ++ r) I N T) as J. rewrite Q, (top_int t' n' typ' _ I' N' T') in J.
  injection J as -> -> J. pose proof (skip_value _ _ _ _ r V ltac:(lia)) as S. pose proof (skip_value _ _ _ _ r' V' ltac:(lia)) as S'. rewrite J in S'. rewrite S in S'. injection S' as <-.
  apply app_inv_tail in J. subst p'. split; [reflexivity|]. split; [|reflexivity]. inversion V; subst; inversion V'; subst; try reflexivity.
  - match goal with H : int p ?a, H' : int p ?b |- _ => pose proof (consume_int _ _ [] H) as Z1; pose proof (consume_int _ _ [] H') as Z2; rewrite Z1 in Z2; injection Z2 as -> end. reflexivity.
  - match goal with H : ?h ++ ?s = ?h' ++ ?s', I1 : int ?h (blen ?s), I2 : int ?h' (blen ?s') |- _ => pose proof (consume_text _ _ [] I1) as Z1; pose proof (consume_text _ _ [] I2) as Z2; rewrite H in Z1; rewrite Z1 in Z2; injection Z2 as -> end. reflexivity.
Qed.
Lemma int_nonempty t x r : int t x -> t ++ r <> [].
Proof. intros [I _] E. apply app_eq_nil in E as [-> _]. inversion I. Qed.
Theorem message_fun b fs : message b fs -> forall fs', message b fs' -> fs = fs'.
Proof.
  induction 1 as [|t n typ p c r fs I N V M IH]; intros fs' M'.
  - inversion M' as [|t n typ p c r fs I N V M E]; [reflexivity|]. destruct (int_nonempty _ _ _ I E).
  - inversion M' as [E|t' n' typ' p' c' r' fs1 I' N' V' M1 E]; [symmetry in E; destruct (int_nonempty _ _ _ I E)|]. subst fs'.
    destruct (head_fun _ _ _ _ _ _ _ _ _ _ _ _ I' N' V' I N V E) as (-> & -> & ->). f_equal. now apply IH.
Qed.
Theorem bad_text b fs : message b fs -> ~ texts_ok fs -> unmarshal b = None.
Proof.
  intros M U. destruct (unmarshal b) as [v|] eqn:E; [|reflexivity]. apply unmarshal_exact in E as (fs' & M' & U' & _). rewrite (message_fun _ _ M _ M') in U. contradiction.
Qed.
Lemma message_app b fs b' fs' : message b fs -> message b' fs' -> message (b ++ b') (fs ++ fs').
Proof. intros M M'. induction M as [|t n typ p c r fs I N V M IH]; [exact M'|]. cbn [app]. rewrite <- !app_assoc. econstructor; eassumption. Qed.
Theorem unknown_ignored b1 fs1 x n c b2 v : message b1 fs1 -> message x [(n, c)] -> ~ known n -> unmarshal (b1 ++ b2) = Some v -> unmarshal (b1 ++ x ++ b2) = Some v.
Proof.
  intros M1 Mx K E. change (fields empty_vlog (b1 ++ x ++ b2) = Some v). change (fields empty_vlog (b1 ++ b2) = Some v) in E.
  assert (A : forall b fs, message b fs -> forall w r, fields w (b ++ r) = Some v -> texts_ok fs).
  { induction 1 as [|t m typ p d r0 fs I N V M IH]; intros w r F; [intros ? ? []|]. rewrite <- !app_assoc in F.
    destruct (unmarshal_field w (t ++ p ++ r0 ++ r)) as [[w1 r1]|] eqn:G.
    2: { exfalso. destruct (t ++ p ++ r0 ++ r) as [|y z] eqn:Q; [|rewrite fields_none in F by exact G; discriminate]. apply app_eq_nil in Q as [-> _]. destruct I as [I _]. inversion I. }
    pose proof G as G0. apply field_read in G as (t' & m' & typ' & p' & d' & Q & I' & N' & V' & -> & U').
    destruct (head_fun _ _ _ _ _ _ _ _ _ _ _ _ I N V I' N' V' Q) as (<- & <- & <-). rewrite (fields_step _ _ _ _ G0) in F. pose proof (IH _ _ F) as U.
    intros k s [Y|Y] Tk; [injection Y as -> ->; eapply U'; [reflexivity|exact Tk]|eapply U; eassumption]. }
  pose proof (A _ _ M1 _ _ E) as U1.
  assert (B : forall b fs, message b fs -> texts_ok fs -> forall w r, fields w (b ++ r) = fields (fold_left take fs w) r).
  { induction 1 as [|t m typ p d r0 fs I N V M IH]; intros U w r; [reflexivity|]. rewrite <- !app_assoc. rewrite (fields_step w _ (take w (m, d)) (r0 ++ r)).
    - rewrite IH; [reflexivity|]. intros k s Hi. apply U. now right.
    - eapply read_field; eauto. intros s -> Q. eapply U; [left; reflexivity|exact Q]. }
  rewrite (B _ _ M1 U1) in E |- *. rewrite (B _ _ Mx).
  - cbn [fold_left]. now rewrite take_else.
  - intros m s [Q|[]] Tm. injection Q as -> ->. exfalso. apply K. unfold text_field in Tm. unfold known. cbn [In] in *. intuition.
Qed.
Lemma le32_sum a b c d : le32_value [a; b; c; d] = byteZ a + 256 * byteZ b + 65536 * byteZ c + 16777216 * byteZ d.
Proof. cbn [le32_value]. lia. Qed.
Lemma four s : 4 <= blen s -> exists a b c d s', s = a :: b :: c :: d :: s'.
Proof. destruct s as [|a [|b [|c [|d s']]]]; unfold blen; cbn [List.length]; intros; try lia. eauto 6. Qed.
Theorem parse_log_file s : log_file s (fst (parse_log s)) (snd (parse_log s)).
Proof.
  remember (List.length s) as k eqn:K. revert s K. induction k as [k IH] using lt_wf_ind. intros s ->. rewrite parse_log_step.
  pose proof (read_log_len s) as L. unfold read_log in *. destruct (Z.lt_ge_cases (blen s) 4) as [S|S].
  - rewrite (read_exact_short 4 s S). now constructor.
  - destruct (four s S) as (a & b & c & d & s' & ->). change (a :: b :: c :: d :: s') with ([a; b; c; d] ++ s') in L |- *. rewrite (read_exact_app 4 [a; b; c; d] s' eq_refl) in L |- *.
    pose proof (le32_sum a b c d) as E. pose proof (byteZ_range a). pose proof (byteZ_range b). pose proof (byteZ_range c). pose proof (byteZ_range d).
    destruct (Z.lt_ge_cases (blen s') (le32_value [a; b; c; d])) as [T|T].
    + rewrite (read_exact_short _ s' T). apply f_cut. lia.
    + remember (Z.to_nat (le32_value [a; b; c; d])) as n eqn:N.
      assert (M : blen (firstn n s') = le32_value [a; b; c; d]) by (unfold blen in *; rewrite firstn_length; lia).
      rewrite <- (firstn_skipn n s') in IH, L |- *. revert M IH L. generalize (firstn n s') as m, (skipn n s') as r. intros m r M IH L. rewrite (read_exact_app _ m r M) in L |- *.
      assert (M' : blen m = byteZ a + 256 * byteZ b + 65536 * byteZ c + 16777216 * byteZ d) by lia. clear M E T N.
      destruct (unmarshal m) as [v|] eqn:U.
      * cbn [fst snd]. apply (f_record a b c d m r); [exact M'|now apply unmarshal_exact|]. eapply IH; [exact L|reflexivity].
      * apply (f_bad a b c d m r); [exact M'| |]; [|eapply IH; [exact L|reflexivity]]. intros v R. apply unmarshal_exact in R. congruence.
Qed.
Theorem log_file_fun s vs e : log_file s vs e -> parse_log s = (vs, e).
Proof.
  induction 1 as [s S|a b c d s S|a b c d m s v vs e M R F IH|a b c d m s vs e M R F IH]; rewrite parse_log_step; unfold read_log.
  - now rewrite (read_exact_short 4 s S).
  - change (a :: b :: c :: d :: s) with ([a; b; c; d] ++ s). rewrite (read_exact_app 4 [a; b; c; d] s eq_refl). rewrite read_exact_short by (rewrite le32_sum; lia). reflexivity.
  - change (a :: b :: c :: d :: m ++ s) with ([a; b; c; d] ++ m ++ s). rewrite (read_exact_app 4 [a; b; c; d] _ eq_refl). rewrite (read_exact_app _ m s) by (rewrite le32_sum; lia).
    apply unmarshal_exact in R. rewrite R, IH. reflexivity.
  - change (a :: b :: c :: d :: m ++ s) with ([a; b; c; d] ++ m ++ s). rewrite (read_exact_app 4 [a; b; c; d] _ eq_refl). rewrite (read_exact_app _ m s) by (rewrite le32_sum; lia).
    destruct (unmarshal m) as [v|] eqn:U; [apply unmarshal_exact in U; destruct (R v U)|exact IH].
Qed.
