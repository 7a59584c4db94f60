From Verif Require Import Base BaseFacts Utf8 Utf8Spec.
From Coq Require Import ZArith List Ascii Bool Lia ZifyBool.
Import ListNotations.
Open Scope Z_scope.

Lemma within_spec lo hi c : within lo hi c = true <-> lo <= byteZ c <= hi.
Proof. unfold within. rewrite andb_true_iff. lia. Qed.
Lemma cont_spec c : cont c = true <-> 128 <= byteZ c <= 191.
Proof. unfold cont. rewrite andb_true_iff. lia. Qed.

Lemma div_lt a b c : 0 < b -> 0 <= a < b * c -> 0 <= a / b < c.
Proof. intros. split; [apply Z.div_pos; lia|]. apply Z.div_lt_upper_bound; lia. Qed.

Local Ltac pick := repeat match goal with |- (if ?c then _ else _) = _ => destruct c eqn:?; try (exfalso; lia) end.
Lemma utf8_char_valid u s : scalar u -> valid_utf8 (utf8_char u ++ s) = valid_utf8 s.
Proof.
  intros H. unfold utf8_char.
  pose proof (Z.mod_pos_bound u 64 ltac:(lia)) as M0. pose proof (Z.mod_pos_bound (u / 64) 64 ltac:(lia)) as M1.
  pose proof (Z.mod_pos_bound (u / 4096) 64 ltac:(lia)) as M2.
  pose proof (Z.div_mod u 64 ltac:(lia)) as D0. pose proof (Z.div_mod (u / 64) 64 ltac:(lia)) as D1.
  pose proof (Z.div_mod (u / 4096) 64 ltac:(lia)) as D2.
  rewrite Z.div_div in D1 by lia. rewrite Z.div_div in D2 by lia. change (64 * 64) with 4096 in D1. change (4096 * 64) with 262144 in D2.
  generalize dependent (u / 262144). intros z. generalize dependent (u / 4096). intros y. generalize dependent (u / 64). intros x.
  generalize dependent (u mod 64). intros a. generalize dependent (y mod 64). intros c. generalize dependent (x mod 64). intros b. intros.
  assert (T : forall q r, q = true -> q && r = r) by (intros; subst; reflexivity).
  unfold scalar in H.
  destruct (u <? 128) eqn:E1; [|destruct (u <? 2048) eqn:E2; [|destruct (u <? 65536) eqn:E3]]; cbn [app valid_utf8].
  - rewrite byteZ_byteOf by lia. rewrite E1. reflexivity.
  - unfold within, cont. rewrite !byteZ_byteOf by lia. pick. apply T. lia.
  - unfold within, cont. rewrite !byteZ_byteOf by lia. pick.
    apply T.
    destruct (224 + y =? 224) eqn:Ea; destruct (224 + y =? 237) eqn:Eb; lia.
  - unfold within, cont. rewrite !byteZ_byteOf by lia. pick.
    apply T.
    destruct (240 + z =? 240) eqn:Ea; destruct (240 + z =? 244) eqn:Eb; lia.
Qed.

Lemma byte_eq c z : byteZ c = z -> c = byteOf z.
Proof. intros <-. symmetry. apply byteOf_byteZ. Qed.
Lemma div_add_small q r n : 0 < n -> 0 <= r < n -> (q * n + r) / n = q.
Proof. intros. symmetry. apply (Z.div_unique_pos _ _ q r); lia. Qed.
Lemma mod_add_small q r n : 0 < n -> 0 <= r < n -> (q * n + r) mod n = r.
Proof. intros. symmetry. apply (Z.mod_unique_pos _ _ q r); lia. Qed.

Lemma valid_char n : forall s, (length s <= n)%nat -> valid_utf8 s = true -> utf8 s.
Proof.
  induction n as [|n IH]; intros s Hl H.
  { destruct s; [|cbn in Hl; lia]. exists []. split; [constructor|reflexivity]. }
  assert (K : forall u s', scalar u -> (length s' <= n)%nat -> valid_utf8 s' = true -> s = utf8_char u ++ s' -> utf8 s).
  { intros u s' Hu Hs' Hv ->. destruct (IH s' Hs' Hv) as (us & Hus & ->). exists (u :: us). split; [constructor; auto|reflexivity]. }
  destruct s as [|a s1]; [exists []; split; [constructor|reflexivity]|]. cbn [valid_utf8] in H. cbn [length] in Hl.
  pose proof (byteZ_range a) as Ra.
  destruct (byteZ a <? 128) eqn:E1.
  { apply (K (byteZ a) s1); [unfold scalar; lia|lia|exact H|]. unfold utf8_char. rewrite E1. now rewrite byteOf_byteZ. }
  destruct (within 194 223 a) eqn:E2.
  { apply within_spec in E2. destruct s1 as [|b s2]; [discriminate|]. apply andb_true_iff in H as [Hb H]. apply cont_spec in Hb. cbn [length] in Hl.
    apply (K ((byteZ a - 192) * 64 + (byteZ b - 128)) s2); [unfold scalar; lia|lia|exact H|].
    unfold utf8_char. rewrite (proj2 (Z.ltb_ge _ _)) by lia. rewrite (proj2 (Z.ltb_lt _ _)) by lia.
    rewrite div_add_small, mod_add_small by lia. cbn [app]. rewrite <- (byte_eq a), <- (byte_eq b) by lia. reflexivity. }
  destruct (within 224 239 a) eqn:E3.
  { apply within_spec in E3. destruct s1 as [|b [|c s3]]; try discriminate. apply andb_true_iff in H as [H1 H]. apply andb_true_iff in H1 as [Hb Hc].
    apply cont_spec in Hc. apply within_spec in Hb. cbn [length] in Hl.
    assert (Hb' : 128 <= byteZ b <= 191 /\ (byteZ a = 224 -> 160 <= byteZ b) /\ (byteZ a = 237 -> byteZ b <= 159))
      by (destruct (byteZ a =? 224) eqn:?, (byteZ a =? 237) eqn:?; lia).
    set (u := (byteZ a - 224) * 4096 + ((byteZ b - 128) * 64 + (byteZ c - 128))).
    assert (U1 : u = ((byteZ a - 224) * 64 + (byteZ b - 128)) * 64 + (byteZ c - 128)) by (unfold u; lia).
    assert (D1 : u / 64 = (byteZ a - 224) * 64 + (byteZ b - 128)) by (rewrite U1; apply div_add_small; lia).
    apply (K u s3); [unfold scalar; lia|lia|exact H|].
    unfold utf8_char. rewrite (proj2 (Z.ltb_ge u _)) by lia. rewrite (proj2 (Z.ltb_ge u _)) by lia. rewrite (proj2 (Z.ltb_lt u _)) by lia.
    rewrite D1, mod_add_small by lia. replace (u mod 64) with (byteZ c - 128) by (rewrite U1; symmetry; apply mod_add_small; lia).
    replace (u / 4096) with (byteZ a - 224) by (unfold u; symmetry; apply div_add_small; lia).
    cbn [app]. rewrite <- (byte_eq a), <- (byte_eq b), <- (byte_eq c) by lia. reflexivity. }
  destruct (within 240 244 a) eqn:E4; [|discriminate].
  apply within_spec in E4. destruct s1 as [|b [|c [|d s4]]]; try discriminate.
  apply andb_true_iff in H as [H1 H]. apply andb_true_iff in H1 as [H1 Hd]. apply andb_true_iff in H1 as [Hb Hc].
  apply cont_spec in Hc, Hd. apply within_spec in Hb. cbn [length] in Hl.
  assert (Hb' : 128 <= byteZ b <= 191 /\ (byteZ a = 240 -> 144 <= byteZ b) /\ (byteZ a = 244 -> byteZ b <= 143))
    by (destruct (byteZ a =? 240) eqn:?, (byteZ a =? 244) eqn:?; lia).
  set (u := (byteZ a - 240) * 262144 + ((byteZ b - 128) * 4096 + ((byteZ c - 128) * 64 + (byteZ d - 128)))).
  assert (U1 : u = ((byteZ a - 240) * 4096 + (byteZ b - 128) * 64 + (byteZ c - 128)) * 64 + (byteZ d - 128)) by (unfold u; lia).
  assert (U2 : u = ((byteZ a - 240) * 64 + (byteZ b - 128)) * 4096 + ((byteZ c - 128) * 64 + (byteZ d - 128))) by (unfold u; lia).
  assert (D1 : u / 64 = ((byteZ a - 240) * 64 + (byteZ b - 128)) * 64 + (byteZ c - 128)) by (rewrite U1, div_add_small by lia; lia).
  assert (D2 : u / 4096 = (byteZ a - 240) * 64 + (byteZ b - 128)) by (rewrite U2; apply div_add_small; lia).
  apply (K u s4); [unfold scalar; lia|lia|exact H|].
  unfold utf8_char. rewrite (proj2 (Z.ltb_ge u _)) by lia. rewrite (proj2 (Z.ltb_ge u _)) by lia. rewrite (proj2 (Z.ltb_ge u _)) by lia.
  rewrite D1, D2, !mod_add_small by lia. replace (u mod 64) with (byteZ d - 128) by (rewrite U1; symmetry; apply mod_add_small; lia).
  replace (u / 262144) with (byteZ a - 240) by (unfold u; symmetry; apply div_add_small; lia).
  cbn [app]. rewrite <- (byte_eq a), <- (byte_eq b), <- (byte_eq c), <- (byte_eq d) by lia. reflexivity.
Qed.

Theorem valid_utf8_spec s : valid_utf8 s = true <-> utf8 s.
Proof.
  split; [apply (valid_char (length s)); lia|].
  intros (us & H & ->). induction H as [|u us Hu _ IH]; [reflexivity|]. cbn [map concat]. now rewrite utf8_char_valid.
Qed.
