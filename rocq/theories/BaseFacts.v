(* Facts about the shared conventions of Base.v. *)
From Verif Require Import Base.
From Coq Require Import ZArith List Ascii String Bool Lia ZifyBool.
Import ListNotations.
Open Scope Z_scope.

Lemma byte_eqb_eq a b : byte_eqb a b = true <-> a = b.
Proof. apply Ascii.eqb_eq. Qed.

Lemma byte_eqb_refl a : byte_eqb a a = true.
Proof. apply Ascii.eqb_refl. Qed.

Lemma byte_eqb_neq a b : byte_eqb a b = false <-> a <> b.
Proof. apply Ascii.eqb_neq. Qed.

Lemma bytes_eqb_eq a b : bytes_eqb a b = true <-> a = b.
Proof.
  revert b; induction a as [|x a IH]; intros [|y b]; simpl; try (split; congruence).
  rewrite andb_true_iff, byte_eqb_eq, IH. split; [intros [-> ->]; auto|intros [= -> ->]; auto].
Qed.

Lemma bytes_eqb_refl a : bytes_eqb a a = true.
Proof. now apply bytes_eqb_eq. Qed.

Lemma bytes_eqb_neq a b : bytes_eqb a b = false <-> a <> b.
Proof. rewrite <- bytes_eqb_eq. destruct (bytes_eqb a b); split; congruence. Qed.

Lemma byteZ_range c : 0 <= byteZ c < 256.
Proof. unfold byteZ. pose proof (N_ascii_bounded c). lia. Qed.

Lemma byteZ_inj a b : byteZ a = byteZ b -> a = b.
Proof.
  unfold byteZ. intros H. apply N2Z.inj in H.
  rewrite <- (ascii_N_embedding a), <- (ascii_N_embedding b). now f_equal.
Qed.

Lemma byteZ_byteOf z : 0 <= z < 256 -> byteZ (byteOf z) = z.
Proof. intros H. unfold byteZ, byteOf. rewrite N_ascii_embedding; lia. Qed.

Lemma byteOf_byteZ c : byteOf (byteZ c) = c.
Proof. apply byteZ_inj, byteZ_byteOf, byteZ_range. Qed.

Lemma int64_okb_spec z : int64_okb z = true <-> int64_ok z.
Proof. unfold int64_okb, int64_ok. lia. Qed.

Lemma wrap64_ok z : int64_ok (wrap64 z).
Proof. unfold int64_ok, wrap64. pose proof (Z.mod_pos_bound (z + 2^63) (2^64)). lia. Qed.

Lemma wrap64_id z : int64_ok z -> wrap64 z = z.
Proof. unfold int64_ok, wrap64. intros. rewrite Z.mod_small; lia. Qed.

Lemma wrap64_mod z : (wrap64 z - z) mod 2 ^ 64 = 0.
Proof.
  unfold wrap64. pose proof (Z.div_mod (z + 2 ^ 63) (2 ^ 64) ltac:(lia)) as H.
  remember ((z + 2 ^ 63) / 2 ^ 64) as q eqn:Hq. remember ((z + 2 ^ 63) mod 2 ^ 64) as r eqn:Hr.
  replace (r - 2 ^ 63 - z) with ((- q) * 2 ^ 64) by lia.
  apply Z.mod_mul. lia.
Qed.

Lemma blen_nonneg s : 0 <= blen s.
Proof. unfold blen; lia. Qed.

Lemma blen_app a b : blen (a ++ b) = blen a + blen b.
Proof. unfold blen. rewrite app_length. lia. Qed.

Lemma blen_cons c b : blen (c :: b) = 1 + blen b.
Proof. unfold blen. simpl List.length. lia. Qed.

Lemma CR_neq_LF : CR <> LF.
Proof. discriminate. Qed.

Lemma rbind_Ret A B (m : res A) (f : A -> res B) b :
  rbind m f = Ret b <-> exists a, m = Ret a /\ f a = Ret b.
Proof.
  destruct m; simpl; split.
  - intros H; exists a; auto.
  - intros (a' & [= <-] & H); auto.
  - discriminate.
  - intros (a' & H & _); discriminate.
  - discriminate.
  - intros (a' & H & _); discriminate.
Qed.
