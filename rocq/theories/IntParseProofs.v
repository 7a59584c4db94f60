From Verif Require Import Base BaseFacts IntSpec IntParse.
From Coq Require Import ZArith List Ascii Bool Lia ZifyBool.
Import ListNotations.
Open Scope Z_scope.

(* ---- Specification: decimal numerals ---- *)
Lemma digit_val_Some c d : digit_val c = Some d <-> is_digit c /\ d = byteZ c - 48.
Proof.
  unfold digit_val, is_digit.
  destruct (48 <=? byteZ c) eqn:A, (byteZ c <=? 57) eqn:B; simpl; split;
    try (intros [= <-]; lia); try discriminate; try lia.
  intros [? ->]; auto.
Qed.

Lemma digit_val_None c : digit_val c = None <-> ~ is_digit c.
Proof.
  unfold digit_val, is_digit.
  destruct (48 <=? byteZ c) eqn:A, (byteZ c <=? 57) eqn:B; simpl; split; try discriminate; try lia; auto.
Qed.

Lemma parse_digits_spec s : forall acc,
  Forall is_digit s ->
  parse_digits acc s = Some (acc * 10 ^ Z.of_nat (List.length s) + dec_value s).
Proof.
  induction s as [|c s IH]; intros acc H; cbn [parse_digits dec_value List.length].
  - f_equal; lia.
  - inversion H as [|? ? Hc Hs]; subst.
    assert (digit_val c = Some (byteZ c - 48)) as -> by now apply digit_val_Some.
    rewrite IH by auto. f_equal.
    rewrite Nat2Z.inj_succ. rewrite Z.pow_succ_r by lia. ring.
Qed.

Lemma parse_digits_0 s : Forall is_digit s -> parse_digits 0 s = Some (dec_value s).
Proof. intros. rewrite parse_digits_spec by auto. reflexivity. Qed.

Lemma parse_digits_inv s : forall acc v, parse_digits acc s = Some v -> Forall is_digit s.
Proof.
  induction s as [|c s IH]; intros acc v H; simpl in H; constructor.
  - destruct (digit_val c) eqn:E; [|discriminate]. now apply digit_val_Some in E.
  - destruct (digit_val c) eqn:E; [|discriminate]. eauto.
Qed.

Lemma dec_value_nonneg s : Forall is_digit s -> 0 <= dec_value s.
Proof.
  induction 1 as [|c s Hc Hs IH]; simpl; [lia|].
  unfold is_digit in Hc. pose proof (Z.pow_nonneg 10 (Z.of_nat (List.length s))). nia.
Qed.

Lemma dec_value_app a b : dec_value (a ++ b) = dec_value a * 10 ^ Z.of_nat (List.length b) + dec_value b.
Proof.
  induction a as [|c a IH]; simpl; [lia|].
  rewrite IH, app_length, Nat2Z.inj_add, Z.pow_add_r by lia. ring.
Qed.

Lemma is_digit_not_sign c : is_digit c -> byte_eqb c "+"%char = false /\ byte_eqb c "-"%char = false.
Proof.
  unfold is_digit. intros H. rewrite !byte_eqb_neq.
  split; intros ->; vm_compute in H; destruct H as [H1 H2]; auto.
Qed.

Lemma parse_body_inv (neg : bool) ds z : ds <> [] ->
  match parse_digits 0 ds with
  | None => None
  | Some un =>
      if negb neg && (2 ^ 63 <=? un) then None
      else if neg && (2 ^ 63 <? un) then None
      else Some (if neg then - un else un)
  end = Some z ->
  Forall is_digit ds /\ z = (if neg then - dec_value ds else dec_value ds) /\ int64_ok z.
Proof.
  intros _. destruct (parse_digits 0 ds) as [u|] eqn:E; [|discriminate].
  pose proof (parse_digits_inv _ _ _ E) as HF.
  rewrite parse_digits_0 in E by auto. assert (u = dec_value ds) as -> by congruence.
  pose proof (dec_value_nonneg _ HF). unfold int64_ok.
  destruct neg; cbn [negb andb];
    match goal with |- context [if ?b then _ else _] => destruct b eqn:E3 end; try discriminate;
    intros [= <-]; split; auto; split; auto; lia.
Qed.

Theorem parse_int_spec s z : parse_int s = Some z <-> denotes s z /\ int64_ok z.
Proof.
  split.
  - unfold parse_int. destruct s as [|c s]; [discriminate|].
    destruct (byte_eqb c "+") eqn:E1; [|destruct (byte_eqb c "-") eqn:E2].
    + apply byte_eqb_eq in E1 as ->. destruct s as [|d s']; [discriminate|].
      intros H. apply (parse_body_inv false) in H as (HF & -> & Hz); [|discriminate].
      split; auto. exists ["+"%char], (d :: s').
      split; [reflexivity|]; split; [discriminate|]; split; [exact HF|]. left. auto.
    + apply byte_eqb_eq in E2 as ->. destruct s as [|d s']; [discriminate|].
      intros H. apply (parse_body_inv true) in H as (HF & -> & Hz); [|discriminate].
      split; auto. exists ["-"%char], (d :: s').
      split; [reflexivity|]; split; [discriminate|]; split; [exact HF|]. right. auto.
    + intros H. apply (parse_body_inv false) in H as (HF & -> & Hz); [|discriminate].
      split; auto. exists [], (c :: s).
      split; [reflexivity|]; split; [discriminate|]; split; [exact HF|]. left. auto.
  - intros [(sign & ds & -> & Hne & HF & Hs) Hz]. unfold int64_ok in Hz.
    pose proof (dec_value_nonneg _ HF) as Hnn.
    assert (P : parse_digits 0 ds = Some (dec_value ds)) by now apply parse_digits_0.
    destruct ds as [|d ds]; [congruence|].
    destruct Hs as [[[-> | ->] ->] | [-> ->]].
    + cbn [app]. unfold parse_int.
      destruct (is_digit_not_sign d) as [-> ->]; [now inversion HF|].
      rewrite P. cbn [negb andb]. destruct (2^63 <=? dec_value (d :: ds)) eqn:E; [lia|]. reflexivity.
    + cbn [app]. unfold parse_int. cbn [byte_eqb]. rewrite byte_eqb_refl. rewrite P. cbn [negb andb].
      destruct (2^63 <=? dec_value (d :: ds)) eqn:E; [lia|]. reflexivity.
    + cbn [app]. unfold parse_int. replace (byte_eqb "-" "+") with false by reflexivity.
      rewrite byte_eqb_refl. rewrite P. cbn [negb andb].
      destruct (2^63 <? dec_value (d :: ds)) eqn:E; [lia|]. reflexivity.
Qed.

(* ---- formatting ---- *)
Lemma dec_digits_acc fuel : forall n acc, dec_digits fuel n acc = dec_digits fuel n [] ++ acc.
Proof.
  induction fuel as [|f IH]; intros n acc; simpl; auto.
  destruct (n / 10 =? 0); auto.
  rewrite IH. rewrite (IH _ [_]). rewrite <- app_assoc. reflexivity.
Qed.

Lemma is_digit_byteOf n : 0 <= n < 10 -> is_digit (byteOf (48 + n)).
Proof. intros. unfold is_digit. rewrite byteZ_byteOf; lia. Qed.

Lemma dec_digits_spec fuel : forall n, 0 <= n < 10 ^ Z.of_nat fuel -> (0 < fuel)%nat ->
  let ds := dec_digits fuel n [] in
  ds <> [] /\ Forall is_digit ds /\ dec_value ds = n /\
  (n <> 0 -> exists c r, ds = c :: r /\ byteZ c <> 48) /\ (n = 0 -> ds = [byteOf 48]).
Proof.
  induction fuel as [|f IH]; intros n Hn Hf; [lia|].
  cbn zeta. simpl dec_digits.
  pose proof (Z.mod_pos_bound n 10 ltac:(lia)) as Hm.
  pose proof (Z.div_mod n 10 ltac:(lia)) as Hd.
  pose proof (Z.div_pos n 10 ltac:(lia) ltac:(lia)) as Hp.
  destruct (n / 10 =? 0) eqn:E.
  - split; [discriminate|]. split; [constructor; auto; apply is_digit_byteOf; lia|].
    split; [simpl; rewrite byteZ_byteOf; lia|].
    split; [intros; eexists _, _; split; [reflexivity|rewrite byteZ_byteOf; lia]|].
    intros ->. reflexivity.
  - rewrite dec_digits_acc.
    destruct f as [|f']; [change (10 ^ Z.of_nat 1) with 10 in Hn; lia|].
    destruct (IH (n / 10)) as (A & B & C & D & F).
    { split; [lia|]. apply Z.div_lt_upper_bound; [lia|].
      rewrite <- Z.pow_succ_r by lia. rewrite <- Nat2Z.inj_succ. lia. }
    { lia. }
    split; [now destruct (dec_digits (S f') (n/10) [])|].
    split; [apply Forall_app; split; auto; constructor; auto; apply is_digit_byteOf; lia|].
    split; [rewrite dec_value_app, C; simpl; rewrite byteZ_byteOf; lia|].
    split; [|lia]. intros _. destruct D as (c & r & -> & Hc); [lia|]. eexists _, _; split; [reflexivity|auto].
Qed.

Lemma format_digits_bound n : 0 <= n -> n < 10 ^ Z.of_nat (S (Z.to_nat (Z.log2 n))).
Proof.
  intros H. rewrite Nat2Z.inj_succ, Z2Nat.id by apply Z.log2_nonneg.
  destruct (Z.eq_dec n 0) as [->|]; [reflexivity|].
  pose proof (Z.log2_spec n ltac:(lia)).
  eapply Z.lt_le_trans; [apply H0|]. apply Z.pow_le_mono_l. lia.
Qed.

(* The text produced for [z] denotes [z] and is canonical. *)
Theorem format_int_denotes z : denotes (format_int z) z.
Proof.
  unfold format_int. set (n := Z.abs z).
  destruct (dec_digits_spec (S (Z.to_nat (Z.log2 n))) n) as (A & B & C & _).
  { split; [lia|apply format_digits_bound; lia]. } { lia. }
  destruct (z <? 0) eqn:E.
  - exists ["-"%char], (dec_digits (S (Z.to_nat (Z.log2 n))) n []). repeat split; auto. right. split; auto. lia.
  - exists [], (dec_digits (S (Z.to_nat (Z.log2 n))) n []). repeat split; auto. left. split; auto. lia.
Qed.

Theorem parse_format z : int64_ok z -> parse_int (format_int z) = Some z.
Proof. intros. apply parse_int_spec. split; auto. apply format_int_denotes. Qed.

Lemma format_int_inj a b : format_int a = format_int b -> int64_ok a -> int64_ok b -> a = b.
Proof. intros H Ha Hb. apply parse_format in Ha, Hb. congruence. Qed.

Lemma format_int_chars z : Forall (fun c => is_digit c \/ c = "-"%char) (format_int z).
Proof.
  unfold format_int. set (n := Z.abs z).
  destruct (dec_digits_spec (S (Z.to_nat (Z.log2 n))) n) as (A & B & C & _).
  { split; [lia|apply format_digits_bound; lia]. } { lia. }
  assert (B' : Forall (fun c => is_digit c \/ c = "-"%char) (dec_digits (S (Z.to_nat (Z.log2 n))) n [])).
  { eapply Forall_impl; [|exact B]. auto. }
  destruct (z <? 0); auto.
Qed.

Lemma format_int_nonempty z : format_int z <> [].
Proof.
  unfold format_int. set (n := Z.abs z).
  destruct (dec_digits_spec (S (Z.to_nat (Z.log2 n))) n) as (A & B & C & _).
  { split; [lia|apply format_digits_bound; lia]. } { lia. }
  destruct (z <? 0); [discriminate|auto].
Qed.

(* ---- canonical numerals ---- *)
Lemma format_int_canonical z : canonical (format_int z) z.
Proof.
  unfold format_int. set (n := Z.abs z).
  destruct (dec_digits_spec (S (Z.to_nat (Z.log2 n))) n) as (A & B & C & D & F).
  { split; [lia|apply format_digits_bound; lia]. } { lia. }
  exists (dec_digits (S (Z.to_nat (Z.log2 n))) n []). split; [destruct (z <? 0); reflexivity|].
  split; auto. split; auto. split; [exact C|].
  intros c r E Hc. destruct (Z.eq_dec n 0) as [N|N].
  - rewrite (F N) in E. now injection E.
  - destruct (D N) as (c' & r' & E' & Hc'). rewrite E in E'. injection E' as <- <-. contradiction.
Qed.

Lemma dec_value_bound ds : Forall is_digit ds -> 0 <= dec_value ds < 10 ^ Z.of_nat (List.length ds).
Proof.
  induction 1 as [|c ds Hc _ IH]; simpl dec_value; [vm_compute; split; congruence|].
  cbn [List.length]. rewrite Nat2Z.inj_succ, Z.pow_succ_r by lia. unfold is_digit in Hc.
  set (p := 10 ^ Z.of_nat (List.length ds)) in *. nia.
Qed.

Lemma dec_value_lower c r : is_digit c -> Forall is_digit r -> byteZ c <> 48 ->
  10 ^ Z.of_nat (List.length r) <= dec_value (c :: r).
Proof.
  intros Hc Hr H. simpl dec_value. pose proof (dec_value_bound r Hr). unfold is_digit in Hc.
  set (p := 10 ^ Z.of_nat (List.length r)) in *. nia.
Qed.

Lemma dec_value_inj a : forall b, Forall is_digit a -> Forall is_digit b ->
  List.length a = List.length b -> dec_value a = dec_value b -> a = b.
Proof.
  induction a as [|c a IH]; intros [|d b] Ha Hb L V; try discriminate; auto.
  inversion Ha as [|? ? Hc Ha']; inversion Hb as [|? ? Hd Hb']; subst. injection L as L.
  cbn [dec_value] in V. rewrite <- L in V.
  pose proof (dec_value_bound a Ha'). pose proof (dec_value_bound b Hb'). rewrite <- L in *.
  set (p := 10 ^ Z.of_nat (List.length a)) in *.
  assert (E : byteZ c = byteZ d) by nia.
  f_equal; [now apply byteZ_inj|]. apply IH; auto. rewrite E in V. lia.
Qed.

Lemma canonical_digits_unique a b : a <> [] -> b <> [] -> Forall is_digit a -> Forall is_digit b ->
  (forall c r, a = c :: r -> byteZ c = 48 -> r = []) -> (forall c r, b = c :: r -> byteZ c = 48 -> r = []) ->
  dec_value a = dec_value b -> a = b.
Proof.
  intros Na Nb Da Db Za Zb V.
  destruct a as [|c a]; [congruence|]. destruct b as [|d b]; [congruence|].
  inversion Da as [|? ? Hc Da']; inversion Db as [|? ? Hd Db']; subst.
  apply dec_value_inj; auto.
  pose proof (dec_value_bound _ Da) as Ua. pose proof (dec_value_bound _ Db) as Ub.
  destruct (Z.eq_dec (byteZ c) 48) as [Ec|Ec], (Z.eq_dec (byteZ d) 48) as [Ed|Ed].
  - rewrite (Za c a), (Zb d b); auto.
  - exfalso. rewrite (Za c a) in V by auto. pose proof (dec_value_lower d b Hd Db' Ed) as L.
    simpl dec_value in V at 1. rewrite Ec in V. pose proof (Z.pow_pos_nonneg 10 (Z.of_nat (List.length b)) ltac:(lia) ltac:(lia)). lia.
  - exfalso. rewrite (Zb d b) in V by auto. pose proof (dec_value_lower c a Hc Da' Ec) as L.
    simpl dec_value in V at 2. rewrite Ed in V. pose proof (Z.pow_pos_nonneg 10 (Z.of_nat (List.length a)) ltac:(lia) ltac:(lia)). lia.
  - pose proof (dec_value_lower c a Hc Da' Ec) as La. pose proof (dec_value_lower d b Hd Db' Ed) as Lb.
    cbn [List.length] in *. 
    assert (10 ^ Z.of_nat (List.length a) < 10 ^ Z.of_nat (S (List.length b))) as P1 by lia.
    assert (10 ^ Z.of_nat (List.length b) < 10 ^ Z.of_nat (S (List.length a))) as P2 by lia.
    apply Z.pow_lt_mono_r_iff in P1, P2; lia.
Qed.

(* the numeral of an integer is unique *)
Lemma canonical_unique s t z : canonical s z -> canonical t z -> s = t.
Proof.
  intros (a & -> & Na & Da & Va & Za) (b & -> & Nb & Db & Vb & Zb). f_equal.
  apply canonical_digits_unique; auto. congruence.
Qed.

Lemma canonical_format s z : canonical s z -> s = format_int z.
Proof. intros H. eapply canonical_unique; [exact H|apply format_int_canonical]. Qed.

Lemma canonical_denotes s z : canonical s z -> denotes s z.
Proof. intros H. rewrite (canonical_format s z H). apply format_int_denotes. Qed.

Lemma format_int_length z : int64_ok z -> (List.length (format_int z) <= 20)%nat.
Proof.
  intros Hz. destruct (format_int_canonical z) as (ds & -> & N & D & V & Z0).
  assert (List.length ds <= 19)%nat.
  { destruct ds as [|c ds]; [congruence|]. inversion D as [|? ? Hc D']; subst.
    destruct (Z.eq_dec (byteZ c) 48) as [E|E].
    - rewrite (Z0 c ds) by auto. simpl. lia.
    - pose proof (dec_value_lower c ds Hc D' E) as L. rewrite V in L.
      assert (10 ^ Z.of_nat (List.length ds) < 10 ^ 19) as P by (unfold int64_ok in Hz; lia).
      apply Z.pow_lt_mono_r_iff in P; [cbn [List.length]; lia|lia|lia]. }
  rewrite app_length. destruct (z <? 0); cbn [List.length]; lia.
Qed.

Lemma format_int_iff z s : canonical s z <-> s = format_int z.
Proof. split; [intros H; exact (canonical_unique _ _ _ H (format_int_canonical z))|intros ->; apply format_int_canonical]. Qed.
