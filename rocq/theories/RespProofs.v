From Verif Require Import Base BaseFacts IntSpec RespSpec IntParse IntParseProofs Resp.
From Coq Require Import ZArith List Ascii String Bool Lia ZifyBool.
Import ListNotations.
Open Scope Z_scope.

(* nested induction *)
Section RobjInd.
  Variable P : robj -> Prop.
  Hypothesis HS : forall d, P (RSimple d).
  Hypothesis HB : forall d, P (RBulk d).
  Hypothesis HN : P RNullBulk.
  Hypothesis HE : forall d, P (RErr d).
  Hypothesis HI : forall z, P (RInt z).
  Hypothesis HA : forall l, Forall P l -> P (RArr l).
  Hypothesis HNA : P RNullArr.
  Fixpoint robj_ind2 (o : robj) : P o :=
    match o with
    | RSimple d => HS d | RBulk d => HB d | RNullBulk => HN | RErr d => HE d
    | RInt z => HI z
    | RArr l => HA l ((fix go (l : list robj) : Forall P l :=
        match l with [] => Forall_nil P | x :: l' => Forall_cons x (robj_ind2 x) (go l') end) l)
    | RNullArr => HNA
    end.
End RobjInd.

(* ---- tokens ---- *)
(* [d] is readable as the rest of a token after byte [prev]. *)
Lemma line_ok_cons c d : line_ok (c :: d) -> line_ok d.
Proof. intros H a b. destruct (H (c :: a) b) as [H1 H2]. split; intros ->; [apply H1|apply H2]; reflexivity. Qed.

Lemma line_ok_nil : line_ok [].
Proof. intros [|] b; split; discriminate. Qed.

Lemma read_token_ok d : forall prev rest,
  line_ok d ->
  (forall b, d = LF :: b -> exists p, prev = Some p /\ p <> CR) ->
  read_token prev (d ++ CRLF ++ rest) = TOk (d ++ CRLF) rest.
Proof.
  induction d as [|c d IH]; intros prev rest Hok Hp.
  - reflexivity.
  - simpl. destruct (byte_eqb c LF) eqn:E.
    + apply byte_eqb_eq in E as ->.
      destruct (Hp d eq_refl) as (p & -> & Hne). apply byte_eqb_neq in Hne as ->.
      change (CR :: LF :: rest) with (CRLF ++ rest).
      rewrite IH; [reflexivity|eapply line_ok_cons; eauto|].
      intros b ->. exfalso. apply (proj2 (Hok [] b)). reflexivity.
    + change (CR :: LF :: rest) with (CRLF ++ rest).
      rewrite IH; [reflexivity|eapply line_ok_cons; eauto|].
      intros b ->. exists c. split; auto. intros ->.
      apply (proj1 (Hok [] b)). reflexivity.
Qed.

Lemma read_token_inv s : forall prev t rest,
  read_token prev s = TOk t rest ->
  s = t ++ rest /\
  ((t = [LF] /\ prev = Some CR) \/
   (exists d, t = d ++ CRLF /\ line_ok d /\ (forall b, d = LF :: b -> exists p, prev = Some p /\ p <> CR))).
Proof.
  induction s as [|c s IH]; intros prev t rest H; [discriminate|].
  simpl in H. destruct (byte_eqb c LF) eqn:E.
  - apply byte_eqb_eq in E as ->. destruct prev as [p|]; [|discriminate].
    destruct (byte_eqb p CR) eqn:Ep.
    + injection H as <- <-. apply byte_eqb_eq in Ep as ->. split; auto.
    + apply byte_eqb_neq in Ep. destruct (read_token None s) as [t' r'| |] eqn:Er; try discriminate.
      injection H as <- <-. apply IH in Er as [-> Ht]. split; [reflexivity|].
      right. destruct Ht as [[_ ?]|(d & -> & Hd & Hl)]; [discriminate|].
      exists (LF :: d). split; [reflexivity|]. split.
      * intros [|x a] b; split; intros Heq; simpl in Heq; injection Heq.
        -- discriminate.
        -- intros ->. destruct (Hl b eq_refl) as (? & ? & _); discriminate.
        -- intros -> _. destruct (Hd a b) as [? _]; auto.
        -- intros -> _. destruct (Hd a b) as [_ ?]; auto.
      * intros b _. eauto.
  - apply byte_eqb_neq in E. destruct (read_token (Some c) s) as [t' r'| |] eqn:Er; try discriminate.
    injection H as <- <-. apply IH in Er as [-> Ht]. split; [reflexivity|].
    right. destruct Ht as [[-> Hc]|(d & -> & Hd & Hl)].
    + injection Hc as ->. exists []. split; [reflexivity|]. split; [apply line_ok_nil|discriminate].
    + exists (c :: d). split; [reflexivity|]. split.
      * intros [|x a] b; split; intros Heq; simpl in Heq; injection Heq.
        -- intros -> ->. destruct (Hl b eq_refl) as (p & [= <-] & Hp). auto.
        -- intros _ ->. auto.
        -- intros -> _. destruct (Hd a b) as [? _]; auto.
        -- intros -> _. destruct (Hd a b) as [_ ?]; auto.
      * intros b [= -> _]. congruence.
Qed.

Lemma read_token_None_inv s t rest :
  read_token None s = TOk t rest ->
  exists d, s = d ++ CRLF ++ rest /\ t = d ++ CRLF /\ line_ok d.
Proof.
  intros H. apply read_token_inv in H as [-> [[_ ?]|(d & -> & Hd & _)]]; [discriminate|].
  exists d. rewrite <- app_assoc. auto.
Qed.

Lemma read_token_app s : forall prev t rest x,
  read_token prev s = TOk t rest -> read_token prev (s ++ x) = TOk t (rest ++ x).
Proof.
  induction s as [|c s IH]; intros prev t rest x H; [discriminate|].
  simpl in *. destruct (byte_eqb c LF).
  - destruct prev as [p|]; [|discriminate]. destruct (byte_eqb p CR).
    + now injection H as <- <-.
    + destruct (read_token None s) eqn:E; try discriminate. injection H as <- <-.
      erewrite IH by eauto. reflexivity.
  - destruct (read_token (Some c) s) eqn:E; try discriminate. injection H as <- <-.
    erewrite IH by eauto. reflexivity.
Qed.

Lemma read_token_prefix s : forall prev t rest p q,
  read_token prev s = TOk t rest -> t = p ++ q -> q <> [] -> read_token prev p = TEof.
Proof.
  induction s as [|c s IH]; intros prev t rest p q H Ht Hq; [discriminate|].
  simpl in H. destruct p as [|c' p]; [reflexivity|].
  simpl. destruct (byte_eqb c LF) eqn:E.
  - destruct prev as [pr|]; [|discriminate]. destruct (byte_eqb pr CR) eqn:Ep.
    + injection H as <- <-. injection Ht as -> Hn. destruct p; [|discriminate]. simpl in Hn. congruence.
    + destruct (read_token None s) eqn:Er; try discriminate. injection H as <- <-.
      injection Ht as -> ->. rewrite E, ?Ep. erewrite IH by eauto. reflexivity.
  - destruct (read_token (Some c) s) eqn:Er; try discriminate. injection H as <- <-.
    injection Ht as -> ->. rewrite E. erewrite IH by eauto. reflexivity.
Qed.

Lemma tok_body_app c d : tok_body (c :: d ++ CRLF) = d.
Proof.
  unfold tok_body. simpl skipn. simpl List.length. rewrite app_length. simpl List.length.
  replace (S (List.length d + 2) - 3)%nat with (List.length d) by lia.
  rewrite firstn_app, Nat.sub_diag, firstn_all. simpl. apply app_nil_r.
Qed.

(* ---- fuel monotonicity ---- *)
Lemma read_mono f :
  (forall s k, read_object f s <> PFuel -> read_object (f + k) s = read_object f s) /\
  (forall n s k, read_items f n s <> PFuel -> read_items (f + k) n s = read_items f n s).
Proof.
  induction f as [|f [IHo IHi]]; split; intros.
  - simpl in H. congruence.
  - simpl in H. congruence.
  - simpl in *. destruct (read_token None s) as [t r| |]; auto. destruct t as [|c t]; auto.
    destruct (byte_eqb c "+"); auto. destruct (byte_eqb c "$"); auto.
    destruct (byte_eqb c "-"); auto. destruct (byte_eqb c ":"); auto.
    destruct (byte_eqb c "*"); auto. destruct (parse_int _); auto.
    destruct (_ =? _); auto. rewrite IHi; auto. intros E; rewrite E in H; auto.
  - simpl in *. destruct (n <=? 0); auto.
    rewrite IHo. 2:{ intros E; rewrite E in H; auto. }
    destruct (read_object f s); auto. rewrite IHi; auto. intros E; rewrite E in H; auto.
Qed.

Lemma read_object_mono f g s r :
  read_object f s = r -> r <> PFuel -> (f <= g)%nat -> read_object g s = r.
Proof.
  intros <- H Hle. replace g with (f + (g - f))%nat by lia. now apply read_mono.
Qed.
Lemma read_items_mono f g n s r :
  read_items f n s = r -> r <> PFuel -> (f <= g)%nat -> read_items g n s = r.
Proof.
  intros <- H Hle. replace g with (f + (g - f))%nat by lia. now apply read_mono.
Qed.

(* ---- consumption and fuel sufficiency ---- *)
Lemma read_bytes_inv n s d r : read_bytes n s = POk d r -> s = d ++ r /\ 0 <= n /\ blen d = n.
Proof.
  unfold read_bytes. destruct (n <? 0) eqn:E1; [discriminate|].
  destruct (blen s <? n) eqn:E2; [discriminate|]. intros [= <- <-].
  rewrite firstn_skipn. split; auto. split; [lia|]. unfold blen in *. rewrite firstn_length. lia.
Qed.

Lemma read_bulk_inv t r o r' : read_bulk t r = POk o r' ->
  (o = RNullBulk /\ r' = r /\ parse_int (tok_body t) = Some (-1)) \/
  (exists n d x, o = RBulk d /\ r = d ++ x ++ r' /\ List.length x = 2%nat /\
     parse_int (tok_body t) = Some n /\ blen d = n /\ 0 <= n < 2 ^ 63 - 2).
Proof.
  unfold read_bulk. destruct (parse_int (tok_body t)) as [n|] eqn:Ep; [|discriminate].
  destruct (n =? -1) eqn:E1.
  - intros [= <- <-]. left. repeat split; auto. f_equal. lia.
  - destruct (read_bytes (wrap64 (n + 2)) r) as [d r''| | |] eqn:Er; try discriminate.
    destruct ((n <? 0) || (blen d <? n)) eqn:E2; [discriminate|]. intros [= <- <-].
    apply read_bytes_inv in Er as (-> & Hw & Hl).
    apply parse_int_spec in Ep as [Hd Hi]. unfold int64_ok in Hi.
    assert (n < 2 ^ 63 - 2).
    { destruct (Z.lt_ge_cases n (2 ^ 63 - 2)) as [|H]; auto. exfalso.
      unfold wrap64 in Hl, Hw. revert Hl Hw.
      replace (n + 2 + 2 ^ 63) with ((n + 2 - 2 ^ 63) + 1 * 2 ^ 64) by lia.
      rewrite Z.mod_add by lia. rewrite Z.mod_small by lia. lia. }
    rewrite wrap64_id in Hl by (unfold int64_ok; lia).
    right. exists n, (firstn (Z.to_nat n) d), (skipn (Z.to_nat n) d).
    split; [auto|]. split; [rewrite app_assoc, firstn_skipn; auto|].
    unfold blen in *. rewrite skipn_length, firstn_length.
    split; [lia|]. split; [auto|]. lia.
Qed.

Lemma read_consume f :
  (forall s o r, read_object f s = POk o r -> exists u, s = u ++ r /\ (3 <= List.length u)%nat) /\
  (forall n s l r, read_items f n s = POk l r -> exists u, s = u ++ r /\
      (3 * List.length l <= List.length u)%nat /\ Z.of_nat (List.length l) = Z.max 0 n).
Proof.
  induction f as [|f [IHo IHi]]; split; intros.
  - discriminate.
  - discriminate.
  - simpl in H. destruct (read_token None s) as [t r0| |] eqn:Et; try discriminate.
    apply read_token_None_inv in Et as (d & -> & -> & Hd).
    destruct d as [|c d]; [discriminate|]. simpl in H.
    assert (Hdef : exists u, (c :: d) ++ CRLF ++ r0 = u ++ r0 /\ (3 <= List.length u)%nat).
    { exists ((c :: d) ++ CRLF). rewrite <- app_assoc. split; auto. rewrite app_length. simpl. lia. }
    destruct (byte_eqb c "+"); [injection H as <- <-; auto|].
    destruct (byte_eqb c "$").
    { apply read_bulk_inv in H as [(_ & -> & _)|(n & e & x & _ & -> & _)]; [auto|].
      exists ((c :: d) ++ CRLF ++ e ++ x). split; [simpl; rewrite <- !app_assoc; simpl; rewrite <- !app_assoc; auto|].
      rewrite !app_length; simpl; lia. }
    destruct (byte_eqb c "-"); [injection H as <- <-; auto|].
    destruct (byte_eqb c ":"). { destruct (parse_int _); [|discriminate]; injection H as <- <-; auto. }
    destruct (byte_eqb c "*"); [|discriminate].
    destruct (parse_int _) as [n|]; [|discriminate].
    destruct (n =? -1). { injection H as <- <-; auto. }
    destruct (read_items f n r0) as [l r1| | |] eqn:Ei; try discriminate. injection H as <- <-.
    apply IHi in Ei as (u & -> & _).
    exists ((c :: d) ++ CRLF ++ u). split; [simpl; rewrite <- !app_assoc; auto|].
    rewrite !app_length; simpl; lia.
  - simpl in H. destruct (n <=? 0) eqn:En.
    + injection H as <- <-. exists []. simpl. split; auto. lia.
    + destruct (read_object f s) as [o r0| | |] eqn:Eo; try discriminate.
      destruct (read_items f (n - 1) r0) as [l' r1| | |] eqn:Ei; try discriminate. injection H as <- <-.
      apply IHo in Eo as (u & -> & Hu). apply IHi in Ei as (v & -> & Hv & Hn).
      exists (u ++ v). rewrite app_assoc. split; auto. rewrite app_length. simpl List.length. lia.
Qed.

Lemma read_nofuel f :
  (forall s, (List.length s < f)%nat -> read_object f s <> PFuel) /\
  (forall n s, (List.length s + 1 < f)%nat -> read_items f n s <> PFuel).
Proof.
  induction f as [|f [IHo IHi]]; split; intros; try lia.
  - simpl. destruct (read_token None s) as [t r0| |] eqn:Et; try discriminate.
    apply read_token_None_inv in Et as (d & -> & -> & Hd).
    destruct d as [|c d]; [discriminate|]. simpl. rewrite !app_length in H. simpl in H.
    destruct (byte_eqb c "+"); [discriminate|].
    destruct (byte_eqb c "$").
    { unfold read_bulk, read_bytes. destruct (parse_int _); [|discriminate].
      destruct (_ =? _); [discriminate|]. destruct (_ <? _); [discriminate|].
      destruct (_ <? _); [discriminate|]. destruct (_ || _); discriminate. }
    destruct (byte_eqb c "-"); [discriminate|].
    destruct (byte_eqb c ":"). { destruct (parse_int _); discriminate. }
    destruct (byte_eqb c "*"); [|discriminate].
    destruct (parse_int _) as [n|]; [|discriminate].
    destruct (n =? -1); [discriminate|].
    specialize (IHi n r0 ltac:(lia)). destruct (read_items f n r0); congruence.
  - simpl. destruct (n <=? 0); [discriminate|].
    specialize (IHo s ltac:(lia)). destruct (read_object f s) as [o r0| | |] eqn:Eo; try congruence.
    apply read_consume in Eo as (u & -> & Hu). rewrite app_length in H.
    specialize (IHi (n-1) r0 ltac:(lia)). destruct (read_items f (n-1) r0); congruence.
Qed.

Lemma parse_nofuel s : parse s <> PFuel.
Proof. apply read_nofuel. lia. Qed.

Lemma parse_eq f s r : read_object f s = r -> r <> PFuel -> parse s = r.
Proof.
  intros H Hr. unfold parse.
  destruct (Nat.le_ge_cases f (S (List.length s))).
  - eapply read_object_mono; eauto.
  - pose proof (parse_nofuel s) as Hn. unfold parse in Hn.
    rewrite <- H. symmetry. eapply read_object_mono; eauto.
Qed.

(* ---- C01 round trip ---- *)
Lemma read_token_line c d rest : c <> LF -> c <> CR -> line_ok d ->
  read_token None (c :: d ++ CRLF ++ rest) = TOk (c :: d ++ CRLF) rest.
Proof.
  intros Hc Hc' Hd. simpl. destruct (byte_eqb c LF) eqn:E; [apply byte_eqb_eq in E; congruence|].
  change (CR :: LF :: rest) with (CRLF ++ rest).
  rewrite read_token_ok; auto. intros; eauto.
Qed.

Lemma line_ok_no_LF d : ~ In LF d -> line_ok d.
Proof. intros H a b. split; intros ->; apply H; rewrite in_app_iff; simpl; auto. Qed.

Lemma format_int_line z : line_ok (format_int z).
Proof.
  apply line_ok_no_LF. intros H. pose proof (format_int_chars z) as HF.
  rewrite Forall_forall in HF. apply HF in H as [H|H]; [|discriminate].
  unfold is_digit in H. vm_compute in H. destruct H; congruence.
Qed.

Lemma blen_int64 (d : bytes) : blen d < 2 ^ 63 - 2 -> int64_ok (blen d).
Proof. unfold int64_ok. pose proof (blen_nonneg d). lia. Qed.

Lemma read_items_concat l : forall rest,
  Forall (fun o => forall rest, exists f, read_object f (encode o ++ rest) = POk o rest) l ->
  exists f, read_items f (Z.of_nat (List.length l)) (List.concat (List.map encode l) ++ rest) = POk l rest.
Proof.
  induction l as [|o l IH]; intros rest HF.
  - exists 1%nat. reflexivity.
  - inversion HF as [|? ? Ho Hl]; subst.
    destruct (IH rest Hl) as (f2 & H2).
    destruct (Ho (List.concat (List.map encode l) ++ rest)) as (f1 & H1).
    exists (S (f1 + f2)). cbn [read_items List.map List.concat List.length].
    destruct (Z.of_nat (S (List.length l)) <=? 0) eqn:E; [lia|].
    rewrite <- app_assoc.
    rewrite (read_object_mono f1 (f1 + f2) _ _ H1) by (try discriminate; lia).
    replace (Z.of_nat (S (List.length l)) - 1) with (Z.of_nat (List.length l)) by lia.
    rewrite (read_items_mono f2 (f1 + f2) _ _ _ H2) by (try discriminate; lia). reflexivity.
Qed.

Lemma encode_read o : obj_ok o -> forall rest, exists f, read_object f (encode o ++ rest) = POk o rest.
Proof.
  induction o using robj_ind2; intros Hok rest; inversion Hok; subst.
  - exists 1%nat. cbn [encode]. cbn [app]. rewrite <- app_assoc.
    cbn [read_object]. rewrite read_token_line by (auto; discriminate).
    rewrite byte_eqb_refl, tok_body_app. reflexivity.
  - exists 1%nat. cbn [encode app]. rewrite <- !app_assoc.
    cbn [read_object]. rewrite read_token_line by (try discriminate; apply format_int_line).
    replace (byte_eqb "$" "+") with false by reflexivity. rewrite byte_eqb_refl.
    unfold read_bulk. rewrite tok_body_app.
    rewrite parse_format by (now apply blen_int64).
    pose proof (blen_nonneg d). destruct (blen d =? -1) eqn:E; [lia|].
    rewrite wrap64_id by (unfold int64_ok; lia).
    unfold read_bytes. destruct (blen d + 2 <? 0) eqn:E1; [lia|].
    rewrite !blen_app. change (blen CRLF) with 2. pose proof (blen_nonneg rest).
    destruct (blen d + (2 + blen rest) <? _) eqn:E2; [lia|].
    replace (Z.to_nat (blen d + 2)) with (List.length (d ++ CRLF))
      by (rewrite app_length; unfold blen; simpl; lia).
    rewrite app_assoc. rewrite firstn_app, skipn_app, firstn_all, skipn_all, Nat.sub_diag.
    rewrite firstn_O, skipn_O, app_nil_r, app_nil_l.
    rewrite blen_app. change (blen CRLF) with 2.
    destruct ((blen d <? 0) || (blen d + 2 <? blen d)) eqn:E3; [lia|].
    unfold blen. rewrite Nat2Z.id. rewrite firstn_app, firstn_all, Nat.sub_diag. simpl. now rewrite app_nil_r.
  - exists 1%nat. reflexivity.
  - exists 1%nat. cbn [encode]. cbn [app]. rewrite <- app_assoc.
    cbn [read_object]. rewrite read_token_line by (auto; discriminate).
    replace (byte_eqb "-" "+") with false by reflexivity. replace (byte_eqb "-" "$") with false by reflexivity.
    rewrite byte_eqb_refl, tok_body_app. reflexivity.
  - exists 1%nat. cbn [encode]. cbn [app]. rewrite <- app_assoc.
    cbn [read_object]. rewrite read_token_line by (try discriminate; apply format_int_line).
    replace (byte_eqb ":" "+") with false by reflexivity. replace (byte_eqb ":" "$") with false by reflexivity.
    replace (byte_eqb ":" "-") with false by reflexivity.
    rewrite byte_eqb_refl, tok_body_app, parse_format by auto. reflexivity.
  - destruct (read_items_concat l rest) as (f & Hf).
    { rewrite Forall_forall in *. intros o Ho. apply H; auto. }
    exists (S f). cbn [encode app]. rewrite <- !app_assoc. cbn [read_object].
    rewrite read_token_line by (try discriminate; apply format_int_line).
    replace (byte_eqb "*" "+") with false by reflexivity. replace (byte_eqb "*" "$") with false by reflexivity.
    replace (byte_eqb "*" "-") with false by reflexivity. replace (byte_eqb "*" ":") with false by reflexivity.
    rewrite byte_eqb_refl, tok_body_app, parse_format by (unfold int64_ok; lia).
    destruct (_ =? -1) eqn:E; [lia|]. rewrite Hf. reflexivity.
  - exists 1%nat. reflexivity.
Qed.

Theorem parse_encode o rest : obj_ok o -> parse (encode o ++ rest) = POk o rest.
Proof. intros H. destruct (encode_read o H rest) as (f & Hf). eapply parse_eq; eauto. discriminate. Qed.

(* ---- C04 accepted objects are well formed ---- *)
Lemma read_ok f :
  (forall s o r, Z.of_nat (List.length s) < 2 ^ 63 -> read_object f s = POk o r -> obj_ok o) /\
  (forall n s l r, Z.of_nat (List.length s) < 2 ^ 63 -> read_items f n s = POk l r -> Forall obj_ok l).
Proof.
  induction f as [|f [IHo IHi]]; split; intros; try discriminate.
  - simpl in H0. destruct (read_token None s) as [t r0| |] eqn:Et; try discriminate.
    apply read_token_None_inv in Et as (d & -> & -> & Hd).
    destruct d as [|c d]; [discriminate|]. pose proof (line_ok_cons _ _ Hd) as Hd'.
    cbn [app] in H0. rewrite !tok_body_app in H0. rewrite !app_length in H. simpl in H.
    destruct (byte_eqb c "+"); [injection H0 as <- <-; constructor; auto|].
    destruct (byte_eqb c "$").
    { apply read_bulk_inv in H0 as [(-> & -> & _)|(n & e & x & -> & -> & _ & _ & He & Hn)]; constructor. lia. }
    destruct (byte_eqb c "-"); [injection H0 as <- <-; constructor; auto|].
    destruct (byte_eqb c ":").
    { destruct (parse_int d) eqn:Ep; [|discriminate]; injection H0 as <- <-. constructor. apply parse_int_spec in Ep as [_ Ep]; exact Ep. }
    destruct (byte_eqb c "*"); [|discriminate].
    destruct (parse_int d) as [n|] eqn:Ep; [|discriminate].
    destruct (n =? -1). { injection H0 as <- <-; constructor. }
    destruct (read_items f n r0) as [l r1| | |] eqn:Ei; try discriminate. injection H0 as <- <-.
    constructor; [|eapply IHi; eauto; lia].
    apply read_consume in Ei as (u & -> & _ & Hl). apply parse_int_spec in Ep as [_ Ep]. unfold int64_ok in Ep. lia.
  - simpl in H0. destruct (n <=? 0) eqn:En.
    + injection H0 as <- <-. constructor.
    + destruct (read_object f s) as [o r0| | |] eqn:Eo; try discriminate.
      destruct (read_items f (n - 1) r0) as [l' r1| | |] eqn:Ei; try discriminate. injection H0 as <- <-.
      constructor; [eapply IHo; eauto|]. apply read_consume in Eo as (u & -> & _).
      rewrite app_length in H. eapply IHi; [|eauto]. lia.
Qed.

(* ---- locality: later bytes do not matter, shorter input is EOF ---- *)
Lemma read_token_swap s : forall prev t rest z,
  read_token prev s = TOk t rest -> read_token prev (t ++ z) = TOk t z.
Proof.
  induction s as [|c s IH]; intros prev t rest z H; [discriminate|].
  simpl in H. destruct (byte_eqb c LF) eqn:E.
  - destruct prev as [p|]; [|discriminate]. destruct (byte_eqb p CR) eqn:Ep.
    + injection H as <- <-. simpl. rewrite E, Ep. auto.
    + destruct (read_token None s) eqn:Er; try discriminate. injection H as <- <-.
      simpl. rewrite E, Ep. erewrite IH by eauto. reflexivity.
  - destruct (read_token (Some c) s) eqn:Er; try discriminate. injection H as <- <-.
    simpl. rewrite E. erewrite IH by eauto. reflexivity.
Qed.

Lemma read_bulk_local t r o r' : read_bulk t r = POk o r' ->
  exists u, r = u ++ r' /\ forall z, read_bulk t (u ++ z) = POk o z.
Proof.
  unfold read_bulk. destruct (parse_int _) as [n|]; [|discriminate].
  destruct (n =? -1); [intros [= <- <-]; exists []; auto|].
  destruct (read_bytes _ r) as [d r''| | |] eqn:Er; try discriminate.
  destruct (_ || _) eqn:E; [discriminate|]. intros [= <- <-].
  apply read_bytes_inv in Er as (-> & H0 & Hl).
  exists d. split; [auto|]. intros z.
  unfold read_bytes. destruct (wrap64 (n + 2) <? 0) eqn:E1; [lia|].
  rewrite !blen_app. pose proof (blen_nonneg z).
  destruct (_ <? wrap64 (n + 2)) eqn:E2; [lia|].
  rewrite <- Hl. replace (Z.to_nat (blen d)) with (List.length d) by (unfold blen; lia).
  rewrite firstn_app, skipn_app, firstn_all, skipn_all, Nat.sub_diag.
  rewrite firstn_O, skipn_O, app_nil_r, app_nil_l. rewrite E. reflexivity.
Qed.

Lemma read_local f :
  (forall s o r, read_object f s = POk o r ->
     exists u, s = u ++ r /\ forall z, read_object f (u ++ z) = POk o z) /\
  (forall n s l r, read_items f n s = POk l r ->
     exists u, s = u ++ r /\ forall z, read_items f n (u ++ z) = POk l z).
Proof.
  induction f as [|f [IHo IHi]]; split; intros; try discriminate.
  - cbn [read_object] in *. destruct (read_token None s) as [t r0| |] eqn:Et; try discriminate.
    pose proof (read_token_inv _ _ _ _ Et) as [-> _].
    pose proof (fun z => read_token_swap _ _ _ _ z Et) as Hsw.
    destruct t as [|c t]; [discriminate|].
    destruct (byte_eqb c "+") eqn:Q0. { injection H as <- <-. exists (c :: t). split; auto. intros z. rewrite Hsw, ?Q0, ?Q1, ?Q2, ?Q3, ?Q4, ?Qp, ?Qn. auto. }
    destruct (byte_eqb c "$") eqn:Q1.
    { apply read_bulk_local in H as (u & -> & Hu). exists ((c :: t) ++ u). rewrite app_assoc. split; auto.
      intros z. rewrite <- app_assoc, Hsw, Q0, Q1. apply Hu. }
    destruct (byte_eqb c "-") eqn:Q2. { injection H as <- <-. exists (c :: t). split; auto. intros z. rewrite Hsw, ?Q0, ?Q1, ?Q2, ?Q3, ?Q4, ?Qp, ?Qn. auto. }
    destruct (byte_eqb c ":") eqn:Q3.
    { destruct (parse_int _) as [v|] eqn:Qp; [|discriminate]; injection H as <- <-. exists (c :: t). split; auto. intros z. rewrite Hsw, ?Q0, ?Q1, ?Q2, ?Q3, ?Q4, ?Qp, ?Qn. auto. }
    destruct (byte_eqb c "*") eqn:Q4; [|discriminate].
    destruct (parse_int _) as [n|] eqn:Qp; [|discriminate].
    destruct (n =? -1) eqn:Qn. { injection H as <- <-. exists (c :: t). split; auto. intros z. rewrite Hsw, ?Q0, ?Q1, ?Q2, ?Q3, ?Q4, ?Qp, ?Qn. auto. }
    destruct (read_items f n r0) as [l r1| | |] eqn:Ei; try discriminate. injection H as <- <-.
    apply IHi in Ei as (u & -> & Hu). exists ((c :: t) ++ u). rewrite app_assoc. split; auto.
    intros z. rewrite <- app_assoc, Hsw, Q0, Q1, Q2, Q3, Q4, Qp, Qn, Hu. auto.
  - cbn [read_items] in *. destruct (n <=? 0) eqn:En.
    + injection H as <- <-. exists []. auto.
    + destruct (read_object f s) as [o r0| | |] eqn:Eo; try discriminate.
      destruct (read_items f (n - 1) r0) as [l' r1| | |] eqn:Ei; try discriminate. injection H as <- <-.
      apply IHo in Eo as (u & -> & Hu). apply IHi in Ei as (v & -> & Hv).
      exists (u ++ v). rewrite app_assoc. split; auto. intros z. rewrite <- app_assoc, Hu, Hv. auto.
Qed.

Lemma prefix_split (u p q r : bytes) : p ++ q = u ++ r ->
  (exists z, z <> [] /\ u = p ++ z) \/ (exists z, p = u ++ z /\ r = z ++ q).
Proof.
  revert p. induction u as [|c u IH]; intros p H.
  - right. exists p. auto.
  - destruct p as [|c' p].
    + left. exists (c :: u). split; [discriminate|auto].
    + simpl in H. injection H as -> H. destruct (IH _ H) as [(z & Hz & ->)|(z & -> & ->)].
      * left. exists z. auto.
      * right. exists z. auto.
Qed.

Lemma app_self_nil (z q r : bytes) : r = z ++ q ++ r -> q = [].
Proof.
  intros H. apply (f_equal (@List.length _)) in H. rewrite !app_length in H.
  destruct q; auto. simpl in H. lia.
Qed.

Lemma read_prefix f :
  (forall s o r p q, read_object f s = POk o r -> s = p ++ q ++ r -> q <> [] ->
     read_object f p = PErr EEof) /\
  (forall n s l r p q, read_items f n s = POk l r -> s = p ++ q ++ r -> q <> [] ->
     read_items f n p = PErr EEof).
Proof.
  induction f as [|f [IHo IHi]]; split; intros; try discriminate.
  - simpl in H. destruct (read_token None s) as [t r0| |] eqn:Et; try discriminate.
    pose proof (read_token_inv _ _ _ _ Et) as [Hs _].
    rewrite H0 in Hs. apply prefix_split in Hs as [(z & Hz & Ht)|(z & Hp & Hr)].
    { simpl. erewrite read_token_prefix by eauto. reflexivity. }
    subst p. cbn [read_object].
    rewrite (read_token_swap _ _ _ _ z Et).
    destruct t as [|c t]; [discriminate|].
    destruct (byte_eqb c "+"). { injection H as <- <-. apply app_self_nil in Hr. congruence. }
    destruct (byte_eqb c "$").
    { subst r0. clear - H H1. unfold read_bulk in *. destruct (parse_int _) as [n|]; [|discriminate].
      destruct (n =? -1). { injection H as _ H. symmetry in H. apply app_self_nil in H. congruence. }
      destruct (read_bytes _ (z ++ q ++ r)) as [d r1| | |] eqn:Er; try discriminate.
      destruct (_ || _); [discriminate|]. injection H as _ <-.
      apply read_bytes_inv in Er as (He & Hw & Hl).
      unfold read_bytes. destruct (wrap64 (n + 2) <? 0) eqn:E1; [lia|].
      destruct (blen z <? _) eqn:E2; auto. exfalso.
      apply (f_equal blen) in He. rewrite !blen_app in He.
      destruct q; [congruence|]. rewrite blen_cons in He. pose proof (blen_nonneg q). lia. }
    destruct (byte_eqb c "-"). { injection H as <- <-. apply app_self_nil in Hr. congruence. }
    destruct (byte_eqb c ":").
    { destruct (parse_int _) as [v|]; [|discriminate]; injection H as <- <-. apply app_self_nil in Hr. congruence. }
    destruct (byte_eqb c "*"); [|discriminate].
    destruct (parse_int _) as [n|]; [|discriminate].
    destruct (n =? -1). { injection H as <- <-. apply app_self_nil in Hr. congruence. }
    destruct (read_items f n r0) as [l r1| | |] eqn:Ei; try discriminate. injection H as <- <-.
    erewrite IHi by eauto. auto.
  - simpl in H. simpl. destruct (n <=? 0) eqn:En.
    + injection H as <- <-. apply app_self_nil in H0. congruence.
    + destruct (read_object f s) as [o r0| | |] eqn:Eo; try discriminate.
      destruct (read_items f (n - 1) r0) as [l' r1| | |] eqn:Ei; try discriminate. injection H as <- <-.
      pose proof (proj1 (read_local f) _ _ _ Eo) as (u & Hu & Hl).
      pose proof Hu as Hu'. rewrite H0 in Hu. apply prefix_split in Hu as [(z & Hz & ->)|(z & -> & Hr)].
      * rewrite (IHo s o r0 p z); auto. rewrite app_assoc. auto.
      * rewrite Hl. erewrite IHi; eauto.
Qed.

Lemma parse_local s o r : parse s = POk o r ->
  exists u, s = u ++ r /\ (forall z, parse (u ++ z) = POk o z) /\
    (forall p q, u = p ++ q -> q <> [] -> parse p = PErr EEof).
Proof.
  intros H. unfold parse in H. destruct (proj1 (read_local _) _ _ _ H) as (u & -> & Hu).
  exists u. split; auto. split.
  - intros z. eapply parse_eq; [apply Hu|discriminate].
  - intros p q -> Hq. eapply parse_eq; [|discriminate].
    eapply (proj1 (read_prefix _)); [apply H| |exact Hq]. rewrite <- app_assoc. reflexivity.
Qed.

Lemma parse_obj_ok s o r : Z.of_nat (List.length s) < 2 ^ 63 -> parse s = POk o r -> obj_ok o.
Proof. intros. eapply (proj1 (read_ok _)); eauto. Qed.

(* C02 *)
Theorem encode_prefix_eof o p q : obj_ok o -> encode o = p ++ q -> q <> [] -> parse p = PErr EEof.
Proof.
  intros Hok He Hq. pose proof (parse_encode o [] Hok) as H.
  apply parse_local in H as (u & Hu & _ & Hp). rewrite !app_nil_r in Hu. subst u. eauto.
Qed.

(* C03 *)
Lemma has_bad_bulk_app a s : has_bad_bulk s -> has_bad_bulk (a ++ s).
Proof.
  intros (x & n & b & -> & H). exists (a ++ x), n, b. rewrite <- app_assoc. auto.
Qed.

Lemma read_panic f :
  (forall s, read_object f s = PPanic -> has_bad_bulk s) /\
  (forall n s, read_items f n s = PPanic -> has_bad_bulk s).
Proof.
  induction f as [|f [IHo IHi]]; split; intros; try discriminate.
  - cbn [read_object] in *. destruct (read_token None s) as [t r0| |] eqn:Et; try discriminate.
    apply read_token_None_inv in Et as (d & -> & -> & Hd).
    destruct d as [|c d]; [discriminate|]. cbn [app] in H.
    destruct (byte_eqb c "+"); [discriminate|].
    destruct (byte_eqb c "$") eqn:Ec.
    { apply byte_eqb_eq in Ec as ->. unfold read_bulk in H. rewrite tok_body_app in H.
      destruct (parse_int d) as [n|] eqn:Ep; [|discriminate].
      destruct (n =? -1) eqn:En; [discriminate|].
      destruct (read_bytes _ r0) as [e r1| | |] eqn:Er; try discriminate.
      2:{ unfold read_bytes in Er. destruct (_ <? _); [discriminate|]. destruct (_ <? _); discriminate. }
      destruct (_ || _) eqn:Eb; [|discriminate].
      apply read_bytes_inv in Er as (-> & Hw & Hl). apply parse_int_spec in Ep as [Hden Hi].
      exists [], d, (e ++ r1). split; [reflexivity|].
      replace (-2) with n; auto.
      unfold int64_ok in Hi. destruct (Z.lt_ge_cases n (2^63 - 2)) as [Hlt|Hge].
      - rewrite wrap64_id in Hw, Hl by (unfold int64_ok; lia). lia.
      - exfalso. unfold wrap64 in Hw. replace (n + 2 + 2 ^ 63) with ((n + 2 - 2 ^ 63) + 1 * 2 ^ 64) in Hw by lia.
        rewrite Z.mod_add in Hw by lia. rewrite Z.mod_small in Hw by lia. lia. }
    destruct (byte_eqb c "-"); [discriminate|].
    destruct (byte_eqb c ":"). { destruct (parse_int _); discriminate. }
    destruct (byte_eqb c "*"); [|discriminate].
    destruct (parse_int _) as [n|]; [|discriminate].
    destruct (n =? -1); [discriminate|].
    destruct (read_items f n r0) as [l r1| | |] eqn:Ei; try discriminate.
    rewrite app_assoc. apply has_bad_bulk_app. eauto.
  - cbn [read_items] in *. destruct (n <=? 0) eqn:En; [discriminate|].
    destruct (read_object f s) as [o r0| | |] eqn:Eo; try discriminate; eauto.
    destruct (read_items f (n - 1) r0) as [l' r1| | |] eqn:Ei; try discriminate.
    apply read_local in Eo as (u & -> & _). apply has_bad_bulk_app. eauto.
Qed.

Theorem parse_total s : ~ has_bad_bulk s ->
  (exists o r, parse s = POk o r) \/ parse s = PErr EEof \/ parse s = PErr EOther.
Proof.
  intros H. pose proof (parse_nofuel s) as Hf. destruct (parse s) as [o r|[]| |] eqn:E; eauto; try congruence.
  exfalso. apply H. eapply (proj1 (read_panic _)). exact E.
Qed.
