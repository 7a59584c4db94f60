(* A quoted text can be read back, so quoting loses nothing. *)
From Verif Require Import Base BaseFacts IntParse IntParseProofs Utf8 Resp Command RequestSpec CommandProofs Log Recovery Quote QuoteSpec.
From Coq Require Import ZArith List Ascii String Bool Lia.
Import ListNotations.
Open Scope Z_scope.

(* ---- reading a quoted text, after the opening quote ---- *)
Definition unhex (c : ascii) : Z := if byteZ c <? 58 then byteZ c - 48 else byteZ c - 87.
Definition number (l : list ascii) : Z := fold_left (fun a c => 16 * a + unhex c) l 0.
Definition put (x : bytes) (r : option (bytes * bytes)) : option (bytes * bytes) := match r with Some (y, t) => Some (x ++ y, t) | None => None end.
Definition plain_escape (c : ascii) : Z :=
  if byteZ c =? 97 then 7 else if byteZ c =? 98 then 8 else if byteZ c =? 102 then 12 else if byteZ c =? 110 then 10
  else if byteZ c =? 114 then 13 else if byteZ c =? 116 then 9 else if byteZ c =? 118 then 11 else byteZ c.
Fixpoint unquote (t : bytes) : option (bytes * bytes) :=
  match t with
  | [] => None
  | c :: t1 =>
      if byteZ c =? 34 then Some ([], t1)
      else if byteZ c =? 92 then
        match t1 with
        | [] => None
        | e :: t2 =>
            if byteZ e =? 120 then match t2 with a :: b :: t3 => put [byteOf (number [a; b])] (unquote t3) | _ => None end
            else if byteZ e =? 117 then match t2 with a :: b :: c :: d :: t3 => put (encode_rune (number [a; b; c; d])) (unquote t3) | _ => None end
            else if byteZ e =? 85 then match t2 with a :: b :: c :: d :: a' :: b' :: c' :: d' :: t3 => put (encode_rune (number [a; b; c; d; a'; b'; c'; d'])) (unquote t3) | _ => None end
            else put [byteOf (plain_escape e)] (unquote t2)
        end
      else put [c] (unquote t1)
  end.
Lemma put_put x y r : put x (put y r) = put (x ++ y) r.
Proof. destruct r as [[z t]|]; cbn; [now rewrite app_assoc|reflexivity]. Qed.
Lemma unquote_copy raw t : Forall (fun c => byteZ c <> 34 /\ byteZ c <> 92) raw -> unquote (raw ++ t) = put raw (unquote t).
Proof.
  induction 1 as [|c raw [A B] F IH]; [cbn [app]; destruct (unquote t) as [[? ?]|]; reflexivity|]. cbn [app unquote].
  rewrite (proj2 (Z.eqb_neq _ _) A), (proj2 (Z.eqb_neq _ _) B), IH, put_put. reflexivity.
Qed.
Lemma unhex_digit d : 0 <= d < 16 -> unhex (hex_digit d) = d.
Proof.
  intros H. assert (C : d < 10 \/ 10 <= d) by lia. unfold hex_digit, unhex. destruct C as [C|C].
  - rewrite (proj2 (Z.ltb_lt _ _) C), byteZ_byteOf by lia. replace (48 + d <? 58) with true by (symmetry; apply Z.ltb_lt; lia). lia.
  - rewrite (proj2 (Z.ltb_ge _ _) C), byteZ_byteOf by lia. replace (87 + d <? 58) with false by (symmetry; apply Z.ltb_ge; lia). lia.
Qed.
Lemma number_snoc l c : number (l ++ [c]) = 16 * number l + unhex c.
Proof. unfold number. now rewrite fold_left_app. Qed.
Lemma number_hex n : forall r, 0 <= r < 16 ^ Z.of_nat n -> number (hex n r) = r.
Proof.
  induction n as [|n IH]; intros r H; [cbn in *; lia|]. cbn [hex]. rewrite number_snoc. rewrite Nat2Z.inj_succ, Z.pow_succ_r in H by lia.
  rewrite IH by (split; [apply Z.div_pos; lia|apply Z.div_lt_upper_bound; lia]). rewrite unhex_digit by (apply Z.mod_pos_bound; lia). pose proof (Z.div_mod r 16). lia.
Qed.
Lemma unquote_x r t : 0 <= r < 256 -> unquote (bs "\x" ++ hex 2 r ++ t) = put [byteOf r] (unquote t).
Proof. intros H. pose proof (number_hex 2 r ltac:(cbn; lia)) as E. cbn [hex app] in *. cbn [bs list_ascii_of_string app unquote]. now rewrite E. Qed.
Lemma unquote_u r t : 0 <= r < 65536 -> unquote (bs "\u" ++ hex 4 r ++ t) = put (encode_rune r) (unquote t).
Proof. intros H. pose proof (number_hex 4 r ltac:(cbn; lia)) as E. cbn [hex app] in *. cbn [bs list_ascii_of_string app unquote]. now rewrite E. Qed.
Lemma unquote_U r t : 0 <= r < 4294967296 -> unquote (bs "\U" ++ hex 8 r ++ t) = put (encode_rune r) (unquote t).
Proof. intros H. pose proof (number_hex 8 r ltac:(cbn; lia)) as E. cbn [hex app] in *. cbn [bs list_ascii_of_string app unquote]. now rewrite E. Qed.

(* ---- decoding and encoding a rune ---- *)
Lemma within_spec lo hi c : within lo hi c = true <-> lo <= byteZ c <= hi.
Proof. unfold within. rewrite andb_true_iff, !Z.leb_le. tauto. Qed.
Lemma cont_spec c : cont c = true <-> 128 <= byteZ c <= 191.
Proof. unfold cont. rewrite andb_true_iff, !Z.leb_le. tauto. Qed.
Lemma byteOf_is c z : byteZ c = z -> byteOf z = c.
Proof. intros <-. apply byteOf_byteZ. Qed.
Definition good_rune (r : Z) : Prop := 0 <= r <= 1114111.
(* Either one byte that is no rune, or the encoding of the rune. *)
Lemma decoded c s r w : decode_rune (c :: s) = (r, w) ->
  (w = 1%nat /\ r = bad_rune) \/ (good_rune r /\ (1 <= w)%nat /\ firstn w (c :: s) = encode_rune r /\ (w = 1%nat -> r <> bad_rune)).
Proof.
  pose proof (byteZ_range c) as Rc. unfold decode_rune.
  destruct (Z.ltb_spec (byteZ c) 128) as [A|A].
  { intros E. injection E as <- <-. right. unfold good_rune, encode_rune, bad_rune. rewrite (proj2 (Z.ltb_lt _ _) A), byteOf_byteZ. cbn [firstn]. repeat split; try lia. }
  destruct (within 194 223 c) eqn:W2.
  { apply within_spec in W2. destruct s as [|b s]; [intros E; injection E as <- <-; auto|]. destruct (cont b) eqn:Cb; [|intros E; injection E as <- <-; auto].
    apply cont_spec in Cb. intros E. injection E as <- <-. right. remember ((byteZ c - 192) * 64 + (byteZ b - 128)) as r eqn:Er.
    split; [unfold good_rune; lia|]. split; [lia|]. split; [|lia]. unfold encode_rune.
    replace (r <? 128) with false by (symmetry; apply Z.ltb_ge; lia). replace (r <? 2048) with true by (symmetry; apply Z.ltb_lt; lia). cbn [firstn].
    assert (r / 64 = byteZ c - 192) as -> by (symmetry; apply (Z.div_unique r 64 _ (byteZ b - 128)); lia). assert (r mod 64 = byteZ b - 128) as -> by (symmetry; apply (Z.mod_unique r 64 (byteZ c - 192)); lia).
    now rewrite (byteOf_is c), (byteOf_is b) by lia. }
  destruct (within 224 239 c) eqn:W3.
  { apply within_spec in W3. destruct s as [|b [|d s]]; try (intros E; injection E as <- <-; auto). destruct (_ && _) eqn:B; [|intros E; injection E as <- <-; auto].
    apply andb_true_iff in B as [Bb Cd]. apply within_spec in Bb. apply cont_spec in Cd. intros E. injection E as <- <-. right.
    remember (((byteZ c - 224) * 64 + (byteZ b - 128)) * 64 + (byteZ d - 128)) as r eqn:Er.
    assert (Lb : 128 <= byteZ b <= 191 /\ (byteZ c = 224 -> 160 <= byteZ b) /\ (byteZ c = 237 -> byteZ b <= 159)).
    { destruct (Z.eqb_spec (byteZ c) 224), (Z.eqb_spec (byteZ c) 237); lia. }
    split; [unfold good_rune; lia|]. split; [lia|]. split; [|lia]. unfold encode_rune.
    replace (r <? 128) with false by (symmetry; apply Z.ltb_ge; lia). replace (r <? 2048) with false by (symmetry; apply Z.ltb_ge; lia).
    replace (1114111 <? r) with false by (symmetry; apply Z.ltb_ge; lia). replace ((55296 <=? r) && (r <=? 57343)) with false.
    2: { symmetry. apply andb_false_iff. rewrite !Z.leb_gt. lia. }
    replace (r <? 65536) with true by (symmetry; apply Z.ltb_lt; lia). cbn [firstn orb].
    assert (r / 4096 = byteZ c - 224) as -> by (symmetry; apply (Z.div_unique r 4096 _ ((byteZ b - 128) * 64 + (byteZ d - 128))); lia).
    assert (r / 64 = (byteZ c - 224) * 64 + (byteZ b - 128)) as -> by (symmetry; apply (Z.div_unique r 64 _ (byteZ d - 128)); lia).
    assert (((byteZ c - 224) * 64 + (byteZ b - 128)) mod 64 = byteZ b - 128) as -> by (symmetry; apply (Z.mod_unique _ 64 (byteZ c - 224)); lia).
    assert (r mod 64 = byteZ d - 128) as -> by (symmetry; apply (Z.mod_unique r 64 ((byteZ c - 224) * 64 + (byteZ b - 128))); lia).
    now rewrite (byteOf_is c), (byteOf_is b), (byteOf_is d) by lia. }
  destruct (within 240 244 c) eqn:W4; [|intros E; injection E as <- <-; auto].
  apply within_spec in W4. destruct s as [|b [|d [|e s]]]; try (intros E; injection E as <- <-; auto). destruct (_ && _) eqn:B; [|intros E; injection E as <- <-; auto].
  apply andb_true_iff in B as [B Ce]. apply andb_true_iff in B as [Bb Cd]. apply within_spec in Bb. apply cont_spec in Cd. apply cont_spec in Ce. intros E. injection E as <- <-. right.
  remember ((((byteZ c - 240) * 64 + (byteZ b - 128)) * 64 + (byteZ d - 128)) * 64 + (byteZ e - 128)) as r eqn:Er.
  assert (Lb : 128 <= byteZ b <= 191 /\ (byteZ c = 240 -> 144 <= byteZ b) /\ (byteZ c = 244 -> byteZ b <= 143)).
  { destruct (Z.eqb_spec (byteZ c) 240), (Z.eqb_spec (byteZ c) 244); lia. }
  split; [unfold good_rune; lia|]. split; [lia|]. split; [|lia]. unfold encode_rune.
  replace (r <? 128) with false by (symmetry; apply Z.ltb_ge; lia). replace (r <? 2048) with false by (symmetry; apply Z.ltb_ge; lia).
  replace (1114111 <? r) with false by (symmetry; apply Z.ltb_ge; lia). replace ((55296 <=? r) && (r <=? 57343)) with false.
  2: { symmetry. apply andb_false_iff. rewrite !Z.leb_gt. lia. }
  replace (r <? 65536) with false by (symmetry; apply Z.ltb_ge; lia). cbn [firstn orb].
  assert (r / 262144 = byteZ c - 240) as -> by (symmetry; apply (Z.div_unique r 262144 _ (((byteZ b - 128) * 64 + (byteZ d - 128)) * 64 + (byteZ e - 128))); lia).
  assert (r / 4096 = (byteZ c - 240) * 64 + (byteZ b - 128)) as -> by (symmetry; apply (Z.div_unique r 4096 _ ((byteZ d - 128) * 64 + (byteZ e - 128))); lia).
  assert (r / 64 = ((byteZ c - 240) * 64 + (byteZ b - 128)) * 64 + (byteZ d - 128)) as -> by (symmetry; apply (Z.div_unique r 64 _ (byteZ e - 128)); lia).
  assert (((byteZ c - 240) * 64 + (byteZ b - 128)) mod 64 = byteZ b - 128) as -> by (symmetry; apply (Z.mod_unique _ 64 (byteZ c - 240)); lia).
  assert ((((byteZ c - 240) * 64 + (byteZ b - 128)) * 64 + (byteZ d - 128)) mod 64 = byteZ d - 128) as -> by (symmetry; apply (Z.mod_unique _ 64 ((byteZ c - 240) * 64 + (byteZ b - 128))); lia).
  assert (r mod 64 = byteZ e - 128) as -> by (symmetry; apply (Z.mod_unique r 64 (((byteZ c - 240) * 64 + (byteZ b - 128)) * 64 + (byteZ d - 128))); lia).
  now rewrite (byteOf_is c), (byteOf_is b), (byteOf_is d), (byteOf_is e) by lia.
Qed.
Lemma encode_rune_bytes r : good_rune r -> (r < 128 /\ encode_rune r = [byteOf r]) \/ (128 <= r /\ Forall (fun c => 128 <= byteZ c) (encode_rune r)).
Proof.
  unfold good_rune, encode_rune. intros H. destruct (Z.ltb_spec r 128); [now left|]. right. split; [assumption|].
  assert (M : forall x, 0 <= x mod 64 < 64) by (intros; apply Z.mod_pos_bound; lia).
  destruct (Z.ltb_spec r 2048); [|destruct (_ || _); [|destruct (Z.ltb_spec r 65536)]]; repeat (apply Forall_cons || apply Forall_nil); rewrite byteZ_byteOf; try (pose proof (M r); pose proof (M (r / 64)); pose proof (M (r / 4096)); lia).
  - assert (r / 64 < 32) by (apply Z.div_lt_upper_bound; lia). assert (0 <= r / 64) by (apply Z.div_pos; lia). lia.
  - assert (r / 64 < 32) by (apply Z.div_lt_upper_bound; lia). assert (0 <= r / 64) by (apply Z.div_pos; lia). lia.
  - assert (0 <= r / 4096) by (apply Z.div_pos; lia). lia.
  - assert (0 <= r / 4096) by (apply Z.div_pos; lia). assert (r / 4096 < 16) by (apply Z.div_lt_upper_bound; lia). lia.
  - assert (0 <= r / 262144) by (apply Z.div_pos; lia). lia.
  - assert (0 <= r / 262144) by (apply Z.div_pos; lia). assert (r / 262144 < 5) by (apply Z.div_lt_upper_bound; lia). lia.
Qed.
Lemma encode_small r : 0 <= r < 128 -> encode_rune r = [byteOf r].
Proof. intros H. unfold encode_rune. now rewrite (proj2 (Z.ltb_lt _ _)) by lia. Qed.
Lemma unquote_escape p r t : good_rune r -> unquote (escape p r ++ t) = put (encode_rune r) (unquote t).
Proof.
  intros G. unfold good_rune in G. unfold escape.
  destruct ((r =? 34) || (r =? 92)) eqn:Q.
  { apply orb_true_iff in Q as [Q|Q]; apply Z.eqb_eq in Q; subst; reflexivity. }
  apply orb_false_iff in Q as [Q1 Q2]. apply Z.eqb_neq in Q1. apply Z.eqb_neq in Q2. destruct (is_print p r) eqn:P.
  { apply unquote_copy. destruct (encode_rune_bytes r G) as [[L E]|[L F]].
    - rewrite E. repeat constructor; rewrite byteZ_byteOf by lia; assumption.
    - eapply Forall_impl; [|exact F]. cbn. lia. }
  repeat match goal with |- context [if r =? ?n then _ else _] => destruct (Z.eqb_spec r n) as [->|]; [reflexivity|] end.
  destruct ((r <? 32) || (del_short p && (r =? 127))) eqn:X.
  { assert (r < 128) by (apply orb_true_iff in X as [X|X]; [apply Z.ltb_lt in X; lia|apply andb_true_iff in X as [_ X]; apply Z.eqb_eq in X; lia]).
    rewrite <- app_assoc, unquote_x, encode_small by lia. reflexivity. }
  destruct (Z.ltb_spec r 65536); rewrite <- app_assoc; [apply unquote_u; lia|apply unquote_U; lia].
Qed.
Lemma unquote_loop p t : forall fuel s, (List.length s <= fuel)%nat -> unquote (quote_loop p fuel s ++ [DQUOTE] ++ t) = Some (s, t).
Proof.
  induction fuel as [|fuel IH]; intros s L; [destruct s; [reflexivity|cbn in L; lia]|]. destruct s as [|c s]; [reflexivity|]. cbn [quote_loop].
  destruct (decode_rune (c :: s)) as [r w] eqn:D. rewrite <- app_assoc. destruct (decoded _ _ _ _ D) as [[-> ->]|(G & W & E & N)].
  - rewrite Nat.eqb_refl, Z.eqb_refl. cbn [andb]. rewrite <- app_assoc, unquote_x by apply byteZ_range. change (skipn 1 (c :: s)) with s. rewrite IH by (cbn [List.length] in L; lia). cbn. now rewrite byteOf_byteZ.
  - replace (Nat.eqb w 1 && (r =? bad_rune)) with false.
    2: { symmetry. apply andb_false_iff. destruct (Nat.eqb_spec w 1); [right; apply Z.eqb_neq; auto|now left]. }
    rewrite unquote_escape by exact G. rewrite IH by (rewrite skipn_length; cbn [List.length] in *; lia). cbn [put]. rewrite <- E, firstn_skipn. reflexivity.
Qed.
Theorem quote_whole p s t x y : quote p s ++ x = quote p t ++ y -> s = t /\ x = y.
Proof.
  unfold quote. rewrite <- !app_assoc. intros E. apply app_inv_head in E. apply (f_equal unquote) in E. rewrite !unquote_loop in E by lia. now injection E.
Qed.

(* ---- no control characters ---- *)
Lemma hex_visible n : forall r, Forall visible (hex n r).
Proof.
  induction n as [|n IH]; intros r; cbn [hex]; [constructor|]. apply Forall_app. split; [apply IH|]. constructor; [|constructor].
  pose proof (Z.mod_pos_bound r 16 ltac:(lia)). unfold visible, hex_digit. destruct (Z.ltb_spec (r mod 16) 10); rewrite byteZ_byteOf; lia.
Qed.
Ltac vis := repeat (apply Forall_cons; [unfold visible; vm_compute; discriminate|]); apply Forall_nil.
Lemma escape_visible p r : (forall z, 0 <= z < 32 -> is_print p z = false) -> good_rune r -> Forall visible (escape p r).
Proof.
  intros C G. unfold good_rune in G. unfold escape. destruct ((r =? 34) || (r =? 92)) eqn:Q.
  { apply orb_true_iff in Q as [Q|Q]; apply Z.eqb_eq in Q; subst; vis. }
  destruct (is_print p r) eqn:P.
  { destruct (encode_rune_bytes r G) as [[L E]|[L F]].
    - rewrite E. constructor; [|constructor]. unfold visible. rewrite byteZ_byteOf by lia. destruct (Z.lt_ge_cases r 32); [rewrite C in P by lia; discriminate|assumption].
    - eapply Forall_impl; [|exact F]. unfold visible. cbn. lia. }
  repeat match goal with |- context [if r =? ?n then _ else _] => destruct (r =? n); [vis|] end.
  destruct ((r <? 32) || (del_short p && (r =? 127))); [|destruct (r <? 65536)]; (apply Forall_app; split; [vis|apply hex_visible]).
Qed.
Lemma loop_visible p : (forall z, 0 <= z < 32 -> is_print p z = false) -> forall fuel s, Forall visible (quote_loop p fuel s).
Proof.
  intros C. induction fuel as [|fuel IH]; intros s; [constructor|]. destruct s as [|c s]; [constructor|]. cbn [quote_loop].
  destruct (decode_rune (c :: s)) as [r w] eqn:D. apply Forall_app. split; [|apply IH]. destruct (decoded _ _ _ _ D) as [[-> ->]|(G & W & E & N)].
  - rewrite Nat.eqb_refl, Z.eqb_refl. cbn [andb]. apply Forall_app. split; [vis|apply hex_visible].
  - destruct (_ && _); [apply Forall_app; split; [vis|apply hex_visible]|now apply escape_visible].
Qed.
Theorem quote_visible p s : (forall z, 0 <= z < 32 -> is_print p z = false) -> Forall visible (quote p s).
Proof. intros C. unfold quote. apply Forall_app. split; [vis|]. apply Forall_app. split; [now apply loop_visible|vis]. Qed.

(* ---- the whole description ---- *)
Lemma cut_comma a : forall b x y, no_comma a -> no_comma b -> a ++ ","%char :: x = b ++ ","%char :: y -> a = b /\ x = y.
Proof.
  induction a as [|c a IH]; intros [|d b] x y A B E; cbn [app] in E.
  - now injection E.
  - injection E as E1 E2. inversion B; subst. congruence.
  - injection E as E1 E2. inversion A; subst. congruence.
  - injection E as -> E. inversion A; subst. inversion B; subst. destruct (IH b x y) as [-> ->]; auto.
Qed.
Lemma number_no_comma z : no_comma (format_int z).
Proof. eapply Forall_impl; [|apply format_int_chars]. intros c [D| ->]; [|discriminate]. intros ->. destruct D as [D _]. vm_compute in D. congruence. Qed.
Lemma number_visible z : Forall visible (format_int z).
Proof. eapply Forall_impl; [|apply format_int_chars]. intros c [D| ->]; [destruct D; unfold visible; lia|vm_compute; discriminate]. Qed.
Lemma join_cons x y l : join (bs ",") (x :: y :: l) = x ++ [","%char] ++ join (bs ",") (y :: l).
Proof. reflexivity. Qed.
Lemma quote_join_whole p l : forall m x y, quote_join p l (bs ",") ++ "]"%char :: x = quote_join p m (bs ",") ++ "]"%char :: y -> l = m /\ x = y.
Proof.
  unfold quote_join. induction l as [|a l IH]; intros m x y E.
  - destruct m as [|b [|b' m]]; cbn [map join app] in E; [now injection E|unfold quote in E; discriminate E|unfold quote in E; discriminate E].
  - destruct m as [|b m]; [destruct l; cbn [map join app] in E; unfold quote in E; discriminate E|].
    destruct l as [|a' l], m as [|b' m].
    + apply quote_whole in E as [-> E]. now injection E.
    + exfalso. cbn [map] in E. rewrite join_cons, <- app_assoc in E. apply (quote_whole p a b) in E as [_ E]. discriminate E.
    + exfalso. cbn [map] in E. rewrite join_cons, <- app_assoc in E. apply (quote_whole p a b) in E as [_ E]. discriminate E.
    + cbn [map] in E. rewrite !join_cons, <- !app_assoc in E. apply quote_whole in E as [-> E]. apply (app_inv_head [","%char]) in E. apply (IH (b' :: m)) in E as [E ->]. now rewrite E.
Qed.
Theorem format_log_inj p v w : tame v -> tame w -> format_log p v = format_log p w -> v = w.
Proof.
  destruct v as [i1 t1 h1 n1 x1 a1 r1], w as [i2 t2 h2 n2 x2 a2 r2]. unfold tame, format_log. cbn [v_id v_time v_host v_name v_index v_args v_raw].
  intros (A1 & A2 & A3 & A4 & A5) (B1 & B2 & B3 & B4 & B5) E. apply app_inv_head in E.
  assert (C : forall s x, bs (String ","%char s) ++ x = ","%char :: bs s ++ x) by reflexivity.
  rewrite !(C " time="%string _), !(C " host="%string _), !(C " name="%string _), !(C " index="%string _), !(C " arguments=["%string _) in E.
  apply cut_comma in E as [-> E]; [|assumption..]. apply app_inv_head in E.
  apply cut_comma in E as [T E]; [|apply number_no_comma..]. apply format_int_inj in T; [|assumption..]. subst t2. apply app_inv_head in E.
  apply cut_comma in E as [-> E]; [|assumption..]. apply app_inv_head in E. apply cut_comma in E as [-> E]; [|assumption..]. apply app_inv_head in E.
  apply cut_comma in E as [T E]; [|apply number_no_comma..]. apply format_int_inj in T; [|assumption..]. subst x2. apply app_inv_head in E.
  assert (D : forall x, bs "], raw_request=" ++ x = "]"%char :: bs ", raw_request=" ++ x) by reflexivity. rewrite !D in E.
  apply quote_join_whole in E as [-> E]. apply app_inv_head in E. apply quote_whole in E as [-> _]. reflexivity.
Qed.
Lemma join_visible sep l : Forall visible sep -> Forall (Forall visible) l -> Forall visible (join sep l).
Proof.
  intros S. induction 1 as [|x l X F IH]; [constructor|]. destruct l as [|y l]; [exact X|].
  change (Forall visible (x ++ sep ++ join sep (y :: l))). apply Forall_app; split; [exact X|]. apply Forall_app; split; [exact S|exact IH].
Qed.
Theorem format_log_visible p v : (forall z, 0 <= z < 32 -> is_print p z = false) ->
  Forall visible (v_id v) -> Forall visible (v_host v) -> Forall visible (v_name v) -> Forall visible (format_log p v).
Proof.
  intros C I H N. unfold format_log, quote_join. rewrite !Forall_app. repeat split; auto using number_visible, quote_visible; try vis.
  apply join_visible; [vis|]. apply Forall_map. apply List.Forall_forall. intros x _. now apply quote_visible.
Qed.

(* ---- the records of the server ---- *)
Lemma spells_tame s w : spells s w -> Forall (fun c => 65 <= byteZ c) s.
Proof. induction 1; repeat constructor; auto; lia. Qed.
Lemma log_of_name t q v : log_of t q = Some v -> Forall (fun c => 65 <= byteZ c) (v_name v) /\ v_id v = t_id t /\ v_host v = t_host t /\ v_time v = t_time t /\ v_index v = 1.
Proof.
  unfold log_of. destruct q as [ | | | | |l| ]; try discriminate. destruct l as [|o args]; [discriminate|]. destruct (str_arg o) as [name|]; [|discriminate].
  pose proof (new_command_spec name args) as S. destruct (new_command name args) as [c|]; [|discriminate]. destruct (is_modify c); [|discriminate].
  intros E. injection E as <-. destruct S as (w & S & _). unfold new_log. cbn [v_name v_id v_host v_time v_index]. split; [eapply spells_tame; eassumption|]. repeat (split; [reflexivity|]). vm_compute. reflexivity.
Qed.
Lemma log_of_tame t q v : log_of t q = Some v -> no_comma (t_id t) -> no_comma (t_host t) -> int64_ok (t_time t) -> tame v.
Proof.
  intros L I H T. destruct (log_of_name _ _ _ L) as (N & E1 & E2 & E3 & E4). unfold tame. rewrite E1, E2, E3, E4. split; [exact I|]. split; [exact H|]. split; [|split; [exact T|vm_compute; split; [discriminate|reflexivity]]].
  eapply Forall_impl; [|exact N]. intros c L1 ->. vm_compute in L1. apply L1. reflexivity.
Qed.
Theorem log_of_apart p t q v t' q' v' : log_of t q = Some v -> log_of t' q' = Some v' ->
  no_comma (t_id t) -> no_comma (t_host t) -> int64_ok (t_time t) -> no_comma (t_id t') -> no_comma (t_host t') -> int64_ok (t_time t') ->
  format_log p v = format_log p v' -> v = v'.
Proof. intros. eapply format_log_inj; eauto using log_of_tame. Qed.
Theorem log_of_line p t q v : (forall z, 0 <= z < 32 -> is_print p z = false) -> log_of t q = Some v ->
  Forall visible (t_id t) -> Forall visible (t_host t) -> Forall visible (format_log p v).
Proof.
  intros C L I H. destruct (log_of_name _ _ _ L) as (N & E1 & E2 & E3 & E4). apply format_log_visible; rewrite ?E1, ?E2; auto.
  eapply Forall_impl; [|exact N]. unfold visible. cbn. lia.
Qed.
