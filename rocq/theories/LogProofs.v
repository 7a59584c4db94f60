From Verif Require Import Base BaseFacts UtilIndex Resp Utf8 Utf8Spec Utf8Proofs Log LogSpec.
From Coq Require Import ZArith List Ascii Bool Lia.
From Coq Require Import ZifyBool.
Import ListNotations.
Open Scope Z_scope.

(* ---- varints ---- *)
Lemma get_put n : forall v rest, 0 <= v < 2 ^ (7 * Z.of_nat n + 1) -> get_varint (S n) (put_varint (S n) v ++ rest) = Some (v, rest).
Proof.
  induction n as [|n IH]; intros v rest Hv.
  - change (2 ^ (7 * Z.of_nat 0 + 1)) with 2 in Hv. cbn [put_varint]. rewrite (proj2 (Z.ltb_lt v 128)) by lia. cbn [app get_varint].
    rewrite byteZ_byteOf by lia. rewrite (proj2 (Z.ltb_lt v 128)) by lia. now rewrite (proj2 (Z.ltb_lt v 2)) by lia.
  - change (put_varint (S (S n)) v) with (if v <? 128 then [byteOf v] else byteOf (v mod 128 + 128) :: put_varint (S n) (v / 128)).
    destruct (v <? 128) eqn:E.
    + cbn [app]. change (get_varint (S (S n)) (byteOf v :: rest)) with
        (if byteZ (byteOf v) <? 128 then Some (byteZ (byteOf v), rest) else
         match get_varint (S n) rest with Some (v0, r) => Some (byteZ (byteOf v) - 128 + 128 * v0, r) | None => None end).
      rewrite byteZ_byteOf by lia. now rewrite E.
    + pose proof (Z.mod_pos_bound v 128 ltac:(lia)) as M. pose proof (Z.div_mod v 128 ltac:(lia)) as D.
      cbn [app]. set (c := byteOf (v mod 128 + 128)). set (t := put_varint (S n) (v / 128) ++ rest).
      change (get_varint (S (S n)) (c :: t)) with
        (if byteZ c <? 128 then Some (byteZ c, t) else
         match get_varint (S n) t with Some (v0, r) => Some (byteZ c - 128 + 128 * v0, r) | None => None end).
      unfold c. rewrite byteZ_byteOf by lia. rewrite (proj2 (Z.ltb_ge _ _)) by lia. unfold t. rewrite IH.
      * f_equal. f_equal. lia.
      * split; [apply Z.div_pos; lia|]. apply Z.div_lt_upper_bound; [lia|].
        replace (7 * Z.of_nat (S n) + 1) with (7 + (7 * Z.of_nat n + 1)) in Hv by lia. rewrite Z.pow_add_r in Hv by lia.
        change (2 ^ 7) with 128 in Hv. lia.
Qed.
Lemma consume_put v rest : 0 <= v < 2 ^ 64 -> consume_varint (varint v ++ rest) = Some (v, rest).
Proof. intros H. apply (get_put 9). exact H. Qed.
Lemma put_varint_nonempty n v : put_varint (S n) v <> [].
Proof. cbn [put_varint]. destruct (v <? 128); discriminate. Qed.

Lemma consume_bytes_put s rest : blen s < 2 ^ 64 -> consume_bytes (varint (blen s) ++ s ++ rest) = Some (s, rest).
Proof.
  intros H. pose proof (blen_nonneg s). unfold consume_bytes. rewrite consume_put by lia. rewrite blen_app. pose proof (blen_nonneg rest).
  rewrite (proj2 (Z.ltb_ge _ _)) by lia. unfold blen. rewrite Nat2Z.id. rewrite firstn_app, Nat.sub_diag, firstn_all, firstn_O, app_nil_r.
  rewrite skipn_app, skipn_all, Nat.sub_diag. reflexivity.
Qed.

(* ---- consumption ---- *)
Lemma get_varint_len n : forall b v r, get_varint n b = Some (v, r) -> (length r < length b)%nat.
Proof.
  induction n as [|n IH]; intros b v r H; [discriminate|]. destruct b as [|c b]; [discriminate|]. cbn [get_varint] in H. cbn [length].
  destruct (byteZ c <? 128).
  - destruct n; [destruct (byteZ c <? 2)|]; try discriminate; injection H as <- <-; lia.
  - destruct (get_varint n b) as [[v' r']|] eqn:E; [|discriminate]. injection H as <- <-. apply IH in E. lia.
Qed.
Lemma consume_varint_len b v r : consume_varint b = Some (v, r) -> (length r < length b)%nat.
Proof. apply get_varint_len. Qed.
Lemma consume_bytes_len b s r : consume_bytes b = Some (s, r) -> (length r < length b)%nat.
Proof.
  unfold consume_bytes. destruct (consume_varint b) as [[n t]|] eqn:E; [|discriminate]. apply consume_varint_len in E.
  destruct (_ <? _); [discriminate|]. intros [= <- <-]. rewrite skipn_length. lia.
Qed.
Lemma consume_fixed_len n b r : consume_fixed n b = Some r -> (length r <= length b)%nat.
Proof. unfold consume_fixed. destruct (_ <? _)%nat; [discriminate|]. intros [= <-]. rewrite skipn_length. lia. Qed.
Lemma inner_tag_len b x y r : inner_tag b = Some (x, y, r) -> (length r < length b)%nat.
Proof.
  unfold inner_tag. destruct (consume_varint b) as [[n t]|] eqn:E; [|discriminate]. apply consume_varint_len in E.
  destruct (_ || _); [discriminate|]. intros [= <- <- <-]. exact E.
Qed.
Lemma top_tag_len b x y r : top_tag b = Some (x, y, r) -> (length r < length b)%nat.
Proof.
  unfold top_tag. destruct (consume_varint b) as [[n t]|] eqn:E; [|discriminate]. apply consume_varint_len in E.
  destruct (_ || _); [discriminate|]. intros [= <- <- <-]. exact E.
Qed.
Lemma skip_len f :
  (forall num typ b r, skip_field f num typ b = Some r -> (length r <= length b)%nat) /\
  (forall num b r, skip_group f num b = Some r -> (length r < length b)%nat).
Proof.
  induction f as [|f [IH1 IH2]]; [split; discriminate|]. split.
  - intros num typ b r H. cbn [skip_field] in H.
    destruct (typ =? 0). { destruct (consume_varint b) as [[]|] eqn:E; [|discriminate]. injection H as <-. apply consume_varint_len in E. lia. }
    destruct (typ =? 1). { now apply consume_fixed_len in H. }
    destruct (typ =? 2). { destruct (consume_bytes b) as [[]|] eqn:E; [|discriminate]. injection H as <-. apply consume_bytes_len in E. lia. }
    destruct (typ =? 3). { apply IH2 in H. lia. }
    destruct (typ =? 5). { now apply consume_fixed_len in H. } discriminate.
  - intros num b r H. cbn [skip_group] in H. destruct (inner_tag b) as [[[num2 typ2] r1]|] eqn:E; [|discriminate]. apply inner_tag_len in E.
    destruct (typ2 =? 4). { destruct (num2 =? num); [|discriminate]. injection H as <-. lia. }
    destruct (skip_field f num2 typ2 r1) as [r2|] eqn:E2; [|discriminate]. apply IH1 in E2. apply IH2 in H. lia.
Qed.
(* the fuel of [skip_unknown] is enough: more does not change the result *)
Lemma skip_fuel f : forall k,
  (forall num typ b, (2 * length b + 1 < f)%nat -> skip_field (f + k) num typ b = skip_field f num typ b) /\
  (forall num b, (2 * length b < f)%nat -> skip_group (f + k) num b = skip_group f num b).
Proof.
  induction f as [|f IH]; intros k; [split; intros; lia|]. destruct (IH k) as [IH1 IH2]. split.
  - intros num typ b Hf. cbn [plus skip_field]. rewrite IH2 by lia. reflexivity.
  - intros num b Hf. cbn [plus skip_group]. destruct (inner_tag b) as [[[num2 typ2] r1]|] eqn:E; [|reflexivity]. apply inner_tag_len in E.
    destruct (typ2 =? 4); [reflexivity|]. rewrite IH1 by lia. destruct (skip_field f num2 typ2 r1) as [r2|] eqn:E2; [|reflexivity].
    apply skip_len in E2. apply IH2. lia.
Qed.
Lemma skip_enough num typ b k : skip_field (2 * length b + 2 + k) num typ b = skip_unknown num typ b.
Proof. apply skip_fuel. lia. Qed.

Lemma unmarshal_field_len v b v' r : unmarshal_field v b = Some (v', r) -> (length r < length b)%nat.
Proof.
  unfold unmarshal_field. destruct (top_tag b) as [[[num typ] r0]|] eqn:E; [|discriminate]. apply top_tag_len in E.
  destruct (typ =? 4); [discriminate|]. destruct (_ && _).
  { destruct (consume_bytes r0) as [[s r']|] eqn:E1; [|discriminate]. apply consume_bytes_len in E1. destruct (valid_utf8 s); [|discriminate].
    intros [= <- <-]. lia. }
  destruct (_ && _).
  { destruct (consume_varint r0) as [[s r']|] eqn:E1; [|discriminate]. apply consume_varint_len in E1. intros [= <- <-]. lia. }
  destruct (skip_unknown num typ r0) as [r'|] eqn:E1; [|discriminate]. apply skip_len in E1. intros [= <- <-]. lia.
Qed.
Lemma loop_fuel f : forall v b, (length b <= f)%nat -> unmarshal_loop f v b = unmarshal_loop (length b) v b.
Proof.
  induction f as [f IH] using lt_wf_ind. intros v b Hf. destruct b as [|c b]; [destruct f; reflexivity|].
  destruct f as [|f]; [cbn in Hf; lia|]. cbn [length]. cbn [unmarshal_loop].
  destruct (unmarshal_field v (c :: b)) as [[v' r]|] eqn:E; [|reflexivity]. apply unmarshal_field_len in E. cbn [length] in E, Hf.
  rewrite (IH f) by lia. destruct (Nat.eq_dec (length b) f) as [<-|]; [symmetry; apply IH; lia|]. symmetry. apply IH; lia.
Qed.
Definition fields (v : vlog) (b : bytes) : option vlog := unmarshal_loop (length b) v b.
Lemma fields_step v b v' r : unmarshal_field v b = Some (v', r) -> fields v b = fields v' r.
Proof.
  intros H. pose proof (unmarshal_field_len _ _ _ _ H) as L. unfold fields. destruct b as [|c b]; [cbn in L; lia|].
  cbn [length unmarshal_loop]. rewrite H. apply loop_fuel. cbn [length] in L. lia.
Qed.

(* ---- one field at a time ---- *)
Lemma top_tag_put num typ r : 1 <= num < 2 ^ 29 -> 0 <= typ < 8 -> top_tag (put_tag num typ ++ r) = Some (num, typ, r).
Proof.
  intros Hn Ht. unfold top_tag, put_tag. rewrite consume_put by lia.
  replace (num * 8 + typ) with (typ + num * 8) by lia. rewrite Z.div_add, Z.mod_add, Z.div_small, Z.mod_small by lia.
  rewrite Z.add_0_l. rewrite (proj2 (orb_false_iff _ _)); [reflexivity|]. lia.
Qed.
Lemma string_field v num s r : In num [1; 3; 4; 6; 255] -> utf8 s -> blen s < 2 ^ 64 ->
  fields v (put_string num s ++ r) = fields (set_string v num s) r.
Proof.
  intros Hn Hu Hs. apply fields_step. unfold unmarshal_field, put_string. rewrite <- !app_assoc.
  assert (R : 1 <= num < 2 ^ 29 /\ is_string_field num = true) by (cbn [In] in Hn; decompose [or] Hn; subst; try contradiction; split; reflexivity || lia).
  destruct R as [R1 R2]. rewrite top_tag_put by lia. rewrite R2. cbn [Z.eqb andb Pos.eqb]. change (2 =? 4) with false. change (2 =? 2) with true. cbn [andb].
  rewrite consume_bytes_put by lia. apply valid_utf8_spec in Hu. now rewrite Hu.
Qed.
Lemma int_field v num z r : In num [2; 5] ->
  fields v (put_tag num 0 ++ varint (u64 z) ++ r) = fields (set_int v num (u64 z)) r.
Proof.
  intros Hn. apply fields_step. unfold unmarshal_field.
  assert (R : 1 <= num < 2 ^ 29 /\ is_string_field num = false /\ is_int_field num = true)
    by (cbn [In] in Hn; decompose [or] Hn; subst; try contradiction; repeat split; reflexivity || lia).
  destruct R as (R1 & R2 & R3). rewrite top_tag_put by lia. rewrite R2, R3. change (0 =? 4) with false. change (0 =? 0) with true. cbn [andb].
  rewrite consume_put by (unfold u64; apply Z.mod_pos_bound; lia). reflexivity.
Qed.
Lemma string_nz v num s r : In num [1; 3; 4; 6; 255] -> utf8 s -> blen s < 2 ^ 64 ->
  (s = [] -> set_string v num s = v) -> fields v (put_string_nz num s ++ r) = fields (set_string v num s) r.
Proof. intros Hn Hu Hs Hz. destruct s as [|c s]; [now rewrite Hz|]. now apply string_field. Qed.
Lemma int_nz v num z r : In num [2; 5] -> (z = 0 -> set_int v num (u64 z) = v) ->
  fields v (put_int_nz num z ++ r) = fields (set_int v num (u64 z)) r.
Proof.
  intros Hn Hz. unfold put_int_nz. destruct (z =? 0) eqn:E; [rewrite Hz by lia; reflexivity|]. rewrite <- app_assoc. now apply int_field.
Qed.
Lemma args_fields l : forall v r, Forall utf8 l -> Forall (fun s => blen s < 2 ^ 64) l ->
  fields v (concat (map (put_string 6) l) ++ r) =
  fields (mkVlog (v_id v) (v_time v) (v_host v) (v_name v) (v_index v) (v_args v ++ l) (v_raw v)) r.
Proof.
  induction l as [|s l IH]; intros v r Hu Hs.
  - cbn [map concat app]. rewrite app_nil_r. now destruct v.
  - inversion Hu; inversion Hs; subst. cbn [map concat]. rewrite <- app_assoc. rewrite string_field by (auto; cbn; auto).
    rewrite IH by auto. change (set_string v 6 s) with (mkVlog (v_id v) (v_time v) (v_host v) (v_name v) (v_index v) (v_args v ++ [s]) (v_raw v)).
    cbn [v_id v_time v_host v_name v_index v_args v_raw]. rewrite <- app_assoc. reflexivity.
Qed.
Lemma wrap64_u64 z : int64_ok z -> wrap64 (u64 z) = z.
Proof.
  intros H. unfold wrap64, u64. unfold int64_ok in H. change (2 ^ 64) with 18446744073709551616 in *. change (2 ^ 63) with 9223372036854775808 in *.
  pose proof (Z.mod_pos_bound z 18446744073709551616 ltac:(lia)). pose proof (Z.div_mod z 18446744073709551616 ltac:(lia)).
  rewrite Zplus_mod_idemp_l. rewrite Z.mod_small by lia. lia.
Qed.
Lemma wrap32_id z : - 2 ^ 31 <= z < 2 ^ 31 -> wrap32 z = z.
Proof. intros H. unfold wrap32. rewrite Z.mod_small by lia. lia. Qed.
Lemma wrap32_u64 z : - 2 ^ 31 <= z < 2 ^ 31 -> wrap32 (u64 z) = z.
Proof.
  intros H. rewrite <- (wrap32_id z H) at 2. unfold wrap32, u64. f_equal.
  rewrite <- Zplus_mod_idemp_l. rewrite <- (Zplus_mod_idemp_l z). f_equal. f_equal.
  symmetry. apply Znumtheory.Zmod_div_mod; [lia|lia|]. exists (2 ^ 32). reflexivity.
Qed.

Lemma marshal_Some v : record_utf8 v <-> exists m, marshal v = Some m.
Proof.
  unfold marshal, record_utf8, record_texts. split.
  - intros H. inversion H as [|? ? H1 Ha]; subst. inversion Ha as [|? ? H2 Hb]; subst. inversion Hb as [|? ? H3 Hc]; subst.
    inversion Hc as [|? ? H4 Hd]; subst. apply valid_utf8_spec in H1, H2, H3, H4. rewrite H1, H2, H3, H4.
    assert (E : forallb valid_utf8 (v_args v) = true) by (apply forallb_forall; intros s Hs; apply valid_utf8_spec; rewrite Forall_forall in Hd; auto).
    rewrite E. cbn [andb]. eauto.
  - intros [m H]. destruct (_ && _) eqn:E; [|discriminate]. rewrite !andb_true_iff in E. destruct E as ((((E1 & E2) & E3) & E4) & E5).
    apply valid_utf8_spec in E1, E2, E3, E5. repeat constructor; auto. apply Forall_forall. intros s Hs. apply valid_utf8_spec.
    rewrite forallb_forall in E4. auto.
Qed.
Lemma set_all (e : vlog) (a h n r : bytes) (t i : Z) (l : list bytes) :
  let v5 := set_int (set_string (set_string (set_int (set_string e 1 a) 2 t) 3 h) 4 n) 5 i in
  set_string (mkVlog (v_id v5) (v_time v5) (v_host v5) (v_name v5) (v_index v5) (v_args v5 ++ l) (v_raw v5)) 255 r =
  mkVlog a (wrap64 t) h n (wrap32 i) (v_args e ++ l) r.
Proof. reflexivity. Qed.
Definition texts_fit (v : vlog) : Prop := Forall (fun s => blen s < 2 ^ 64) (record_texts v).
Lemma unmarshal_marshal v m : record_utf8 v -> int64_ok (v_time v) -> - 2 ^ 31 <= v_index v < 2 ^ 31 -> texts_fit v ->
  marshal v = Some m -> unmarshal m = Some v.
Proof.
  intros Hu Ht Hi Hf H. unfold marshal in H. destruct (_ && _); [|discriminate]. injection H as <-.
  inversion Hu as [|? ? U1 Ha]; subst. inversion Ha as [|? ? U2 Hb]; subst. inversion Hb as [|? ? U3 Hc]; subst.
  inversion Hc as [|? ? U4 U5]; subst.
  inversion Hf as [|? ? F1 Fa]; subst. inversion Fa as [|? ? F2 Fb]; subst. inversion Fb as [|? ? F3 Fc]; subst.
  inversion Fc as [|? ? F4 F5]; subst.
  change (unmarshal ?b) with (fields empty_vlog b).
  rewrite string_nz; [|cbn; auto 10|assumption|assumption|intros ->; reflexivity].
  rewrite int_nz; [|cbn; auto 10|intros ->; reflexivity].
  rewrite string_nz; [|cbn; auto 10|assumption|assumption|intros ->; reflexivity].
  rewrite string_nz; [|cbn; auto 10|assumption|assumption|intros ->; reflexivity].
  rewrite int_nz; [|cbn; auto 10|intros ->; reflexivity].
  rewrite args_fields by auto.
  rewrite <- (app_nil_r (put_string_nz 255 (v_raw v))).
  rewrite string_nz; [|cbn; auto 10|assumption|assumption|intros ->; reflexivity].
  rewrite set_all, wrap64_u64, wrap32_u64 by auto. now destruct v.
Qed.

(* ---- length prefix ---- *)
Lemma le32_length n : length (le32 n) = 4%nat.
Proof. reflexivity. Qed.
Lemma le32_value_le32 n : le32_value (le32 n) = n mod 2 ^ 32.
Proof.
  unfold le32_value, le32.
  pose proof (Z.mod_pos_bound n 256 ltac:(lia)). pose proof (Z.mod_pos_bound (n / 256) 256 ltac:(lia)).
  pose proof (Z.mod_pos_bound (n / 65536) 256 ltac:(lia)). pose proof (Z.mod_pos_bound (n / 16777216) 256 ltac:(lia)).
  rewrite !byteZ_byteOf by lia. change (2 ^ 32) with 4294967296.
  assert (E1 : n / 65536 = n / 256 / 256) by (rewrite Z.div_div by lia; reflexivity).
  assert (E2 : n / 16777216 = n / 256 / 256 / 256) by (rewrite !Z.div_div by lia; reflexivity).
  assert (E3 : n / 4294967296 = n / 256 / 256 / 256 / 256) by (rewrite !Z.div_div by lia; reflexivity).
  rewrite E1, E2 in *. pose proof (Z.div_mod n 256 ltac:(lia)). pose proof (Z.div_mod (n / 256) 256 ltac:(lia)).
  pose proof (Z.div_mod (n / 256 / 256) 256 ltac:(lia)). pose proof (Z.div_mod (n / 256 / 256 / 256) 256 ltac:(lia)).
  pose proof (Z.div_mod n 4294967296 ltac:(lia)). lia.
Qed.
Lemma read_exact_app n a b : blen a = n -> read_exact n (a ++ b) = Some (a, b).
Proof.
  intros <-. unfold read_exact. destruct (blen a <=? 0) eqn:E.
  - destruct a; [reflexivity|]. unfold blen in E. cbn [length] in E. lia.
  - rewrite blen_app. pose proof (blen_nonneg b). rewrite (proj2 (Z.ltb_ge _ _)) by lia. unfold blen. rewrite Nat2Z.id.
    rewrite firstn_app, Nat.sub_diag, firstn_all, firstn_O, app_nil_r, skipn_app, skipn_all, Nat.sub_diag. reflexivity.
Qed.
Lemma read_exact_len n s a b : read_exact n s = Some (a, b) -> (length b <= length s)%nat /\ (0 < n -> (length b < length s)%nat) /\ s = a ++ b.
Proof.
  unfold read_exact. destruct (n <=? 0) eqn:E; [intros [= <- <-]; repeat split; auto; lia|]. destruct (blen s <? n) eqn:E2; [discriminate|].
  intros [= <- <-]. rewrite skipn_length. unfold blen in E2. repeat split; try lia. symmetry. apply firstn_skipn.
Qed.
Lemma read_exact_short n s : blen s < n -> read_exact n s = None.
Proof. intros H. pose proof (blen_nonneg s). unfold read_exact. rewrite (proj2 (Z.leb_gt _ _)) by lia. now rewrite (proj2 (Z.ltb_lt _ _)) by lia. Qed.

Lemma read_log_len s : match read_log s with LLog _ r | LInvalid r => (length r < length s)%nat | _ => True end.
Proof.
  unfold read_log. destruct (read_exact 4 s) as [[h s1]|] eqn:E; [|exact I]. apply read_exact_len in E as (_ & E & _).
  destruct (read_exact (le32_value h) s1) as [[m s2]|] eqn:E2; [|exact I]. apply read_exact_len in E2 as (E2 & _ & _).
  destruct (unmarshal m); lia.
Qed.
Lemma parse_fuel f : forall s, (length s < f)%nat -> parse_loop f s = parse_log s.
Proof.
  induction f as [f IH] using lt_wf_ind. intros s Hf. destruct f as [|f]; [lia|]. unfold parse_log. cbn [parse_loop].
  pose proof (read_log_len s) as L. destruct (read_log s) as [v r| | |r]; try reflexivity;
    (rewrite (IH f) by lia; destruct (Nat.eq_dec (length s) f) as [->|]; [rewrite (IH f) by lia; reflexivity|rewrite (IH (length s)) by lia; reflexivity]).
Qed.
Lemma parse_log_step s : parse_log s =
  match read_log s with
  | LLog v r => (v :: fst (parse_log r), snd (parse_log r))
  | LInvalid r => parse_log r
  | LEof => ([], false)
  | LUnexpected => ([], true)
  end.
Proof.
  unfold parse_log at 1. cbn [parse_loop]. pose proof (read_log_len s) as L. destruct (read_log s) as [v r| | |r]; try reflexivity;
    rewrite (parse_fuel (length s)) by lia; [|reflexivity]. now destruct (parse_log r).
Qed.

Lemma texts_fit_size v : texts_size (record_texts v) < 2 ^ 64 -> texts_fit v.
Proof.
  unfold texts_fit. generalize (record_texts v). induction l as [|s l IH]; intros H; constructor; cbn [texts_size] in H.
  - assert (0 <= texts_size l) by (clear; induction l as [|a l IHl]; cbn [texts_size]; [lia|]; pose proof (blen_nonneg a); lia). lia.
  - apply IH. pose proof (blen_nonneg s). lia.
Qed.

Lemma pack_inv v b : pack_log v = Some b -> exists m, marshal v = Some m /\ m <> [] /\ b = le32 (blen m) ++ m.
Proof. unfold pack_log. destruct (marshal v) as [[|c m]|]; try discriminate. intros [= <-]. exists (c :: m). repeat split; auto. discriminate. Qed.
Lemma concat_blen (l : list bytes) s : In s l -> blen s <= blen (concat l).
Proof.
  induction l as [|a l IH]; [contradiction|]. cbn [In concat]. rewrite blen_app. intros [->|H]; [pose proof (blen_nonneg (concat l)); lia|].
  pose proof (blen_nonneg a). specialize (IH H). lia.
Qed.
Lemma put_string_blen num s : blen s <= blen (put_string num s).
Proof. unfold put_string. rewrite !blen_app. pose proof (blen_nonneg (put_tag num 2)). pose proof (blen_nonneg (varint (blen s))). lia. Qed.
Lemma put_string_nz_blen num s : blen s <= blen (put_string_nz num s).
Proof. destruct s; [cbn; lia|]. apply put_string_blen. Qed.
Lemma marshal_fits v m : marshal v = Some m -> blen m < 2 ^ 64 -> texts_fit v.
Proof.
  unfold marshal. destruct (_ && _); [|discriminate]. intros [= <-]. rewrite !blen_app. intros H.
  pose proof (put_string_nz_blen 1 (v_id v)). pose proof (put_string_nz_blen 3 (v_host v)). pose proof (put_string_nz_blen 4 (v_name v)).
  pose proof (put_string_nz_blen 255 (v_raw v)). pose proof (blen_nonneg (v_id v)). pose proof (blen_nonneg (v_host v)).
  pose proof (blen_nonneg (v_name v)). pose proof (blen_nonneg (v_raw v)). pose proof (blen_nonneg (put_int_nz 2 (v_time v))).
  pose proof (blen_nonneg (put_int_nz 5 (v_index v))). pose proof (blen_nonneg (concat (map (put_string 6) (v_args v)))).
  repeat constructor; try lia. apply Forall_forall. intros s Hs.
  pose proof (concat_blen (map (put_string 6) (v_args v)) (put_string 6 s) (in_map _ _ _ Hs)). pose proof (put_string_blen 6 s). lia.
Qed.
Lemma tag_nonempty num typ r : put_tag num typ ++ r <> [].
Proof. intros H. apply app_eq_nil in H as [H _]. exact (put_varint_nonempty _ _ H). Qed.
Lemma marshal_empty v : marshal v = Some [] <-> v = empty_vlog.
Proof.
  split; [|intros ->; reflexivity]. unfold marshal. destruct (_ && _); [|discriminate]. intros [= H].
  apply app_eq_nil in H as [H1 H]. apply app_eq_nil in H as [H2 H]. apply app_eq_nil in H as [H3 H]. apply app_eq_nil in H as [H4 H].
  apply app_eq_nil in H as [H5 H]. apply app_eq_nil in H as [H6 H7].
  assert (S : forall num s, put_string_nz num s = [] -> s = []) by (intros num [|]; auto; intros E; destruct (tag_nonempty _ _ _ E)).
  assert (N : forall num z, put_int_nz num z = [] -> z = 0).
  { intros num z. unfold put_int_nz. destruct (z =? 0) eqn:E; [lia|]. intros E'. destruct (tag_nonempty _ _ _ E'). }
  apply S in H1, H3, H4, H7. apply N in H2, H5.
  assert (H6' : v_args v = []) by (destruct (v_args v); auto; cbn [map concat] in H6; apply app_eq_nil in H6 as [H6 _]; destruct (tag_nonempty _ _ _ H6)).
  destruct v; cbn in *; subst; reflexivity.
Qed.
Theorem pack_iff v : (exists b, pack_log v = Some b) <-> record_utf8 v /\ v <> empty_vlog.
Proof.
  split.
  - intros [b H]. apply pack_inv in H as (m & H1 & H2 & _). split; [apply marshal_Some; eauto|]. intros E. apply marshal_empty in E. congruence.
  - intros [H1 H2]. apply marshal_Some in H1 as [m H]. unfold pack_log. rewrite H. destruct m; [apply marshal_empty in H; congruence|eauto].
Qed.
Lemma blen_le32 n : blen (le32 n) = 4.
Proof. reflexivity. Qed.
Theorem read_packed v b rest : record_ok v -> pack_log v = Some b -> blen b < 2 ^ 32 + 4 -> read_log (b ++ rest) = LLog v rest.
Proof.
  intros (Hu & Ht & Hi & He) H Hb. apply pack_inv in H as (m & Hm & Hne & ->). rewrite blen_app, blen_le32 in Hb. pose proof (blen_nonneg m).
  unfold read_log. rewrite <- app_assoc. rewrite read_exact_app by reflexivity. rewrite le32_value_le32, Z.mod_small by lia.
  rewrite read_exact_app by reflexivity. rewrite (unmarshal_marshal v m); auto. eapply marshal_fits; eauto. lia.
Qed.
(* a packed record cut short yields nothing *)
Theorem read_torn v b p q : pack_log v = Some b -> blen b < 2 ^ 32 + 4 -> b = p ++ q -> q <> [] ->
  read_log p = if blen p <? 4 then LEof else LUnexpected.
Proof.
  intros H Hb Hpq Hq. apply pack_inv in H as (m & Hm & Hne & ->). rewrite blen_app, blen_le32 in Hb. pose proof (blen_nonneg m).
  destruct (blen p <? 4) eqn:E. { unfold read_log. now rewrite read_exact_short by lia. }
  assert (exists p', p = le32 (blen m) ++ p' /\ m = p' ++ q) as (p' & -> & Hm').
  { exists (skipn 4 p). assert (L : (4 <= length p)%nat) by (unfold blen in E; lia).
    assert (P : le32 (blen m) = firstn 4 p).
    { apply (f_equal (firstn 4)) in Hpq. rewrite firstn_app in Hpq. rewrite (firstn_all2 (le32 _)) in Hpq by (rewrite le32_length; lia).
      rewrite le32_length, Nat.sub_diag, firstn_O, app_nil_r in Hpq. rewrite firstn_app in Hpq.
      replace (4 - length p)%nat with 0%nat in Hpq by lia. now rewrite firstn_O, app_nil_r in Hpq. }
    split; [rewrite P; symmetry; apply firstn_skipn|]. apply (f_equal (skipn 4)) in Hpq. rewrite !skipn_app in Hpq.
    rewrite (skipn_all2 (le32 _)) in Hpq by (rewrite le32_length; lia). rewrite le32_length in Hpq.
    replace (4 - length p)%nat with 0%nat in Hpq by lia. exact Hpq. }
  unfold read_log. rewrite read_exact_app by reflexivity. rewrite le32_value_le32, Z.mod_small by lia.
  rewrite read_exact_short; auto. rewrite Hm', blen_app. unfold blen. destruct q; [congruence|]. cbn [length]. lia.
Qed.

(* ---- sequences of records ---- *)
Lemma parse_packed vs bss : Forall2 packed vs bss -> forall rest,
  parse_log (concat bss ++ rest) = (vs ++ fst (parse_log rest), snd (parse_log rest)).
Proof.
  induction 1 as [|v b vs bss (H1 & H2 & H3) H IH]; intros rest; [cbn [concat app]; now destruct (parse_log rest)|].
  cbn [concat]. rewrite <- app_assoc. rewrite parse_log_step, (read_packed v b) by auto. rewrite IH. reflexivity.
Qed.
Theorem parse_concat vs bss : Forall2 packed vs bss -> parse_log (concat bss) = (vs, false).
Proof. intros H. pose proof (parse_packed _ _ H []) as P. rewrite app_nil_r in P. rewrite P. change (parse_log []) with (@nil vlog, false). cbn [fst snd]. now rewrite app_nil_r. Qed.

Lemma prefix_concat (bss : list bytes) : forall p q, concat bss = p ++ q -> Forall (fun b => b <> []) bss ->
  exists n t, p = concat (firstn n bss) ++ t /\ (n <= length bss)%nat /\
    (t = [] \/ exists u, u <> [] /\ nth_error bss n = Some (t ++ u)).
Proof.
  induction bss as [|b bss IH]; intros p q H Hne.
  - cbn in H. symmetry in H. apply app_eq_nil in H as [-> ->]. exists 0%nat, []. repeat split; auto.
  - inversion Hne; subst. cbn [concat] in H.
    destruct (Nat.le_gt_cases (length b) (length p)) as [L|L].
    + assert (exists p', p = b ++ p' /\ concat bss = p' ++ q) as (p' & -> & H').
      { exists (skipn (length b) p). assert (E : b = firstn (length b) p).
        { apply (f_equal (firstn (length b))) in H. rewrite !firstn_app, firstn_all, Nat.sub_diag, firstn_O, app_nil_r in H.
          replace (length b - length p)%nat with 0%nat in H by lia. now rewrite firstn_O, app_nil_r in H. }
        split; [rewrite E at 1; symmetry; apply firstn_skipn|]. apply (f_equal (skipn (length b))) in H. rewrite !skipn_app in H.
        rewrite skipn_all, Nat.sub_diag in H. replace (length b - length p)%nat with 0%nat in H by lia. exact H. }
      destruct (IH p' q H' ltac:(auto)) as (n & t & -> & Hn & Ht). exists (S n), t. cbn [firstn concat length nth_error]. rewrite app_assoc.
      repeat split; auto; lia.
    + exists 0%nat, p. cbn [firstn concat app length]. repeat split; [lia|]. right. exists (skipn (length p) b).
      assert (E : p = firstn (length p) b).
      { apply (f_equal (firstn (length p))) in H. rewrite !firstn_app, firstn_all, Nat.sub_diag, firstn_O, app_nil_r in H.
        replace (length p - length b)%nat with 0%nat in H by lia. now rewrite firstn_O, app_nil_r in H. }
      split; [intros E'; apply (f_equal (@length _)) in E'; rewrite skipn_length in E'; cbn in E'; lia|].
      cbn [nth_error]. f_equal. rewrite E at 1. symmetry. apply firstn_skipn.
Qed.
Lemma packed_nonempty v b : packed v b -> b <> [].
Proof. intros (_ & H & _) ->. apply pack_inv in H as (m & _ & _ & H). discriminate. Qed.
Lemma Forall2_firstn {A B} (P : A -> B -> Prop) l l' : Forall2 P l l' -> forall n, Forall2 P (firstn n l) (firstn n l').
Proof. induction 1; intros [|n]; cbn; constructor; auto. Qed.
Lemma Forall2_nth {A B} (P : A -> B -> Prop) l l' : Forall2 P l l' -> forall n y, nth_error l' n = Some y -> exists x, nth_error l n = Some x /\ P x y.
Proof. induction 1; intros [|n] z; cbn; try discriminate; eauto. intros [= <-]. eauto. Qed.

(* any prefix of a log reads as a prefix of its records; the length of the prefix is
   the number of records that are complete in it *)
Theorem parse_prefix vs bss p q : Forall2 packed vs bss -> concat bss = p ++ q ->
  exists n e, parse_log p = (firstn n vs, e) /\
    (forall k, (k <= length vs)%nat -> (exists x, p = concat (firstn k bss) ++ x) -> (k <= n)%nat) /\
    (n <= length vs)%nat /\ (exists x, p = concat (firstn n bss) ++ x).
Proof.
  intros H Hp. assert (Hne : Forall (fun b => b <> []) bss) by (clear -H; induction H; constructor; eauto using packed_nonempty).
  assert (L : length vs = length bss) by (clear -H; induction H; cbn; auto).
  destruct (prefix_concat _ _ _ Hp Hne) as (n & t & -> & Hn & Ht). exists n.
  assert (R : exists e, parse_log t = ([], e)).
  { destruct Ht as [->|(u & Hu & E)]; [eexists; reflexivity|]. destruct (Forall2_nth _ _ _ H _ _ E) as (v & _ & (_ & Hv & Hb)).
    rewrite parse_log_step, (read_torn v _ t u Hv Hb eq_refl Hu). destruct (_ <? _); eauto. }
  destruct R as [e R]. exists e. rewrite (parse_packed _ _ (Forall2_firstn _ _ _ H n)), R. cbn [fst snd]. rewrite app_nil_r.
  split; [reflexivity|]. split; [|split; [lia|eauto]]. intros k Hk [x Hx].
  destruct (Nat.le_gt_cases k n) as [|Hkn]; auto. exfalso.
  assert (E : exists b, nth_error bss n = Some b) by (destruct (nth_error bss n) eqn:E; eauto; apply nth_error_None in E; lia).
  destruct E as [b E]. assert (S1 : concat (firstn k bss) = concat (firstn n bss) ++ b ++ concat (firstn (k - S n) (skipn (S n) bss))).
  { clear -E Hkn. revert n k E Hkn. induction bss as [|a bss IH]; intros n k E Hkn; [destruct n; discriminate|].
    destruct k as [|k]; [lia|]. destruct n as [|n]; cbn [nth_error] in E.
    - injection E as ->. cbn [firstn skipn concat app Nat.sub]. now rewrite Nat.sub_0_r.
    - change (firstn (S k) (a :: bss)) with (a :: firstn k bss). change (firstn (S n) (a :: bss)) with (a :: firstn n bss).
      change (skipn (S (S n)) (a :: bss)) with (skipn (S n) bss). cbn [concat].
      rewrite (IH n k E) by lia. replace (S k - S (S n))%nat with (k - S n)%nat by lia. now rewrite <- app_assoc. }
  rewrite S1 in Hx. rewrite <- !app_assoc in Hx. apply app_inv_head in Hx. destruct Ht as [->|(u & Hu & E2)].
  - symmetry in Hx. apply app_eq_nil in Hx as [-> _]. rewrite Forall_forall in Hne. apply nth_error_In in E. exact (Hne _ E eq_refl).
  - rewrite E in E2. injection E2 as ->. apply (f_equal (@length _)) in Hx. rewrite !app_length in Hx. destruct u; [congruence|]. cbn [length] in Hx. lia.
Qed.
Lemma packed_intro v b : pack_log v = Some b -> int64_ok (v_time v) -> - 2 ^ 31 <= v_index v < 2 ^ 31 -> blen b < 2 ^ 32 + 4 -> packed v b.
Proof.
  intros H Ht Hi Hb. destruct (proj1 (pack_iff v) (ex_intro _ b H)) as [Hu He]. split; [|split; assumption]. split; [exact Hu|]. auto.
Qed.
Lemma parse_prefix_kept vs bss rest : Forall2 packed vs bss -> exists l, fst (parse_log (concat bss ++ rest)) = vs ++ l.
Proof. intros H. rewrite (parse_packed _ _ H). cbn [fst]. eauto. Qed.
(* a torn record swallows what is appended after it *)
Theorem torn_swallows vs bss v b p q x : Forall2 packed vs bss -> packed v b -> b = p ++ q -> 4 <= blen p -> blen x < blen q ->
  parse_log (concat bss ++ p ++ x) = (vs, true).
Proof.
  intros H (Hr & Hb & Hs) E Hp Hx. rewrite (parse_packed _ _ H).
  assert (R : parse_log (p ++ x) = ([], true)); [|rewrite R; cbn [fst snd]; now rewrite app_nil_r].
  apply pack_inv in Hb as (m & Hm & Hne & Hb'). rewrite Hb' in *. rewrite blen_app, blen_le32 in Hs. pose proof (blen_nonneg m).
  assert (exists p', p = le32 (blen m) ++ p' /\ m = p' ++ q) as (p' & -> & Hm').
  { exists (skipn 4 p). assert (L : (4 <= length p)%nat) by (unfold blen in Hp; lia).
    pose proof (f_equal (firstn 4) E) as E1. pose proof (f_equal (skipn 4) E) as E2.
    rewrite !firstn_app, !skipn_app in *. rewrite le32_length in *. replace (4 - length p)%nat with 0%nat in * by lia.
    rewrite Nat.sub_diag, firstn_O, app_nil_r, firstn_O, app_nil_r in E1. rewrite Nat.sub_diag in E2. cbn in E1, E2.
    split; [|exact E2]. rewrite <- (firstn_skipn 4 p) at 1. f_equal. symmetry. exact E1. }
  rewrite parse_log_step. unfold read_log. rewrite <- app_assoc, read_exact_app by reflexivity. rewrite le32_value_le32, Z.mod_small by lia.
  rewrite read_exact_short; [reflexivity|]. rewrite Hm', !blen_app. lia.
Qed.
