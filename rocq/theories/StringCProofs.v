From Verif Require Import Base BaseFacts IntSpec IndexSpec IntParse IntParseProofs UtilIndex UtilIndexProofs Resp StringC.
From Coq Require Import ZArith NArith List Ascii Bool Lia ZifyBool.
Import ListNotations.
Open Scope Z_scope.

(* A container is well formed when all its cached fields agree with its text. *)
Definition strc_ok (s : strc) : Prop := s = new_string (s_data s).

Lemma new_string_ok d : strc_ok (new_string d).
Proof. reflexivity. Qed.

Lemma strc_ok_eq s : strc_ok s -> exists d, s = new_string d.
Proof. intros H. exists (s_data s). exact H. Qed.

Lemma s_equals_spec a b : s_equals (new_string a) (new_string b) = bytes_eqb a b.
Proof.
  unfold s_equals. simpl. destruct (bytes_eqb a b) eqn:E.
  - apply bytes_eqb_eq in E as ->. rewrite N.eqb_refl. reflexivity.
  - destruct (_ =? _)%N; reflexivity.
Qed.

Lemma s_equals_true a b : s_equals (new_string a) (new_string b) = true <-> a = b.
Proof. rewrite s_equals_spec. apply bytes_eqb_eq. Qed.

(* The cached integer after Increase/Decrease is the one parsed from the new text. *)
Lemma s_increase_spec d n :
  s_increase (new_string d) n =
  match parse_int d with
  | None => None
  | Some v => Some (new_string (format_int (wrap64 (v + n))), wrap64 (v + n))
  end.
Proof.
  unfold s_increase, s_update, new_string. simpl. destruct (parse_int d) as [v|]; auto.
  rewrite parse_format by apply wrap64_ok. reflexivity.
Qed.
Lemma s_decrease_spec d n :
  s_decrease (new_string d) n =
  match parse_int d with
  | None => None
  | Some v => Some (new_string (format_int (wrap64 (v - n))), wrap64 (v - n))
  end.
Proof.
  unfold s_decrease, s_update, new_string. simpl. destruct (parse_int d) as [v|]; auto.
  rewrite parse_format by apply wrap64_ok. reflexivity.
Qed.

Lemma as_bulk_spec d : as_bulk (new_string d) = match d with [] => RNullBulk | _ => RBulk d end.
Proof.
  unfold as_bulk. simpl. destruct d as [|c d]; [reflexivity|].
  rewrite blen_cons. pose proof (blen_nonneg d). destruct (_ =? 0) eqn:E; [lia|reflexivity].
Qed.

Lemma bslice_spec d a b : 0 <= a -> a <= b <= blen d ->
  exists pre post, d = pre ++ bslice d a b ++ post /\ blen pre = a /\ blen (bslice d a b) = b - a.
Proof.
  intros Ha Hb. unfold bslice, blen in *.
  exists (firstn (Z.to_nat a) d), (skipn (Z.to_nat (b - a)) (skipn (Z.to_nat a) d)).
  rewrite firstn_skipn, firstn_skipn. split; auto.
  rewrite !firstn_length, skipn_length. lia.
Qed.

Lemma s_getrange_spec d a b : int64_ok a -> int64_ok b -> blen d < 2 ^ 63 ->
  s_getrange (new_string d) a b =
  let pa := position a (blen d) in let pb := position b (blen d) in
  if (0 <=? pa) && (pa <? blen d) && (pa <=? pb)
  then Some (new_string (bslice d pa (Z.min (pb + 1) (blen d)))) else None.
Proof.
  intros Ha Hb Hd. pose proof (blen_nonneg d). unfold s_getrange. simpl s_size. simpl s_data.
  destruct (slice_resolve_spec a b (blen d) Ha Hb ltac:(lia)) as [H1 H2]. cbv zeta in *.
  set (pa := position a (blen d)) in *. set (pb := position b (blen d)) in *.
  destruct ((0 <=? pa) && (pa <? blen d) && (pa <=? pb)) eqn:E.
  - rewrite H1 by lia. destruct (_ || _) eqn:E1; [lia|]. do 3 f_equal. lia.
  - rewrite H2 by lia. reflexivity.
Qed.
