(* How much of what is read is kept. *)
From Verif Require Import Base IntSpec IntParse IntParseProofs Resp RespSpec RespProofs Memory MemorySpec.
From Coq Require Import ZArith List Ascii String Bool Lia.
Import ListNotations.
Open Scope Z_scope.

(* No numeral is shorter than the canonical one. *)
Lemma canonical_short ds es : ds <> [] -> es <> [] -> Forall is_digit ds -> Forall is_digit es -> (forall c r, ds = c :: r -> byteZ c = 48 -> r = []) ->
  dec_value ds = dec_value es -> (List.length ds <= List.length es)%nat.
Proof.
  intros Nd Ne D E C V. destruct ds as [|c r]; [congruence|]. destruct (Z.eq_dec (byteZ c) 48) as [Z0|Z0].
  - rewrite (C c r eq_refl Z0). destruct es; [congruence|cbn; lia].
  - inversion D as [|? ? Dc Dr]; subst. pose proof (dec_value_lower c r Dc Dr Z0) as L. pose proof (dec_value_bound es E) as U. rewrite V in L.
    assert (10 ^ Z.of_nat (List.length r) < 10 ^ Z.of_nat (List.length es)) as K by lia. apply Z.pow_lt_mono_r_iff in K; [cbn; lia|lia|lia].
Qed.
Lemma format_short s z : denotes s z -> (List.length (format_int z) <= List.length s)%nat.
Proof.
  intros (sg & es & -> & Ne & E & H). destruct (format_int_canonical z) as (ds & -> & Nd & D & V & C). rewrite !app_length.
  pose proof (dec_value_bound es E). assert (W : dec_value ds = dec_value es) by (rewrite V; destruct H as [[_ ->]|[_ ->]]; lia).
  pose proof (canonical_short ds es Nd Ne D E C W). destruct (z <? 0) eqn:Hz; cbn; [|lia]. destruct H as [[_ ->]|[-> _]]; [lia|cbn; lia].
Qed.

Lemma list_max_cons (n : nat) (l : list nat) : list_max (n :: l) = Nat.max n (list_max l).
Proof. reflexivity. Qed.
Lemma read_sizes f :
  (forall s o r, read_object f s = POk o r -> (List.length (encode o) + List.length r <= List.length s /\ 4 * depth o + List.length r <= List.length s)%nat) /\
  (forall n s l r, read_items f n s = POk l r -> (List.length (List.concat (map encode l)) + List.length r <= List.length s /\ 4 * list_max (map depth l) + List.length r <= List.length s)%nat /\ Z.of_nat (List.length l) = Z.max 0 n).
Proof.
  induction f as [|f [IHo IHi]]; split; intros; try discriminate.
  - simpl in H. destruct (read_token None s) as [t r0| |] eqn:Et; try discriminate.
    apply read_token_None_inv in Et as (d & -> & -> & Hd). destruct d as [|c d]; [discriminate|]. cbn [app] in H. rewrite !tok_body_app in H.
    rewrite !app_length. cbn [List.length CRLF].
    destruct (byte_eqb c "+"). { injection H as <- <-. cbn [encode depth List.length]. rewrite app_length. cbn. lia. }
    destruct (byte_eqb c "$").
    { apply read_bulk_inv in H. rewrite tok_body_app in H. destruct H as [(-> & -> & P)|(n & e & x & -> & -> & Hx & P & He & Hn)]; apply parse_int_spec in P as [P _]; apply format_short in P.
      - change (List.length (format_int (-1))) with 2%nat in P. cbn [depth encode]. change (List.length (bs "$-1" ++ CRLF)) with 5%nat. lia.
      - subst n. cbn [depth encode List.length]. rewrite !app_length. cbn [List.length CRLF]. lia. }
    destruct (byte_eqb c "-"). { injection H as <- <-. cbn [encode depth List.length]. rewrite app_length. cbn. lia. }
    destruct (byte_eqb c ":").
    { destruct (parse_int d) as [z|] eqn:P; [|discriminate]. injection H as <- <-. apply parse_int_spec in P as [P _]. apply format_short in P. cbn [encode depth List.length]. rewrite app_length. cbn [List.length CRLF]. lia. }
    destruct (byte_eqb c "*"); [|discriminate]. destruct (parse_int d) as [n|] eqn:P; [|discriminate].
    pose proof P as P'. apply parse_int_spec in P' as [P' _]. pose proof (format_short _ _ P') as F.
    destruct (n =? -1) eqn:E1.
    { injection H as <- <-. assert (n = -1) as -> by lia. change (List.length (format_int (-1))) with 2%nat in F. cbn [depth encode]. change (List.length (bs "*-1" ++ CRLF)) with 5%nat. lia. }
    destruct (read_items f n r0) as [l r1| | |] eqn:Ei; try discriminate. injection H as <- <-. apply IHi in Ei as ((A & B) & L).
    cbn [encode depth List.length]. rewrite !app_length. cbn [List.length CRLF]. rewrite L.
    assert (1 <= List.length d)%nat by (destruct d; [discriminate|cbn; lia]).
    assert (List.length (format_int (Z.max 0 n)) <= List.length d)%nat.
    { destruct (Z.le_gt_cases 0 n); [rewrite Z.max_r by lia; exact F|]. rewrite Z.max_l by lia. change (List.length (format_int 0)) with 1%nat. lia. }
    lia.
  - simpl in H. destruct (n <=? 0) eqn:En.
    + injection H as <- <-. cbn. split; [lia|lia].
    + destruct (read_object f s) as [o r0| | |] eqn:Eo; try discriminate.
      destruct (read_items f (n - 1) r0) as [l' r1| | |] eqn:Ei; try discriminate. injection H as <- <-.
      apply IHo in Eo as (A & B). apply IHi in Ei as ((A' & B') & L). cbn [map List.concat]. rewrite app_length, list_max_cons. cbn [List.length]. split; [split|]; lia.
Qed.
Lemma parse_sizes s o r : parse s = POk o r -> (List.length (encode o) + List.length r <= List.length s /\ 4 * depth o + List.length r <= List.length s)%nat.
Proof. apply read_sizes. Qed.

Local Open Scope nat_scope.
Fixpoint robj_rect' (P : robj -> Prop) (f1 : forall d, P (RSimple d)) (f2 : forall d, P (RBulk d)) (f3 : P RNullBulk) (f4 : forall d, P (RErr d)) (f5 : forall z, P (RInt z))
  (f6 : forall l, Forall P l -> P (RArr l)) (f7 : P RNullArr) (o : robj) : P o :=
  match o with
  | RSimple d => f1 d | RBulk d => f2 d | RNullBulk => f3 | RErr d => f4 d | RInt z => f5 z | RNullArr => f7
  | RArr l => f6 l ((fix go l := match l return Forall P l with [] => Forall_nil _ | o :: l => Forall_cons _ (robj_rect' P f1 f2 f3 f4 f5 f6 f7 o) (go l) end) l)
  end.
Lemma held_bound o : held o <= (2 * depth o + 3) * List.length (encode o).
Proof.
  induction o as [d|d| |d|z|l IH|] using robj_rect'; try (cbn [held depth]; cbn [encode List.length]; rewrite ?app_length; cbn [List.length]; rewrite ?app_length; lia).
  cbn [held depth]. set (D := list_max (map depth l)). set (E := List.length (encode (RArr l))).
  assert (K : list_sum (map held l) <= (2 * D + 3) * List.length (List.concat (map encode l))).
  { subst D. clear E. induction IH as [|o l Ho _ IH]; [cbn; lia|]. cbn [map list_sum List.concat]. rewrite list_max_cons, app_length. change (list_sum (held o :: map held l)) with (held o + list_sum (map held l)).
    set (M := Nat.max (depth o) (list_max (map depth l))).
    assert (held o <= (2 * M + 3) * List.length (encode o)) by (etransitivity; [exact Ho|]; apply Nat.mul_le_mono_r; lia).
    assert (list_sum (map held l) <= (2 * M + 3) * List.length (List.concat (map encode l))) by (etransitivity; [exact IH|]; apply Nat.mul_le_mono_r; lia). lia. }
  assert (List.length (List.concat (map encode l)) <= E) by (subst E; cbn [encode List.length]; rewrite !app_length; lia).
  assert ((2 * D + 3) * List.length (List.concat (map encode l)) <= (2 * D + 3) * E) by (apply Nat.mul_le_mono_l; auto). lia.
Qed.
Lemma parse_held s o r : parse s = POk o r -> held o <= (2 * depth o + 3) * (List.length s - List.length r).
Proof.
  intros H. pose proof (parse_sizes s o r H) as [A _]. etransitivity; [apply held_bound|]. apply Nat.mul_le_mono_l. lia.
Qed.
Lemma flat_depth o : flat o -> depth o <= 1.
Proof.
  destruct o as [| | | | |l|]; cbn; try lia. intros F. enough (list_max (map depth l) <= 0) by lia. apply list_max_le. apply Forall_map. eapply Forall_impl; [|exact F].
  intros [] H; cbn in *; try discriminate; lia.
Qed.

Lemma nested_encode n : List.length (encode (nested n)) = 4 * (n + 1).
Proof.
  induction n as [|n IH]; [reflexivity|]. cbn [nested encode map List.concat]. rewrite app_nil_r. change (format_int (Z.of_nat (List.length [nested n]))) with ["1"%char]. cbn [List.length app CRLF]. rewrite IH. lia.
Qed.
Lemma nested_depth n : depth (nested n) = n + 1.
Proof. induction n as [|n IH]; [reflexivity|]. cbn [nested depth map]. rewrite list_max_cons, IH. cbn. lia. Qed.
Lemma nested_held n : held (nested n) = 4 * (n + 1) * (n + 2).
Proof.
  induction n as [|n IH]; [reflexivity|]. change (held (nested (S n))) with (2 * List.length (encode (nested (S n))) + (held (nested n) + 0)). rewrite IH, nested_encode. lia.
Qed.
Lemma nested_ok n : obj_ok (nested n).
Proof. induction n; cbn; constructor; try (vm_compute; reflexivity); repeat constructor. assumption. Qed.
Lemma nested_parse n : parse (encode (nested n)) = POk (nested n) [].
Proof. rewrite <- (app_nil_r (encode (nested n))) at 1. apply parse_encode, nested_ok. Qed.
