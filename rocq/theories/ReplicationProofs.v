From Verif Require Import Base BaseFacts UtilIndex Resp Utf8Spec Utf8Proofs Log LogSpec LogProofs Persist PersistSpec PersistProofs Replication.
From Coq Require Import ZArith List Ascii Bool Lia ZifyBool.
Import ListNotations.
Open Scope Z_scope.

Lemma replicate_whole vs bss rest : Forall2 packed vs bss -> blen (concat bss) < 2 ^ 32 ->
  receive (replica_stream (concat bss) ++ rest) = Some vs.
Proof.
  intros H Hs. unfold receive, replica_stream. rewrite <- app_assoc, read_exact_app by reflexivity.
  pose proof (blen_nonneg (concat bss)). rewrite le32_value_le32, Z.mod_small by lia.
  destruct (blen (concat bss) =? 0) eqn:E.
  - destruct bss as [|b bss]; [inversion H; reflexivity|]. inversion H as [|v ? vs' ? Hp]; subst. apply packed_nonempty in Hp.
    cbn [concat] in E. rewrite blen_app in E. pose proof (blen_nonneg (concat bss)). destruct b; [congruence|]. unfold blen in *. cbn [length] in *. lia.
  - rewrite read_exact_app by reflexivity. now rewrite (parse_concat vs).
Qed.
Lemma replicate_cut f p q : blen f < 2 ^ 32 -> replica_stream f = p ++ q -> q <> [] -> receive p = None.
Proof.
  intros Hf E Hq. unfold receive. destruct (Z.ltb_spec (blen p) 4). { now rewrite read_exact_short. }
  assert (exists p', p = le32 (blen f) ++ p' /\ f = p' ++ q) as (p' & -> & ->).
  { unfold replica_stream in E. exists (skipn 4 p). assert (L : (4 <= length p)%nat) by (unfold blen in H; lia).
    pose proof (f_equal (firstn 4) E) as E1. pose proof (f_equal (skipn 4) E) as E2.
    rewrite !firstn_app, !skipn_app in *. rewrite le32_length in *. replace (4 - length p)%nat with 0%nat in * by lia.
    rewrite Nat.sub_diag, firstn_O, app_nil_r, firstn_O, app_nil_r in E1. rewrite Nat.sub_diag in E2. cbn in E1, E2.
    split; [|exact E2]. rewrite <- (firstn_skipn 4 p) at 1. f_equal. symmetry. exact E1. }
  rewrite read_exact_app by reflexivity. rewrite le32_value_le32, Z.mod_small by (pose proof (blen_nonneg (p' ++ q)); lia).
  assert (blen p' < blen (p' ++ q)) by (rewrite blen_app; destruct q; [congruence|]; unfold blen; cbn [length]; lia).
  pose proof (blen_nonneg p'). rewrite (proj2 (Z.eqb_neq _ _)) by lia. now rewrite read_exact_short by lia.
Qed.
(* whatever whole number of bytes of the log was copied, the replica gets the first
   records or an error *)
Lemma replicate_prefix vs bss p q : Forall2 packed vs bss -> concat bss = p ++ q -> blen p < 2 ^ 32 ->
  match receive (replica_stream p) with Some l => exists n, l = firstn n vs | None => True end.
Proof.
  intros H Hp Hs. unfold receive, replica_stream. rewrite read_exact_app by reflexivity. pose proof (blen_nonneg p).
  rewrite le32_value_le32, Z.mod_small by lia. destruct (_ =? 0). { now exists 0%nat. }
  pose proof (read_exact_app (blen p) p [] eq_refl) as R. rewrite app_nil_r in R. rewrite R. destruct (parse_prefix _ _ _ _ H Hp) as (n & e & -> & _).
  destruct e; eauto.
Qed.
(* a log of 4 GiB or more never arrives whole *)
Lemma replicate_big vs bss : Forall2 packed vs bss -> 2 ^ 32 <= blen (concat bss) -> receive (replica_stream (concat bss)) <> Some vs.
Proof.
  intros H Hs. unfold receive, replica_stream. rewrite read_exact_app by reflexivity. rewrite le32_value_le32.
  set (f := concat bss) in *. pose proof (Z.mod_pos_bound (blen f) (2 ^ 32) ltac:(lia)) as M. set (n := blen f mod 2 ^ 32) in *.
  destruct (n =? 0) eqn:E.
  { intros [= <-]. inversion H; subst. unfold f, blen in Hs. cbn [concat length] in Hs. lia. }
  assert (R : read_exact n f = Some (firstn (Z.to_nat n) f, skipn (Z.to_nat n) f)).
  { unfold read_exact. rewrite (proj2 (Z.leb_gt _ _)) by lia. now rewrite (proj2 (Z.ltb_ge _ _)) by lia. }
  rewrite R. destruct (parse_prefix vs bss (firstn (Z.to_nat n) f) (skipn (Z.to_nat n) f) H (eq_sym (firstn_skipn _ _))) as (k & e & -> & _ & Hk & x & Hx).
  destruct e; [discriminate|]. intros [= Ek]. assert (k = length vs) as ->.
  { apply (f_equal (@length _)) in Ek. rewrite firstn_length in Ek. lia. }
  rewrite (Forall2_len _ _ _ H), firstn_all in Hx. fold f in Hx. apply (f_equal (@length _)) in Hx.
  rewrite app_length, firstn_length in Hx. unfold blen in *. lia.
Qed.

(* ---- a log of exactly 2^32 bytes ---- *)
Definition big_name (n : Z) : bytes := repeat "a"%char (Z.to_nat n).
Definition big_log (n : Z) : vlog := mkVlog [] 0 [] (big_name n) 0 [] [].
Lemma utf8_as n : utf8 (repeat "a"%char n).
Proof.
  exists (repeat 97 n). split; [apply Forall_forall; intros x Hx; apply repeat_spec in Hx; subst; left; lia|].
  induction n as [|n IH]; [reflexivity|]. cbn [repeat map concat]. rewrite <- IH. reflexivity.
Qed.
Lemma big_blen n : 0 <= n -> blen (big_name n) = n.
Proof. intros H. unfold blen, big_name. rewrite repeat_length. lia. Qed.
Lemma big_ok n : 0 < n -> record_ok (big_log n).
Proof.
  intros H. unfold record_ok, record_utf8, record_texts, big_log. cbn [v_id v_host v_name v_raw v_args v_time v_index].
  assert (U0 : utf8 []) by apply (utf8_as 0). split; [repeat (apply Forall_cons || apply Forall_nil); auto; apply utf8_as|]. split; [unfold int64_ok; lia|]. split; [lia|].
  intros E. apply (f_equal v_name) in E. cbn [v_name big_log empty_vlog] in E. apply (f_equal blen) in E. rewrite big_blen in E by lia. unfold blen in E. cbn [length] in E. lia.
Qed.
Lemma big_marshal n : 0 < n -> marshal (big_log n) = Some (put_tag 4 2 ++ varint n ++ big_name n).
Proof.
  intros H. pose proof (big_ok n H) as (Hu & _). apply marshal_Some in Hu as [m Hm]. rewrite Hm. unfold marshal in Hm.
  destruct (_ && _); [|discriminate]. injection Hm as <-. f_equal.
  cbn [big_log v_id v_host v_name v_raw v_args v_time v_index]. unfold put_int_nz. cbn [Z.eqb map concat]. cbn [app].
  rewrite app_nil_r. unfold put_string_nz. destruct (big_name n) as [|c b] eqn:E.
  { apply (f_equal blen) in E. rewrite big_blen in E by lia. unfold blen in E. cbn [length] in E. lia. }
  rewrite <- E. unfold put_string. now rewrite big_blen by lia.
Qed.
Lemma big_packed : exists b, packed (big_log 4294967286) b /\ blen b = 2 ^ 32.
Proof.
  pose proof (big_marshal 4294967286 ltac:(lia)) as M. unfold packed.
  set (m := put_tag 4 2 ++ varint 4294967286 ++ big_name 4294967286) in *.
  assert (L : blen m = 4294967292).
  { unfold m. rewrite !blen_app. rewrite big_blen by lia. assert (blen (put_tag 4 2) = 1) by reflexivity. assert (blen (varint 4294967286) = 5) by reflexivity. lia. }
  exists (le32 (blen m) ++ m). rewrite blen_app, L. change (blen (le32 4294967292)) with 4. split; [|lia].
  split; [apply big_ok; lia|]. split; [|lia]. unfold pack_log. rewrite M. destruct m as [|c m']; [unfold blen in L; cbn [length] in L; lia|]. now rewrite L.
Qed.
Lemma big_not_replicated : exists v b, packed v b /\ receive (replica_stream b) = Some [] /\ [v] <> [].
Proof.
  destruct big_packed as (b & Hp & Hb). exists (big_log 4294967286), b. split; [exact Hp|]. split; [|discriminate].
  unfold receive, replica_stream. rewrite read_exact_app by reflexivity. rewrite le32_value_le32, Hb. reflexivity.
Qed.

(* through the master's buffered file *)
Lemma flushed_and_sent vs l ws p oks p' s : Forall2 packed vs (written_by l) -> blen (List.concat (written_by l)) < 2 ^ 32 ->
  steps (open_file []) l ws = (p, oks) -> serve_replica p [] = (p', Some s) -> receive s = Some vs.
Proof.
  intros Hp Hs E H. unfold serve_replica in H.
  pose proof (steps_ok l (open_file []) ws [] (inv_open [])) as I. rewrite E in I. destruct I as (I & _ & _).
  pose proof (flush_ok p [] _ I) as F. destruct (flush p []) as [p1 ws1]. destruct F as (_ & _ & F).
  destruct (p_err p1); [discriminate|]. injection H as <- <-. destruct (F eq_refl) as [-> _]. cbn [app].
  rewrite <- (app_nil_r (replica_stream _)). now apply replicate_whole.
Qed.
