(* The log reader on damaged records. *)
From Verif Require Import Base BaseFacts UtilIndex Resp Log LogSpec LogProofs.
From Coq Require Import ZArith List Ascii String Bool Lia.
Import ListNotations.
Open Scope Z_scope.

Lemma le32_length n : blen (le32 n) = 4.
Proof. reflexivity. Qed.
(* The body of a record is replaced by other bytes of the same number. *)
Theorem body_confined vs bss v b m vs2 bss2 : Forall2 packed vs bss -> packed v b -> blen m = blen b - 4 -> Forall2 packed vs2 bss2 ->
  exists l, parse_log (List.concat bss ++ firstn 4 b ++ m ++ List.concat bss2) = (vs ++ l ++ vs2, false) /\ (List.length l <= 1)%nat.
Proof.
  intros H (R & P & S) Hm H2. rewrite (parse_packed _ _ H). apply pack_inv in P as (m0 & _ & _ & ->). rewrite blen_app, le32_length in *.
  change (firstn 4 (le32 (blen m0) ++ m0)) with (le32 (blen m0)).
  assert (X : exists l, parse_log (le32 (blen m0) ++ m ++ List.concat bss2) = (l ++ vs2, false) /\ (List.length l <= 1)%nat).
  { rewrite parse_log_step. unfold read_log. rewrite read_exact_app by apply le32_length. pose proof (blen_nonneg m0). rewrite le32_value_le32, Z.mod_small by lia.
    rewrite read_exact_app by lia. pose proof (parse_concat _ _ H2) as E. destruct (unmarshal m) as [v'|]; rewrite E; [exists [v']|exists []]; split; auto. }
  destruct X as (l & -> & Hl). exists l. split; auto.
Qed.
(* The length of a record is replaced by more than there is. *)
Theorem header_loses vs bss x rest : Forall2 packed vs bss -> blen x = 4 -> blen rest < le32_value x -> parse_log (List.concat bss ++ x ++ rest) = (vs, true).
Proof.
  intros H Hx Hr. rewrite (parse_packed _ _ H), parse_log_step. unfold read_log. rewrite read_exact_app by exact Hx. rewrite read_exact_short by exact Hr. cbn. now rewrite app_nil_r.
Qed.
