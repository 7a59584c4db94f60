(* C94: which files are logs, and what they say. *)
From Verif Require Import Base BaseFacts Utf8Spec Log LogSpec LogProofs WireSpec WireProofs Props_Log.
From Coq Require Import ZArith List Ascii String Bool Lia.
Import ListNotations.
Open Scope Z_scope.

(* C94: a record is read if and only if its bytes are a message of log.proto whose texts are UTF-8, and then as
   what the message says. *)
Theorem C94_record : forall b v, unmarshal b = Some v <-> reads_as b v.
Proof. exact unmarshal_exact. Qed.
Print Assumptions C94_record.
(* What a message says is not ambiguous. *)
Theorem C94_unambiguous : forall b fs fs', message b fs -> message b fs' -> fs = fs'.
Proof. intros b fs fs' M M'. exact (message_fun b fs M fs' M'). Qed.
Print Assumptions C94_unambiguous.
(* What is written is such a message. *)
Theorem C94_written : forall v b, packed v b -> exists m, b = le32 (blen m) ++ m /\ reads_as m v.
Proof.
  intros v b ((U & T & X & _) & P & B). destruct (pack_inv _ _ P) as (m & M & _ & ->). exists m. split; [reflexivity|]. apply unmarshal_exact.
  rewrite blen_app, blen_le32 in B. apply unmarshal_marshal; auto. eapply marshal_fits; [exact M|lia].
Qed.
Print Assumptions C94_written.
(* A field that log.proto does not have, wherever it is, changes nothing: records of a later version are
   read. *)
Theorem C94_later_version : forall b1 fs1 x n c b2 v, message b1 fs1 -> message x [(n, c)] -> ~ known n ->
  unmarshal (b1 ++ b2) = Some v -> unmarshal (b1 ++ x ++ b2) = Some v.
Proof. exact unknown_ignored. Qed.
Print Assumptions C94_later_version.
(* C94: every file is read, as the records that are messages, up to where it is cut. *)
Theorem C94_file : forall s vs e, parse_log s = (vs, e) <-> log_file s vs e.
Proof.
  intros s vs e. split; [|apply log_file_fun]. intros E. pose proof (parse_log_file s) as F. now rewrite E in F.
Qed.
Print Assumptions C94_file.

(* id = "ab"; a group 9 holding a 32-bit field 7 and an empty group; time = 300 in three bytes; a 64-bit field 5. *)
Definition w_tag (l : list Z) : bytes := map byteOf l.
Definition w_id : bytes := w_tag [10] ++ (w_tag [2] ++ bs "ab").
Definition w_rest : bytes := w_tag [75] ++ (w_tag [61] ++ bs "wxyz" ++ (w_tag [19] ++ w_tag [20] ++ w_tag [76])) ++ w_tag [16] ++ w_tag [172; 130; 0] ++ w_tag [41] ++ bs "12345678" ++ [].
Lemma int1 z : 0 <= z < 128 -> int (w_tag [z]) z.
Proof.
  intros H. replace z with (byteZ (byteOf z)) at 2 by (apply byteZ_byteOf; lia). split; [constructor; rewrite byteZ_byteOf; lia|]. split; [cbn; lia|]. rewrite byteZ_byteOf; lia.
Qed.
Example C94_ex : message (w_id ++ w_rest) [(1, CText (bs "ab")); (9, COther); (2, CInt 300); (5, COther)] /\
  reads_as (w_id ++ w_rest) (mkVlog (bs "ab") 300 [] [] 0 [] []) /\ unmarshal (w_id ++ w_rest) = Some (mkVlog (bs "ab") 300 [] [] 0 [] []).
Proof.
  assert (M : message (w_id ++ w_rest) [(1, CText (bs "ab")); (9, COther); (2, CInt 300); (5, COther)]).
  { unfold w_id. rewrite <- app_assoc. apply (m_field (w_tag [10]) 1 2); [apply int1; lia|lia|apply w_text; apply (int1 2); lia|]. unfold w_rest.
    apply (m_field (w_tag [75]) 9 3 (w_tag [61] ++ bs "wxyz" ++ (w_tag [19] ++ w_tag [20] ++ w_tag [76]))); [apply int1; lia|lia| |].
    - apply w_group. apply (g_field 9 (w_tag [61]) 7 5 _ COther); [apply int1; lia|lia|now apply w_32|].
      apply (g_field 9 (w_tag [19]) 2 3 (w_tag [20]) COther); [apply int1; lia|lia|apply w_group; apply g_end; apply (int1 20); lia|]. apply g_end. apply (int1 76). lia.
    - apply (m_field (w_tag [16]) 2 0); [apply int1; lia|lia| |apply (m_field (w_tag [41]) 5 1 (bs "12345678")); [apply int1; lia|lia|now apply w_64|constructor]].
      apply w_int. split; [|split; [cbn; lia|reflexivity]].
      change 300 with (byteZ (byteOf 172) - 128 + 128 * (byteZ (byteOf 130) - 128 + 128 * byteZ (byteOf 0))). unfold w_tag. cbn [map].
      apply g7_more; [vm_compute; discriminate|]. apply g7_more; [vm_compute; discriminate|]. apply g7_last. vm_compute. reflexivity. }
  assert (R : reads_as (w_id ++ w_rest) (mkVlog (bs "ab") 300 [] [] 0 [] [])).
  { eexists. split; [exact M|]. split; [|vm_compute; reflexivity]. intros n s [E|[E|[E|[E|[]]]]] _; try discriminate E. injection E as <- <-. apply Utf8Proofs.valid_utf8_spec. reflexivity. }
  split; [exact M|]. split; [exact R|]. vm_compute. reflexivity.
Qed.
Example C94_file_ex : parse_log (le32 4 ++ w_id ++ le32 2 ++ w_tag [10; 9] ++ pk rec_a ++ le32 9 ++ bs "torn") = ([mkVlog (bs "ab") 0 [] [] 0 [] []; rec_a], true).
Proof. vm_compute. reflexivity. Qed.
Example C94_later_ex : message (w_tag [72] ++ w_tag [5] ++ []) [(9, CInt 5)] /\ ~ known 9.
Proof.
  split; [apply (m_field (w_tag [72]) 9 0 (w_tag [5])); [apply int1; lia|lia|apply w_int; apply int1; lia|constructor]|]. unfold known. cbn [In]. lia.
Qed.
