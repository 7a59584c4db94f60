(* C92: what the server's own log file says about a record. *)
From Verif Require Import Base BaseFacts Resp Command Db Engine Log Recovery Quote QuoteSpec QuoteProofs Props_Recovery.
From Coq Require Import ZArith List Ascii String Bool Lia.
From stdpp Require Import gmap.
Open Scope Z_scope.

(* Like the library for ASCII and for U+00E9; nothing else is printed as it is. *)
Definition ascii_print : printing := mkPrinting (fun r => (32 <=? r) && (r <? 127) || (r =? 233)) true.
Lemma ascii_print_ok : forall z, 0 <= z < 32 -> is_print ascii_print z = false.
Proof. intros z H. cbn [is_print ascii_print]. apply orb_false_iff. split; [|apply Z.eqb_neq; lia]. apply andb_false_iff. left. apply Z.leb_gt. lia. Qed.

(* C92 for a quoted text: it says where it ends, and which text it quotes; whatever follows it. *)
Theorem C92_quote : forall p s t x y, quote p s ++ x = quote p t ++ y -> s = t /\ x = y.
Proof. exact quote_whole. Qed.
Print Assumptions C92_quote.
Example C92_quote_ex : quote ascii_print (bs "a""b\" ++ map byteOf [10; 1; 127; 255; 195; 169; 240; 159; 152; 128]) = bs """a\""b\\\n\x01\x7f\xffé\U0001f600""".
Proof. vm_compute. reflexivity. Qed.
(* A line break in the text is none in the quoted text. *)
Theorem C92_line : forall p s, (forall z, 0 <= z < 32 -> is_print p z = false) -> Forall visible (quote p s).
Proof. exact quote_visible. Qed.
Print Assumptions C92_line.
Example C92_line_ex : (forall z, 0 <= z < 32 -> is_print ascii_print z = false) /\ quote ascii_print (bs "x" ++ [byteOf 10; byteOf 13] ++ bs "y") = bs """x\n\ry""".
Proof. split; [exact ascii_print_ok|]. vm_compute. reflexivity. Qed.
(* C92 for the records the server writes: the text tells them apart, and is one line whatever the client
   sent. *)
Theorem C92_record : forall p t q v t' q' v', log_of t q = Some v -> log_of t' q' = Some v' ->
  no_comma (t_id t) -> no_comma (t_host t) -> int64_ok (t_time t) -> no_comma (t_id t') -> no_comma (t_host t') -> int64_ok (t_time t') ->
  format_log p v = format_log p v' -> v = v'.
Proof. exact log_of_apart. Qed.
Print Assumptions C92_record.
Theorem C92_record_line : forall p t q v, (forall z, 0 <= z < 32 -> is_print p z = false) -> log_of t q = Some v ->
  Forall visible (t_id t) -> Forall visible (t_host t) -> Forall visible (format_log p v).
Proof. exact log_of_line. Qed.
Print Assumptions C92_record_line.
Definition qt_req : robj := RArr [RBulk (bs "SET"); RBulk (bs "k"); RBulk (bs "1], id=" ++ [byteOf 10] ++ bs "x")].
Example C92_record_ex : exists v, log_of (mkStamp (bs "u1") 7 (bs "10.0.0.1")) qt_req = Some v /\
  no_comma (bs "u1") /\ no_comma (bs "10.0.0.1") /\ int64_ok 7 /\ Forall visible (bs "u1") /\ Forall visible (bs "10.0.0.1") /\
  format_log ascii_print v = bs "VectexLog{id=u1, time=7, host=10.0.0.1, name=SET, index=1, arguments=[""$1\r\nk\r\n"",""$9\r\n1], id=\nx\r\n""], raw_request=""*3\r\n$3\r\nSET\r\n$1\r\nk\r\n$9\r\n1], id=\nx\r\n""}".
Proof.
  eexists. split; [vm_compute; reflexivity|]. split; [repeat constructor; discriminate|]. split; [repeat constructor; discriminate|]. split; [vm_compute; split; [discriminate|reflexivity]|].
  split; [repeat constructor; vm_compute; discriminate|]. split; [repeat constructor; vm_compute; discriminate|]. vm_compute. reflexivity.
Qed.
(* C92 for records read from a file, if what is not quoted holds no comma ... *)
Theorem C92_text_partial : forall p v w, tame v -> tame w -> format_log p v = format_log p w -> v = w.
Proof. exact format_log_inj. Qed.
Print Assumptions C92_text_partial.
(* ... and not in general, even of records that ParseLog reads. *)
Definition qt_a : vlog := mkVlog (bs "i") 1 (bs "h, name=a") (bs "b") 1 [] [].
Definition qt_b : vlog := mkVlog (bs "i") 1 (bs "h") (bs "a, name=b") 1 [] [].
Theorem C92_text_refuted : exists v w bv bw, pack_log v = Some bv /\ pack_log w = Some bw /\ parse_log (bv ++ bw) = ([v; w], false) /\
  v <> w /\ forall p, format_log p v = format_log p w.
Proof.
  exists qt_a, qt_b. eexists. eexists. split; [vm_compute; reflexivity|]. split; [vm_compute; reflexivity|]. split; [vm_compute; reflexivity|].
  split; [discriminate|]. intros p. unfold format_log, qt_a, qt_b. cbn [v_id v_time v_host v_name v_index v_args v_raw]. reflexivity.
Qed.
Print Assumptions C92_text_refuted.
Example C92_text_ex : tame (mkVlog (bs "i") 1 (bs "h") (bs "set") 1 [bs "x,y"; []] (bs "raw")) /\
  format_log ascii_print (mkVlog (bs "i") 1 (bs "h") (bs "set") 1 [bs "x,y"; []] (bs "raw")) = bs "VectexLog{id=i, time=1, host=h, name=set, index=1, arguments=[""x,y"",""""], raw_request=""raw""}".
Proof. split; [|vm_compute; reflexivity]. unfold tame, no_comma, int64_ok. cbn [v_id v_time v_host v_name v_index]. repeat split; try lia; repeat constructor; discriminate. Qed.
