(* Property theorems C01-C05: the RESP wire protocol. *)
From Verif Require Import Base IntSpec IntParse IntParseProofs Resp RespSpec RespProofs.
From Coq Require Import ZArith List Ascii String Bool Lia.
Import ListNotations.
Open Scope Z_scope.

(* C01: writing an object and reading it back gives the object and leaves the
   bytes that followed it. *)
Theorem C01_resp_round_trip :
  forall o rest, obj_ok o -> parse (encode o ++ rest) = POk o rest.
Proof. exact parse_encode. Qed.
Print Assumptions C01_resp_round_trip.

Example C01_case : obj_ok (RArr [RBulk (bs "a" ++ CRLF ++ bs "b"); RArr [RInt (-7); RNullBulk]; RNullArr; RArr []]).
Proof.
  constructor; [vm_compute; reflexivity|].
  repeat (constructor; try (vm_compute; reflexivity)); discriminate.
Qed.

(* C02: a strict prefix of an encoded object reads as end of file. *)
Theorem C02_truncated_is_eof :
  forall o p q, obj_ok o -> encode o = p ++ q -> q <> [] -> parse p = PErr EEof.
Proof. exact encode_prefix_eof. Qed.
Print Assumptions C02_truncated_is_eof.

Example C02_case : encode (RBulk (bs "ab")) = bs "$2" ++ (CRLF ++ bs "ab" ++ CRLF)
  /\ obj_ok (RBulk (bs "ab")) /\ parse (bs "$2") = PErr EEof.
Proof. split; [reflexivity|]. split; [constructor; vm_compute; reflexivity|reflexivity]. Qed.

(* C03: the claim "reading never panics" is false ... *)
Theorem C03_reader_crash_refuted : exists s, parse s = PPanic.
Proof. exists (bs "$-2" ++ CRLF). vm_compute. reflexivity. Qed.
Print Assumptions C03_reader_crash_refuted.

(* ... and holds for all bytes not containing a bulk header of value -2.  (The
   reader always terminates: [parse] is total and never runs out of fuel.) *)
Theorem C03_reader_total_partial : forall s, ~ has_bad_bulk s ->
  (exists o r, parse s = POk o r) \/ parse s = PErr EEof \/ parse s = PErr EOther.
Proof. exact parse_total. Qed.
Print Assumptions C03_reader_total_partial.

Theorem C03_reader_terminates : forall s, parse s <> PFuel.
Proof. exact parse_nofuel. Qed.
Print Assumptions C03_reader_terminates.

Example C03_case : ~ has_bad_bulk (bs "+OK") /\ has_bad_bulk (bs "*1" ++ CRLF ++ bs "$-2" ++ CRLF).
Proof.
  split.
  - intros (a & n & b & H & _).
    assert (Hin : In "$"%char (bs "+OK")) by (rewrite H; apply in_or_app; right; left; reflexivity).
    vm_compute in Hin. intuition discriminate.
  - exists (bs "*1" ++ CRLF), (bs "-2"), []. split; [reflexivity|].
    exists ["-"%char], (bs "2"). split; [reflexivity|]. split; [discriminate|].
    split; [repeat constructor; vm_compute; discriminate|]. right. split; reflexivity.
Qed.

(* C04: whatever is read from any byte stream re-encodes to bytes that read back
   as the same object. *)
Theorem C04_reencode : forall s o r rest,
  Z.of_nat (List.length s) < 2 ^ 63 -> parse s = POk o r ->
  parse (encode o ++ rest) = POk o rest.
Proof. exact (fun s o r rest Hl Hp => parse_encode o rest (parse_obj_ok s o r Hl Hp)). Qed.
Print Assumptions C04_reencode.

(* an encoding that is not the canonical one *)
Example C04_case : parse (bs "*+1" ++ CRLF ++ bs ":+007" ++ CRLF) = POk (RArr [RInt 7]) []
  /\ encode (RArr [RInt 7]) <> bs "*+1" ++ CRLF ++ bs ":+007" ++ CRLF.
Proof. split; vm_compute; [reflexivity|discriminate]. Qed.

(* The reader consumes exactly the bytes of the object: later bytes do not
   influence it and no shorter input would have produced an object. *)
Theorem C02_read_local : forall s o r, parse s = POk o r ->
  exists u, s = u ++ r /\ (forall z, parse (u ++ z) = POk o z) /\
    (forall p q, u = p ++ q -> q <> [] -> parse p = PErr EEof).
Proof. exact parse_local. Qed.
Print Assumptions C02_read_local.

(* C05: decimal text and int64. *)
Theorem C05_format_parse : forall z, int64_ok z -> parse_int (format_int z) = Some z.
Proof. exact parse_format. Qed.
Print Assumptions C05_format_parse.

Theorem C05_parse_exact : forall s z, parse_int s = Some z <-> denotes s z /\ int64_ok z.
Proof. exact parse_int_spec. Qed.
Print Assumptions C05_parse_exact.

Theorem C05_format_denotes : forall z, denotes (format_int z) z.
Proof. exact format_int_denotes. Qed.
Print Assumptions C05_format_denotes.

(* ... and the text is the canonical one, which is unique. *)
Theorem C05_format_canonical : forall z s, canonical s z <-> s = format_int z.
Proof. exact format_int_iff. Qed.
Print Assumptions C05_format_canonical.

Example C05_case : format_int (- 2 ^ 63) = bs "-9223372036854775808"
  /\ parse_int (bs "9223372036854775808") = None /\ parse_int (bs "+") = None.
Proof. vm_compute. auto. Qed.
