(* C54, C55, C60: the command line client. *)
From Verif Require Import Base IntSpec IntParse Resp RespSpec Client ClientSpec ClientProofs.
From Coq Require Import ZArith List Ascii String Bool Lia.
Import ListNotations.
Open Scope Z_scope.

(* C54: the words typed are the words the server reads, in order, whatever spaces surround
   them, provided none of them is the empty string in quotes. *)
Theorem C54_typed_words_partial : forall l s rest, line l s -> (forall x, In x l -> text x <> []) ->
  (forall x, In x l -> blen (text x) < 2 ^ 63 - 2) -> Z.of_nat (List.length l) < 2 ^ 63 ->
  exists req, format_input s = Some req /\ parse (req ++ rest) = POk (RArr (List.map RBulk (List.map text l))) rest.
Proof. exact typed_received. Qed.
Print Assumptions C54_typed_words_partial.
(* Empty quoted strings are left out, and nothing else is. *)
Theorem C54_empty_dropped : forall l s, line l s ->
  format_input s = Some (Resp.encode (RArr (List.map RBulk (List.filter (fun w => negb (bytes_eqb w [])) (List.map text l))))).
Proof. exact typed_sent. Qed.
Print Assumptions C54_empty_dropped.
(* Every input is formatted, without an error. *)
Theorem C54_total : forall s, exists req, format_input s = Some req.
Proof. exact input_total. Qed.
Print Assumptions C54_total.
(* So the claim is false of SET k "". *)
Theorem C54_empty_word_refuted : exists l s, line l s /\ List.map text l = [bs "SET"; bs "k"; bs ""] /\
  exists req, format_input s = Some req /\ parse req = POk (RArr [RBulk (bs "SET"); RBulk (bs "k")]) [].
Proof.
  exists [Plain (bs "SET"); Plain (bs "k"); Quoted []], (bs "SET k """""). split; [|split; [reflexivity|]].
  - apply (line_cons 0 (Plain (bs "SET")) 0 _ (bs "k """"")); [cbn; intuition discriminate|].
    apply (line_cons 0 (Plain (bs "k")) 0 _ (bs """""")); [cbn; intuition discriminate|]. apply (line_last 0 (Quoted []) 0). exact (fun H => H).
  - eexists. split; [reflexivity|]. vm_compute. reflexivity.
Qed.
Print Assumptions C54_empty_word_refuted.
Example C54_case : line [Plain (bs "SET"); Quoted (bs "a key"); Plain (bs "v")] (bs "  SET  ""a key"" v ") /\
  format_input (bs "  SET  ""a key"" v ") = Some (Resp.encode (RArr [RBulk (bs "SET"); RBulk (bs "a key"); RBulk (bs "v")])).
Proof.
  split; [|reflexivity].
  apply (line_cons 2 (Plain (bs "SET")) 1 _ (bs """a key"" v ")); [cbn; intuition discriminate|].
  apply (line_cons 0 (Quoted (bs "a key")) 0 _ (bs "v ")); [cbn; intuition discriminate|].
  apply (line_last 0 (Plain (bs "v")) 1). cbn. intuition discriminate.
Qed.

(* C55: (nil) is shown exactly for the null bulk string, ... *)
Theorem C55_nil : forall o, format_output o = bs "(nil)" <-> o = RNullBulk.
Proof. exact show_nil. Qed.
Print Assumptions C55_nil.
(* ... an integer by its numeral, ... *)
Theorem C55_integer : forall z, exists t, format_output (RInt z) = bs "(integer) " ++ t /\ canonical t z.
Proof. exact show_int. Qed.
Print Assumptions C55_integer.
(* ... strings by their data in quotes, errors by their message, ... *)
Theorem C55_string : forall d, format_output (RBulk d) = """"%char :: d ++ [""""%char] /\ format_output (RSimple d) = """"%char :: d ++ [""""%char].
Proof. exact show_string. Qed.
Print Assumptions C55_string.
Theorem C55_error : forall d, format_output (RErr d) = bs "Server error: " ++ d.
Proof. exact show_error. Qed.
Print Assumptions C55_error.
(* ... and an array whose elements take one line each as one line per element, in order, each
   with its number. *)
Theorem C55_array : forall l, l <> [] -> (forall x, In x l -> ~ In LF (format_output x)) ->
  List.length (lines (format_output (RArr l))) = List.length l /\
  forall k x, nth_error l k = Some x -> exists t, canonical t (Z.of_nat k + 1) /\ nth_error (lines (format_output (RArr l))) k = Some (t ++ bs ") " ++ format_output x).
Proof. exact show_array. Qed.
Print Assumptions C55_array.
Example C55_case : lines (format_output (RArr [RBulk (bs "a"); RNullBulk; RInt (-3); RErr (bs "no")])) =
  [bs "1) ""a"""; bs "2) (nil)"; bs "3) (integer) -3"; bs "4) Server error: no"].
Proof. reflexivity. Qed.

(* C60: "different replies look different" is false: of [["a"], "b"] and [["a", "b"]] one sees
   the same; even flat arrays of strings can look alike. *)
Theorem C60_nested_refuted : exists a b, a <> b /\ obj_ok a /\ obj_ok b /\ format_output a = format_output b.
Proof.
  exists (RArr [RArr [RBulk (bs "a")]; RBulk (bs "b")]), (RArr [RArr [RBulk (bs "a"); RBulk (bs "b")]]).
  split; [discriminate|]. split; [repeat (constructor; try (vm_compute; reflexivity))|]. split; [repeat (constructor; try (vm_compute; reflexivity))|]. vm_compute. reflexivity.
Qed.
Print Assumptions C60_nested_refuted.
Theorem C60_flat_refuted : exists l m, l <> m /\ format_output (RArr (List.map RBulk l)) = format_output (RArr (List.map RBulk m)).
Proof. exists [bs "a"; bs "b"], [bs "a""" ++ LF :: bs "2) ""b"]. split; [discriminate|]. vm_compute. reflexivity. Qed.
Print Assumptions C60_flat_refuted.
(* Replies other than arrays do look different, but for the two kinds of string. *)
Theorem C60_scalar_partial : forall a b, scalar a -> scalar b -> (forall z, a = RInt z \/ b = RInt z -> int64_ok z) -> format_output a = format_output b -> same a b.
Proof. exact scalar_distinct. Qed.
Print Assumptions C60_scalar_partial.
Example C60_case : format_output (RBulk (bs "(nil)")) <> format_output RNullBulk /\ format_output (RErr (bs "x")) <> format_output (RBulk (bs "x")).
Proof. split; discriminate. Qed.
