(* pkg/log/log.go FormatLog, with pkg/util/util.go QuoteJoin and strconv.Quote. *)
From Verif Require Import Base IntParse Utf8 Log.
From Coq Require Import ZArith List Ascii String Bool.
Import ListNotations.
Open Scope Z_scope.

(* unicode/utf8 DecodeRuneInString: the rune and its number of bytes; 65533 (RuneError) and 1 for
   bytes that encode none. *)
Definition bad_rune : Z := 65533.
Definition decode_rune (s : bytes) : Z * nat :=
  match s with
  | [] => (bad_rune, 0%nat)
  | a :: s1 =>
      if byteZ a <? 128 then (byteZ a, 1%nat)
      else if within 194 223 a then
        match s1 with b :: _ => if cont b then ((byteZ a - 192) * 64 + (byteZ b - 128), 2%nat) else (bad_rune, 1%nat) | _ => (bad_rune, 1%nat) end
      else if within 224 239 a then
        match s1 with
        | b :: c :: _ =>
            if within (if byteZ a =? 224 then 160 else 128) (if byteZ a =? 237 then 159 else 191) b && cont c
            then (((byteZ a - 224) * 64 + (byteZ b - 128)) * 64 + (byteZ c - 128), 3%nat) else (bad_rune, 1%nat)
        | _ => (bad_rune, 1%nat)
        end
      else if within 240 244 a then
        match s1 with
        | b :: c :: d :: _ =>
            if within (if byteZ a =? 240 then 144 else 128) (if byteZ a =? 244 then 143 else 191) b && cont c && cont d
            then ((((byteZ a - 240) * 64 + (byteZ b - 128)) * 64 + (byteZ c - 128)) * 64 + (byteZ d - 128), 4%nat) else (bad_rune, 1%nat)
        | _ => (bad_rune, 1%nat)
        end
      else (bad_rune, 1%nat)
  end.
(* unicode/utf8 EncodeRune *)
Definition encode_rune (r : Z) : bytes :=
  if r <? 128 then [byteOf r]
  else if r <? 2048 then [byteOf (192 + r / 64); byteOf (128 + r mod 64)]
  else if (1114111 <? r) || ((55296 <=? r) && (r <=? 57343)) then [byteOf 239; byteOf 191; byteOf 189]
  else if r <? 65536 then [byteOf (224 + r / 4096); byteOf (128 + r / 64 mod 64); byteOf (128 + r mod 64)]
  else [byteOf (240 + r / 262144); byteOf (128 + r / 4096 mod 64); byteOf (128 + r / 64 mod 64); byteOf (128 + r mod 64)].

(* What the library decides from its tables: strconv.IsPrint, an oracle; and whether DEL is written
   \x7f (Go 1.17 and later) or \u007f. *)
Record printing := mkPrinting { is_print : Z -> bool; del_short : bool }.

(* strconv/quote.go lowerhex and the writing of a number in n digits *)
Definition hex_digit (d : Z) : ascii := if d <? 10 then byteOf (48 + d) else byteOf (87 + d).
Fixpoint hex (n : nat) (r : Z) : bytes :=
  match n with O => [] | S m => hex m (r / 16) ++ [hex_digit (r mod 16)] end.
Definition BACKSLASH : ascii := "\"%char.
Definition DQUOTE : ascii := """"%char.
(* strconv/quote.go appendEscapedRune for the double quote, without ASCIIonly and graphicOnly *)
Definition escape (p : printing) (r : Z) : bytes :=
  if (r =? 34) || (r =? 92) then [BACKSLASH; byteOf r]
  else if is_print p r then encode_rune r
  else if r =? 7 then bs "\a" else if r =? 8 then bs "\b" else if r =? 12 then bs "\f" else if r =? 10 then bs "\n"
  else if r =? 13 then bs "\r" else if r =? 9 then bs "\t" else if r =? 11 then bs "\v"
  else if (r <? 32) || (del_short p && (r =? 127)) then bs "\x" ++ hex 2 r
  else if r <? 65536 then bs "\u" ++ hex 4 r
  else bs "\U" ++ hex 8 r.
(* strconv/quote.go appendQuotedWith: every round takes at least one byte. *)
Fixpoint quote_loop (p : printing) (fuel : nat) (s : bytes) : bytes :=
  match fuel, s with
  | S f, c :: _ =>
      let '(r, w) := decode_rune s in
      (if (Nat.eqb w 1) && (r =? bad_rune) then bs "\x" ++ hex 2 (byteZ c) else escape p r) ++ quote_loop p f (skipn w s)
  | _, _ => []
  end.
Definition quote (p : printing) (s : bytes) : bytes := [DQUOTE] ++ quote_loop p (List.length s) s ++ [DQUOTE].

(* util.go:90-99 QuoteJoin; strings.Join *)
Fixpoint join (sep : bytes) (l : list bytes) : bytes :=
  match l with [] => [] | [x] => x | x :: l' => x ++ sep ++ join sep l' end.
Definition quote_join (p : printing) (l : list bytes) (sep : bytes) : bytes := join sep (map (quote p) l).
(* log.go:49-51 FormatLog *)
Definition format_log (p : printing) (v : vlog) : bytes :=
  bs "VectexLog{id=" ++ v_id v ++ bs ", time=" ++ format_int (v_time v) ++ bs ", host=" ++ v_host v ++ bs ", name=" ++ v_name v ++
  bs ", index=" ++ format_int (v_index v) ++ bs ", arguments=[" ++ quote_join p (v_args v) (bs ",") ++ bs "], raw_request=" ++ quote p (v_raw v) ++ bs "}".
