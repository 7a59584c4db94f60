(* The command line client's codec: cmd/client/internal/codec.go. *)
From Verif Require Import Base IntParse Resp.
From Coq Require Import ZArith List Ascii String Bool.
Import ListNotations.
Open Scope Z_scope.

Definition QUOTE : ascii := """"%char.
Definition SPACE : ascii := " "%char.

(* The result of parseString and parseQuote: the string, whether the error is io.EOF (a
   strings.Reader gives no other error), and what is left to read. *)
Record token := mkTok { t_text : bytes; t_eof : bool; t_rest : bytes }.

(* codec.go:63-77 parseQuote.  [buf] is what is in the buffer, in order. *)
Fixpoint parse_quote (buf s : bytes) : token :=
  match s with
  | [] => mkTok [] true []                                (* 67-68: return "", e *)
  | c :: s' => if byte_eqb c QUOTE then mkTok buf false s' (* 69-70, 76 *)
               else parse_quote (buf ++ [c]) s'           (* 73 *)
  end.

(* codec.go:40-61 parseString. *)
Fixpoint parse_string (buf s : bytes) : token :=
  match s with
  | [] => mkTok buf true []                               (* 45-46 *)
  | c :: s' => if byte_eqb c QUOTE then parse_quote [] s'  (* 51-52: the buffer is dropped *)
               else if byte_eqb c SPACE then mkTok buf false s' (* 53-54, 60 *)
               else parse_string (buf ++ [c]) s'          (* 57 *)
  end.

(* codec.go:18-35, the loop of FormatInput: the elements of arr.  Out of fuel is [None]; proved
   not to happen for [format_words]. *)
Fixpoint words_loop (fuel : nat) (s : bytes) : option (list bytes) :=
  match fuel with
  | O => None
  | S f =>
      let t := parse_string [] s in
      let here := match t_text t with [] => [] | w => [w] end in (* 23-25, 32-34 *)
      if t_eof t then Some here                                  (* 26 *)
      else match words_loop f (t_rest t) with Some l => Some (here ++ l) | None => None end
  end.
Definition format_words (s : bytes) : option (list bytes) := words_loop (S (List.length s)) s.
(* codec.go:14-38 FormatInput; the error return at 28 is unreachable here. *)
Definition format_input (s : bytes) : option bytes :=
  match format_words s with Some l => Some (encode (RArr (List.map RBulk l))) | None => None end.

(* strings.Join *)
Fixpoint join (sep : bytes) (l : list bytes) : bytes :=
  match l with [] => [] | [x] => x | x :: l' => x ++ sep ++ join sep l' end.

(* codec.go:98-104 formatString; [d] is Data(). *)
Definition format_string (o : robj) (d : bytes) : bytes :=
  if bytes_eqb (encode o) (bs "$-1" ++ CRLF) then bs "(nil)" else QUOTE :: d ++ [QUOTE].
(* codec.go:79-96 FormatOutput, with formatError 106-108, formatInteger 110-112 and formatArray
   114-126 inlined.  The nil object and unknown types (80-82, 93-94) are not in [robj]. *)
Fixpoint format_output (o : robj) : bytes :=
  match o with
  | RSimple d | RBulk d => format_string o d
  | RNullBulk => format_string o []
  | RErr d => bs "Server error: " ++ d
  | RInt z => bs "(integer) " ++ format_int z
  | RArr l =>
      if bytes_eqb (encode o) (bs "*-1" ++ CRLF) then bs "(empty list or set)"
      else join [LF] ((fix items (i : Z) (l : list robj) : list bytes :=
             match l with [] => [] | x :: l' => (format_int (i + 1) ++ bs ") " ++ format_output x) :: items (i + 1) l' end) 0 l)
  | RNullArr => if bytes_eqb (encode o) (bs "*-1" ++ CRLF) then bs "(empty list or set)" else []
  end.
