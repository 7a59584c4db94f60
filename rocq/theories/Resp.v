(* RESP objects, their encoding, and the RESP reader.
   Models pkg/protocol/resp.go and pkg/protocol/reader.go. *)
From Verif Require Import Base IntParse.
From Coq Require Import ZArith List Ascii String Bool.
Import ListNotations.
Open Scope Z_scope.

(* pkg/protocol/resp.go:33-66 RedisObject and its implementations.
   A null bulk string is a redisString with data "" and the literal "$-1\r\n"
   (resp.go:100-107); a null array is a redisArray with nil data and "*-1\r\n"
   (resp.go:232-238).  The cached stringRep/byteRep are functions of the
   constructor arguments and are modelled by [encode]. *)
Inductive robj : Type :=
| RSimple (d : bytes)
| RBulk (d : bytes)
| RNullBulk
| RErr (d : bytes)
| RInt (z : Z)
| RArr (l : list robj)
| RNullArr.

(* String()/Byte() of an object: resp.go:78-86 (simple), 89-97 (bulk),
   100-107 (null bulk), 132-140 (error), 180-188 (integer), 213-229 (array),
   232-238 (null array). *)
Fixpoint encode (o : robj) : bytes :=
  match o with
  | RSimple d => "+"%char :: d ++ CRLF
  | RBulk d => "$"%char :: format_int (blen d) ++ CRLF ++ d ++ CRLF
  | RNullBulk => bs "$-1" ++ CRLF
  | RErr d => "-"%char :: d ++ CRLF
  | RInt z => ":"%char :: format_int z ++ CRLF
  | RArr l =>
      "*"%char :: format_int (Z.of_nat (List.length l)) ++ CRLF ++ List.concat (List.map encode l)
  | RNullArr => bs "*-1" ++ CRLF
  end.

(* Result of readToken: a token with the remaining input, end of file, or
   another error. *)
Inductive tres := TOk (t rest : bytes) | TEof | TErr.

Definition tcons (c : ascii) (r : tres) : tres :=
  match r with TOk t rest => TOk (c :: t) rest | TEof => TEof | TErr => TErr end.

(* reader.go:26-49 readToken.  Chunks ending in '\n' are read until a chunk ends
   in "\r\n"; a chunk of length <= 1 is an error; running out of input is EOF.
   [prev] is the byte before the current one within the current chunk, so
   "len(cur) <= 1" is [prev = None] and "cur[l-2] == '\r'" is [prev = Some CR].
   The bufio reader is modelled as the list of all bytes up to the end of the
   connection. *)
Fixpoint read_token (prev : option ascii) (s : bytes) : tres :=
  match s with
  | [] => TEof
  | c :: s' =>
      if byte_eqb c LF then
        match prev with
        | None => TErr
        | Some p =>
            if byte_eqb p CR then TOk [c] s'
            else tcons c (read_token None s')
        end
      else tcons c (read_token (Some c) s')
  end.

(* Errors of the reader: io.EOF wrapped by %w at every level, or anything else. *)
Inductive rerr := EEof | EOther.

(* [PFuel] is the model's own "out of fuel"; it is proved unreachable for [parse]. *)
Inductive pres (A : Type) : Type :=
| POk (a : A) (rest : bytes)
| PErr (e : rerr)
| PPanic
| PFuel.
Arguments POk {A} a rest.
Arguments PErr {A} e.
Arguments PPanic {A}.
Arguments PFuel {A}.

(* r.token[1 : l-2]: reader.go:84,89,109,114,126.  A token always ends in "\r\n"
   and starts with the type byte here, so l >= 3 and the slice cannot panic. *)
Definition tok_body (t : bytes) : bytes :=
  firstn (List.length t - 3) (skipn 1 t).

(* reader.go:51-70 readBytes: None is an error; otherwise the bytes read and the
   rest, or EOF. *)
Definition read_bytes (count : Z) (s : bytes) : pres bytes :=
  if count <? 0 then PErr EOther
  else if blen s <? count then PErr EEof
  else POk (firstn (Z.to_nat count) s) (skipn (Z.to_nat count) s).

(* reader.go:86-101, the bulk string case of readString.  [int(sLen) + 2] wraps;
   [r.token[:sLen]] panics when sLen is negative or exceeds the token. *)
Definition read_bulk (t r : bytes) : pres robj :=
  match parse_int (tok_body t) with
  | None => PErr EOther
  | Some n =>
      if n =? -1 then POk RNullBulk r
      else
        match read_bytes (wrap64 (n + 2)) r with
        | POk d r' =>
            if (n <? 0) || (blen d <? n) then PPanic
            else POk (RBulk (firstn (Z.to_nat n) d)) r'
        | PErr e => PErr e
        | PPanic => PPanic
        | PFuel => PFuel
        end
  end.

(* reader.go:148-165 readObject, with readString 80-105, readError 107-110,
   readInteger 112-120 inlined, and readArray 122-146.  [read_items] is the loop
   at reader.go:136-142; [i < int(aLen)] with aLen < 0 gives zero iterations. *)
Fixpoint read_object (fuel : nat) (s : bytes) : pres robj :=
  match fuel with
  | O => PFuel
  | S f =>
      match read_token None s with
      | TEof => PErr EEof
      | TErr => PErr EOther
      | TOk t r =>
          match t with
          | [] => PErr EOther
          | c :: _ =>
              if byte_eqb c "+"%char then POk (RSimple (tok_body t)) r
              else if byte_eqb c "$"%char then read_bulk t r
              else if byte_eqb c "-"%char then POk (RErr (tok_body t)) r
              else if byte_eqb c ":"%char then
                match parse_int (tok_body t) with
                | None => PErr EOther
                | Some z => POk (RInt z) r
                end
              else if byte_eqb c "*"%char then
                match parse_int (tok_body t) with
                | None => PErr EOther
                | Some n =>
                    if n =? -1 then POk RNullArr r
                    else
                      match read_items f n r with
                      | POk l r' => POk (RArr l) r'
                      | PErr e => PErr e
                      | PPanic => PPanic
                      | PFuel => PFuel
                      end
                end
              else PErr EOther
          end
      end
  end
with read_items (fuel : nat) (n : Z) (s : bytes) : pres (list robj) :=
  match fuel with
  | O => PFuel
  | S f =>
      if n <=? 0 then POk [] s
      else
        match read_object f s with
        | POk o r =>
            match read_items f (n - 1) r with
            | POk l r' => POk (o :: l) r'
            | PErr e => PErr e
            | PPanic => PPanic
            | PFuel => PFuel
            end
        | PErr e => PErr e
        | PPanic => PPanic
        | PFuel => PFuel
        end
  end.

(* reader.go:167-180 ReadObject / Parse. *)
Definition parse (s : bytes) : pres robj := read_object (S (List.length s)) s.
