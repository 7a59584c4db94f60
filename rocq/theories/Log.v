(* pkg/log/log.go, with the protobuf wire format of pkg/log/log.proto. *)
From Verif Require Import Base UtilIndex Resp Utf8.
From Coq Require Import ZArith List Ascii String Bool.
Import ListNotations.
Open Scope Z_scope.

(* log.pb.go:26-39 VertexLog; unknown fields are kept by the Go struct but used by
   nobody, and are left out. *)
Record vlog := mkVlog {
  v_id : bytes; v_time : Z; v_host : bytes; v_name : bytes; v_index : Z; v_args : list bytes; v_raw : bytes
}.
Definition empty_vlog : vlog := mkVlog [] 0 [] [] 0 [] [].

(* ---- protobuf wire format (google.golang.org/protobuf v1.23.0, encoding/protowire) ---- *)
(* AppendVarint of a uint64; ten bytes suffice. *)
Fixpoint put_varint (fuel : nat) (v : Z) : bytes :=
  match fuel with
  | O => []
  | S f => if v <? 128 then [byteOf v] else byteOf (v mod 128 + 128) :: put_varint f (v / 128)
  end.
Definition varint (v : Z) : bytes := put_varint 10 v.
(* ConsumeVarint: at most ten bytes, the tenth at most 1. *)
Fixpoint get_varint (n : nat) (b : bytes) : option (Z * bytes) :=
  match n, b with
  | S n', c :: b' =>
      if byteZ c <? 128 then
        match n' with O => if byteZ c <? 2 then Some (byteZ c, b') else None | _ => Some (byteZ c, b') end
      else
        match get_varint n' b' with
        | Some (v, r) => Some (byteZ c - 128 + 128 * v, r)
        | None => None
        end
  | _, _ => None
  end.
Definition consume_varint (b : bytes) : option (Z * bytes) := get_varint 10 b.
(* ConsumeBytes *)
Definition consume_bytes (b : bytes) : option (bytes * bytes) :=
  match consume_varint b with
  | Some (n, r) => if blen r <? n then None else Some (firstn (Z.to_nat n) r, skipn (Z.to_nat n) r)
  | None => None
  end.
Definition consume_fixed (n : nat) (b : bytes) : option bytes :=
  if (List.length b <? n)%nat then None else Some (skipn n b).

(* Field numbers: 1 .. 2^29-1 at the top level (impl/decode.go); 1 .. 2^31-1 inside a
   skipped group (protowire.ConsumeTag). *)
Definition put_tag (num typ : Z) : bytes := varint (num * 8 + typ).
Definition top_tag (b : bytes) : option (Z * Z * bytes) :=
  match consume_varint b with
  | Some (t, r) => if (t / 8 <? 1) || (2 ^ 29 - 1 <? t / 8) then None else Some (t / 8, t mod 8, r)
  | None => None
  end.
Definition inner_tag (b : bytes) : option (Z * Z * bytes) :=
  match consume_varint b with
  | Some (t, r) => if (t / 8 <? 1) || (2 ^ 31 - 1 <? t / 8) then None else Some (t / 8, t mod 8, r)
  | None => None
  end.

(* protowire.ConsumeFieldValue: skip a field of unknown meaning; [skip_group] is its
   loop for groups.  Returns what follows the field.  Every two
   calls consume a byte, so [skip_unknown] has enough fuel (LogProofs.skip_enough). *)
Fixpoint skip_field (fuel : nat) (num typ : Z) (b : bytes) : option bytes :=
  match fuel with
  | O => None
  | S f =>
      if typ =? 0 then match consume_varint b with Some (_, r) => Some r | None => None end
      else if typ =? 1 then consume_fixed 8 b
      else if typ =? 2 then match consume_bytes b with Some (_, r) => Some r | None => None end
      else if typ =? 3 then skip_group f num b
      else if typ =? 5 then consume_fixed 4 b
      else None
  end
with skip_group (fuel : nat) (num : Z) (b : bytes) : option bytes :=
  match fuel with
  | O => None
  | S f =>
      match inner_tag b with
      | None => None
      | Some (num2, typ2, r) =>
          if typ2 =? 4 then if num2 =? num then Some r else None
          else match skip_field f num2 typ2 r with Some r' => skip_group f num r' | None => None end
      end
  end.

(* ---- proto.Marshal of a VertexLog: fields in order, proto3 zero values left out,
   strings must be UTF-8; None is the error. ---- *)
Definition put_string (num : Z) (s : bytes) : bytes := put_tag num 2 ++ varint (blen s) ++ s.
Definition put_string_nz (num : Z) (s : bytes) : bytes := match s with [] => [] | _ => put_string num s end.
(* uint64(v) *)
Definition u64 (z : Z) : Z := z mod 2 ^ 64.
Definition put_int_nz (num z : Z) : bytes := if z =? 0 then [] else put_tag num 0 ++ varint (u64 z).
Definition marshal (v : vlog) : option bytes :=
  if valid_utf8 (v_id v) && valid_utf8 (v_host v) && valid_utf8 (v_name v) && forallb valid_utf8 (v_args v) && valid_utf8 (v_raw v)
  then Some (put_string_nz 1 (v_id v) ++ put_int_nz 2 (v_time v) ++ put_string_nz 3 (v_host v) ++ put_string_nz 4 (v_name v) ++
             put_int_nz 5 (v_index v) ++ List.concat (map (put_string 6) (v_args v)) ++ put_string_nz 255 (v_raw v))
  else None.

(* ---- proto.Unmarshal (impl/decode.go unmarshalPointer) ---- *)
Definition wrap32 (z : Z) : Z := (z + 2 ^ 31) mod 2 ^ 32 - 2 ^ 31.
Definition set_string (v : vlog) (num : Z) (s : bytes) : vlog :=
  if num =? 1 then mkVlog s (v_time v) (v_host v) (v_name v) (v_index v) (v_args v) (v_raw v)
  else if num =? 3 then mkVlog (v_id v) (v_time v) s (v_name v) (v_index v) (v_args v) (v_raw v)
  else if num =? 4 then mkVlog (v_id v) (v_time v) (v_host v) s (v_index v) (v_args v) (v_raw v)
  else if num =? 6 then mkVlog (v_id v) (v_time v) (v_host v) (v_name v) (v_index v) (v_args v ++ [s]) (v_raw v)
  else mkVlog (v_id v) (v_time v) (v_host v) (v_name v) (v_index v) (v_args v) s.
Definition set_int (v : vlog) (num x : Z) : vlog :=
  if num =? 2 then mkVlog (v_id v) (wrap64 x) (v_host v) (v_name v) (v_index v) (v_args v) (v_raw v)
  else mkVlog (v_id v) (v_time v) (v_host v) (v_name v) (wrap32 x) (v_args v) (v_raw v).
Definition is_string_field (num : Z) : bool :=
  (num =? 1) || (num =? 3) || (num =? 4) || (num =? 6) || (num =? 255).
Definition is_int_field (num : Z) : bool := (num =? 2) || (num =? 5).
Definition skip_unknown (num typ : Z) (b : bytes) : option bytes := skip_field (2 * List.length b + 2) num typ b.

(* One field: its value if the wire type fits, otherwise skipped.  A stray end-group
   marker is an error. *)
Definition unmarshal_field (v : vlog) (b : bytes) : option (vlog * bytes) :=
  match top_tag b with
  | None => None
  | Some (num, typ, r) =>
      if typ =? 4 then None
      else if is_string_field num && (typ =? 2) then
        match consume_bytes r with
        | Some (s, r') => if valid_utf8 s then Some (set_string v num s, r') else None
        | None => None
        end
      else if is_int_field num && (typ =? 0) then
        match consume_varint r with
        | Some (x, r') => Some (set_int v num x, r')
        | None => None
        end
      else match skip_unknown num typ r with Some r' => Some (v, r') | None => None end
  end.
Fixpoint unmarshal_loop (fuel : nat) (v : vlog) (b : bytes) : option vlog :=
  match b with
  | [] => Some v
  | _ =>
      match fuel with
      | O => None
      | S f => match unmarshal_field v b with Some (v', r) => unmarshal_loop f v' r | None => None end
      end
  end.
Definition unmarshal (b : bytes) : option vlog := unmarshal_loop (List.length b) empty_vlog b.

(* ---- log.go ---- *)
(* binary.LittleEndian.PutUint32(b, uint32(n)) and Uint32 *)
Definition le32 (n : Z) : bytes := [byteOf (n mod 256); byteOf (n / 256 mod 256); byteOf (n / 65536 mod 256); byteOf (n / 16777216 mod 256)].
Definition le32_value (b : bytes) : Z :=
  match b with
  | [a; b; c; d] => byteZ a + 256 * (byteZ b + 256 * (byteZ c + 256 * byteZ d))
  | _ => 0
  end.

(* log.go:29-47 NewLog; id, time and host come from the environment.  objects[1:] on an
   empty slice would panic, but handleRequest has checked the length. *)
Definition new_log (id : bytes) (time : Z) (host name : bytes) (index : Z) (objects : list robj) : vlog :=
  mkVlog id time host name (wrap32 index) (map encode (tl objects)) (encode (RArr objects)).

(* log.go:56-77 PackLog; None is an error. *)
Definition pack_log (v : vlog) : option bytes :=
  match marshal v with
  | None => None
  | Some [] => None
  | Some m => Some (le32 (blen m) ++ m)
  end.

(* log.go:116-145 readLog.  ReadExactBytes drops what it read on an error, so the length
   check at 119 never fires: a cut header is a plain EOF. *)
Inductive lres := LLog (v : vlog) (rest : bytes) | LEof | LUnexpected | LInvalid (rest : bytes).
Definition read_log (s : bytes) : lres :=
  match read_exact 4 s with
  | None => LEof
  | Some (h, s1) =>
      match read_exact (le32_value h) s1 with
      | None => LUnexpected
      | Some (m, s2) => match unmarshal m with Some v => LLog v s2 | None => LInvalid s2 end
      end
  end.

(* log.go:84-110 ParseLog: the records, and whether an error is returned with them.
   Every round consumes at least four bytes. *)
Fixpoint parse_loop (fuel : nat) (s : bytes) : list vlog * bool :=
  match fuel with
  | O => ([], true)
  | S f =>
      match read_log s with
      | LLog v r => let '(l, e) := parse_loop f r in (v :: l, e)
      | LInvalid r => parse_loop f r
      | LEof => ([], false)
      | LUnexpected => ([], true)
      end
  end.
Definition parse_log (s : bytes) : list vlog * bool := parse_loop (S (List.length s)) s.
