(* Which bytes are a message of log.proto, and what it says: the protobuf encoding, without reference to a
   program that writes or reads it. *)
From Verif Require Import Base Utf8Spec Log.
From Coq Require Import ZArith List Ascii.
Import ListNotations.
Open Scope Z_scope.

(* A number in groups of 7 bits, lowest first; all bytes but the last have the high bit. *)
Inductive groups7 : bytes -> Z -> Prop :=
| g7_last c : byteZ c < 128 -> groups7 [c] (byteZ c)
| g7_more c b x : 128 <= byteZ c -> groups7 b x -> groups7 (c :: b) (byteZ c - 128 + 128 * x).
Definition int (b : bytes) (x : Z) : Prop := groups7 b x /\ (List.length b <= 10)%nat /\ x < 2 ^ 64.

(* The value of a field with a number and a wire type. *)
Inductive content := CInt (x : Z) | CText (s : bytes) | COther.
Inductive value : Z -> Z -> bytes -> content -> Prop :=
| w_int n b x : int b x -> value n 0 b (CInt x)
| w_64 n b : List.length b = 8%nat -> value n 1 b COther
| w_text n h s : int h (blen s) -> value n 2 (h ++ s) (CText s)
| w_group n b : group n b -> value n 3 b COther
| w_32 n b : List.length b = 4%nat -> value n 5 b COther
with group : Z -> bytes -> Prop :=
| g_end n t : int t (n * 8 + 4) -> group n t
| g_field n t m typ b c r : int t (m * 8 + typ) -> 1 <= m < 2 ^ 31 -> value m typ b c -> group n r -> group n (t ++ b ++ r).
Inductive message : bytes -> list (Z * content) -> Prop :=
| m_nil : message [] []
| m_field t n typ b c r fs : int t (n * 8 + typ) -> 1 <= n < 2 ^ 29 -> value n typ b c -> message r fs -> message (t ++ b ++ r) ((n, c) :: fs).

(* log.proto: what a field means; others mean nothing. *)
Definition take (v : vlog) (f : Z * content) : vlog :=
  match f with
  | (1, CText s) => mkVlog s (v_time v) (v_host v) (v_name v) (v_index v) (v_args v) (v_raw v)
  | (2, CInt x) => mkVlog (v_id v) (wrap64 x) (v_host v) (v_name v) (v_index v) (v_args v) (v_raw v)
  | (3, CText s) => mkVlog (v_id v) (v_time v) s (v_name v) (v_index v) (v_args v) (v_raw v)
  | (4, CText s) => mkVlog (v_id v) (v_time v) (v_host v) s (v_index v) (v_args v) (v_raw v)
  | (5, CInt x) => mkVlog (v_id v) (v_time v) (v_host v) (v_name v) (wrap32 x) (v_args v) (v_raw v)
  | (6, CText s) => mkVlog (v_id v) (v_time v) (v_host v) (v_name v) (v_index v) (v_args v ++ [s]) (v_raw v)
  | (255, CText s) => mkVlog (v_id v) (v_time v) (v_host v) (v_name v) (v_index v) (v_args v) s
  | _ => v
  end.
Definition meaning (fs : list (Z * content)) : vlog := fold_left take fs empty_vlog.
Definition text_field (n : Z) : Prop := In n [1; 3; 4; 6; 255].
Definition known (n : Z) : Prop := In n [1; 2; 3; 4; 5; 6; 255].
Definition texts_ok (fs : list (Z * content)) : Prop := forall n s, In (n, CText s) fs -> text_field n -> utf8 s.
Definition reads_as (m : bytes) (v : vlog) : Prop := exists fs, message m fs /\ texts_ok fs /\ v = meaning fs.

(* A log file: records, each behind its length in 4 bytes, lowest first.  [vs] are the records that are
   messages; the flag says that the file ends within one. *)
Inductive log_file : bytes -> list vlog -> bool -> Prop :=
| f_end s : blen s < 4 -> log_file s [] false
| f_cut a b c d s : blen s < byteZ a + 256 * byteZ b + 65536 * byteZ c + 16777216 * byteZ d -> log_file (a :: b :: c :: d :: s) [] true
| f_record a b c d m s v vs e : blen m = byteZ a + 256 * byteZ b + 65536 * byteZ c + 16777216 * byteZ d -> reads_as m v ->
    log_file s vs e -> log_file (a :: b :: c :: d :: m ++ s) (v :: vs) e
| f_bad a b c d m s vs e : blen m = byteZ a + 256 * byteZ b + 65536 * byteZ c + 16777216 * byteZ d -> (forall v, ~ reads_as m v) ->
    log_file s vs e -> log_file (a :: b :: c :: d :: m ++ s) vs e.
