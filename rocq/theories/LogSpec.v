(* What a log record is, independently of its wire format. *)
From Verif Require Import Base Resp Utf8Spec Log.
From Coq Require Import ZArith List Ascii Bool.
Import ListNotations.
Open Scope Z_scope.

(* a record whose fields are in the range of their Go types and whose texts are UTF-8 *)
Definition record_texts (v : vlog) : list bytes := v_id v :: v_host v :: v_name v :: v_raw v :: v_args v.
Definition record_utf8 (v : vlog) : Prop := Forall utf8 (record_texts v).
Definition record_ok (v : vlog) : Prop :=
  record_utf8 v /\ int64_ok (v_time v) /\ - 2 ^ 31 <= v_index v < 2 ^ 31 /\ v <> empty_vlog.
(* the total size of its texts, and 20 bytes of overhead for each *)
Fixpoint texts_size (l : list bytes) : Z := match l with [] => 0 | s :: l' => 20 + blen s + texts_size l' end.
Definition record_size (v : vlog) : Z := 40 + texts_size (record_texts v).
(* [b] is the packed form of [v], whose message length fits the 4-byte header *)
Definition packed (v : vlog) (b : bytes) : Prop := record_ok v /\ pack_log v = Some b /\ blen b < 2 ^ 32 + 4.
(* the bytes of a record, if it can be packed *)
Definition pack (v : vlog) : bytes := match pack_log v with Some b => b | None => [] end.
