(* Property theorems C11, C48, C50: pkg/util. *)
From Verif Require Import Base IndexSpec UtilIndex UtilIndexProofs.
From Coq Require Import ZArith List Ascii String Bool Lia.
Import ListNotations.
Open Scope Z_scope.

(* C11: index resolution. [position] is what the index means. *)
Theorem C11_index : forall i size, int64_ok i -> 0 <= size < 2 ^ 63 ->
  resolve i size = (if (0 <=? position i size) && (position i size <? size) then position i size else -1).
Proof. exact resolve_spec. Qed.
Print Assumptions C11_index.

Theorem C11_slice : forall l r size, int64_ok l -> int64_ok r -> 0 <= size < 2 ^ 63 ->
  let a := position l size in let b := position r size in
  ((0 <= a /\ a < size /\ a <= b) -> slice_resolve l r size = (a, Z.min b (size - 1))) /\
  (~ (0 <= a /\ a < size /\ a <= b) -> slice_resolve l r size = (-1, -1)).
Proof. exact slice_resolve_spec. Qed.
Print Assumptions C11_slice.

Example C11_case : resolve (-2) 5 = 3 /\ resolve (-6) 5 = -1 /\ slice_resolve (-3) 100 5 = (2, 4)
  /\ slice_resolve 3 2 5 = (-1, -1).
Proof. vm_compute. auto. Qed.

(* C48: the pipeline.  [feeds hs c tr out]: every handler of [hs] succeeds, the
   inputs they see are [tr], the final context is [out]. *)
Theorem C48_pipeline : forall (C Er : Type) (hs : list (C -> C * option Er)) ctx,
  (exists tr out, feeds C Er hs ctx tr out /\ run_pipeline hs ctx = ((out, None), tr)) \/
  (exists pre h post tr mid out e, hs = pre ++ h :: post /\ feeds C Er pre ctx tr mid /\
     h mid = (out, Some e) /\ run_pipeline hs ctx = ((out, Some e), tr ++ [mid])).
Proof. exact pipeline_spec. Qed.
Print Assumptions C48_pipeline.

Example C48_case :
  run_pipeline [fun x => (x + 1, None); fun x => (x * 2, Some true); fun x => (0, None)] 4
  = ((10, Some true), [4; 5]).
Proof. reflexivity. Qed.

(* C50: false when exactly one string is empty ... *)
Theorem C50_lexical_compare_refuted : exists l r, lex_lt l r /\ lexical_compare l r = 0 /\ lexical_compare r l = 0.
Proof. exists [], (bs "a"). split; [constructor|]. split; reflexivity. Qed.
Print Assumptions C50_lexical_compare_refuted.

(* ... and true of every other pair. *)
Theorem C50_lexical_compare_partial : forall l r, (l = [] <-> r = []) ->
  (lexical_compare l r < 0 <-> lex_lt l r) /\
  (lexical_compare l r = 0 <-> l = r) /\
  (0 < lexical_compare l r <-> lex_lt r l).
Proof. exact lexical_compare_spec. Qed.
Print Assumptions C50_lexical_compare_partial.

(* The magnitude is the one-based position of the first difference. *)
Theorem C50_position : forall a x y p q, byteZ x < byteZ y ->
  lexical_compare (a ++ x :: p) (a ++ y :: q) = - (blen a + 1) /\
  lexical_compare (a ++ y :: q) (a ++ x :: p) = blen a + 1.
Proof. exact lexical_compare_position. Qed.
Print Assumptions C50_position.

Example C50_case : lexical_compare (bs "abc") (bs "abd") = -3 /\ lexical_compare (bs "ab") (bs "abd") = -2
  /\ lex_lt (bs "ab") (bs "abd").
Proof. split; [reflexivity|]. split; [reflexivity|]. do 2 apply lex_tail; constructor. Qed.
