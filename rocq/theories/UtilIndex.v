(* pkg/util: index and slice resolution, LexicalCompare, ReadExactBytes, Pipeline. *)
From Verif Require Import Base.
From Coq Require Import ZArith List Ascii Bool.
Import ListNotations.
Open Scope Z_scope.

(* pkg/util/index.go:16-22 Index.ResolveRaw. *)
Definition resolve_raw (i size : Z) : Z :=
  if i <? 0 then wrap64 (i + size) else i.

(* pkg/util/index.go:26-34 Index.Resolve. *)
Definition resolve (i size : Z) : Z :=
  let index := resolve_raw i size in
  if (index <? 0) || (size <=? index) then -1 else index.

(* pkg/util/index.go:61-73 Slice.Resolve (ResolveRaw 50-52 inlined). *)
Definition slice_resolve (l r size : Z) : Z * Z :=
  let left := resolve_raw l size in
  let right := resolve_raw r size in
  if (left <? 0) || (right <? 0) || (size <=? left) || (right <? left) then (-1, -1)
  else (left, if size <=? right then size - 1 else right).

(* pkg/util/util.go:53-77 LexicalCompare.  [idx] is the loop counter; running out
   of one of the strings is leaving the loop at min(lhsLen, rhsLen). *)
Fixpoint lexical_loop (idx : Z) (lhs rhs : bytes) : option Z :=
  match lhs, rhs with
  | a :: l', b :: r' =>
      if byteZ a <? byteZ b then Some (- idx - 1)
      else if byteZ b <? byteZ a then Some (idx + 1)
      else lexical_loop (idx + 1) l' r'
  | _, _ => None
  end.

Definition lexical_compare (lhs rhs : bytes) : Z :=
  match lexical_loop 0 lhs rhs with
  | Some v => v
  | None =>
      if blen lhs =? blen rhs then 0
      else if blen lhs <? blen rhs then - blen lhs
      else blen rhs
  end.

(* pkg/util/util.go:103-116 ReadExactBytes on a byte stream; None is an error
   (io.EOF); the bytes already read are lost with the error. *)
Definition read_exact (n : Z) (s : bytes) : option (bytes * bytes) :=
  if n <=? 0 then Some ([], s)
  else if blen s <? n then None
  else Some (firstn (Z.to_nat n) s, skipn (Z.to_nat n) s).

(* pkg/util/pipeline.go:33-43 Run.  A handler returns the next context and an
   optional error; [run_pipeline] also returns the list of contexts each invoked
   handler was given, so that "which handlers ran" is observable. *)
Section Pipeline.
  Variables C Er : Type.
  Fixpoint run_pipeline (hs : list (C -> C * option Er)) (ctx : C)
    : (C * option Er) * list C :=
    match hs with
    | [] => ((ctx, None), [])
    | h :: hs' =>
        let '(ctx', err) := h ctx in
        match err with
        | Some e => ((ctx', Some e), [ctx])
        | None =>
            let '(r, tr) := run_pipeline hs' ctx' in (r, ctx :: tr)
        end
    end.
End Pipeline.
Arguments run_pipeline {C Er} hs ctx.
