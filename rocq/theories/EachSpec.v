(* C104: what a command with several arguments is made of, and how its reply comes from theirs. *)
From Coq Require Import List ZArith.
From Verif Require Import Base Resp Command SpecDb RequestSpec.
Import ListNotations.
Open Scope Z_scope.

(* The commands that take the arguments one by one; none for the other commands. *)
Definition singly (c : cmd) : list cmd :=
  match c with
  | CMset ks vs => map (fun p => CSet (fst p) (snd p)) (combine ks vs)
  | CMget ks => map CGet ks
  | CExists ks => map (fun k => CExists [k]) ks
  | CLpush k vs => map (fun v => CLpush k [v]) vs
  | CRpush k vs => map (fun v => CRpush k [v]) vs
  | CHset k fs vs => map (fun p => CHset k [fst p] [snd p]) (combine fs vs)
  | CHmget k fs => map (fun f => CHmget k [f]) fs
  | CHdel k fs => map (fun f => CHdel k [f]) fs
  | CSadd k vs => map (fun v => CSadd k [v]) vs
  | CSrem k vs => map (fun v => CSrem k [v]) vs
  | _ => []
  end.
Definition counts (c : cmd) : Prop :=
  match c with CExists _ | CHset _ _ _ | CHdel _ _ | CSadd _ _ | CSrem _ _ => True | _ => False end.
Definition pushes (c : cmd) : Prop := match c with CLpush _ _ | CRpush _ _ => True | _ => False end.
Definition sum_of (l : list Z) : Z := fold_right Z.add 0 l.
(* OK for OKs; the array of the values; the sum of the numbers; the last length; or, of a push that
   is refused, errors. *)
Inductive joined : cmd -> list robj -> robj -> Prop :=
| j_mset ks vs rs : Forall (eq r_ok) rs -> joined (CMset ks vs) rs r_ok
| j_mget ks rs : joined (CMget ks) rs (RArr rs)
| j_hmget k fs rs : joined (CHmget k fs) (map (fun r => RArr [r]) rs) (RArr rs)
| j_sum c ns : counts c -> joined c (map RInt ns) (RInt (sum_of ns))
| j_last c rs n : pushes c -> joined c (rs ++ [RInt n]) (RInt n)
| j_refused c rs r : pushes c -> Forall is_internal_error rs -> is_internal_error r -> joined c rs r.
