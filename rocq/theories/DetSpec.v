(* C101: when two replies differ only by what the server may choose. *)
From Coq Require Import List Permutation.
From Verif Require Import Base Resp Command SpecDb RequestSpec.
Import ListNotations.

(* Two replies to the command: the same; or the same elements in another order, for the commands
   that enumerate; or as many elements, for the one that draws at random. *)
Definition pairs (l : list (robj * robj)) : list robj := flat_map (fun p => [fst p; snd p]) l.
Definition alike (c : cmd) (r r' : robj) : Prop :=
  r = r' \/
  match c with
  | CHkeys _ | CHvals _ | CSmembers _ | CSdiff _ | CSinter _ | CSunion _ => exists l l', r = RArr l /\ r' = RArr l' /\ Permutation l l'
  | CHgetall _ => exists l l', r = RArr (pairs l) /\ r' = RArr (pairs l') /\ Permutation l l'
  | CSrandmember _ _ true => exists l l', r = RArr l /\ r' = RArr l' /\ length l = length l'
  | CSrandmember _ _ false => exists x x', r = RBulk x /\ r' = RBulk x'
  | _ => False
  end.
(* Two answers to the request; the text of an internal error is not determined either. *)
Inductive match_reply (q : robj) : option robj -> option robj -> Prop :=
| m_none : match_reply q None None
| m_same r : match_reply q (Some r) (Some r)
| m_alike c r r' : asks q c -> alike c r r' -> match_reply q (Some r) (Some r')
| m_internal r r' : is_internal_error r -> is_internal_error r' -> match_reply q (Some r) (Some r').
Inductive match_replies : list robj -> list (option robj) -> list (option robj) -> Prop :=
| ms_nil : match_replies [] [] []
| ms_cons q l r rs r' rs' : match_reply q r r' -> match_replies l rs rs' -> match_replies (q :: l) (r :: rs) (r' :: rs').
