(* What a user of the command line client should see. *)
From Verif Require Import Base Resp Engine Client ClientSpec Cli.
From Coq Require Import List Ascii Bool.
Import ListNotations.

(* The requests that [l] makes, each with whether it was typed: what is typed is the array of its
   words. *)
Inductive asked : list doing -> list (bool * (env * robj)) -> Prop :=
| asked_nil : asked [] []
| asked_typed e s items l h : line items s -> (forall x, In x items -> text x <> []) -> quits s = false -> asked l h ->
    asked (Typed e s :: l) ((true, (e, RArr (map RBulk (map text items)))) :: h)
| asked_others hs l h : asked l h -> asked (Others hs :: l) (map (fun x => (false, x)) hs ++ h).

(* The replies to what was typed, as shown. *)
Fixpoint seen (h : list (bool * (env * robj))) (rs : list (option robj)) : list screen :=
  match h, rs with
  | (true, _) :: h', Some r :: rs' => Shows (format_output r) :: seen h' rs'
  | _ :: h', _ :: rs' => seen h' rs'
  | _, _ => []
  end.
