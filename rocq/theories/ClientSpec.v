(* What a user types, and what they see. *)
From Verif Require Import Base.
From Coq Require Import List Ascii.
Import ListNotations.

(* A typed word, plain or in double quotes. *)
Inductive item := Plain (w : bytes) | Quoted (w : bytes).
Definition text (x : item) : bytes := match x with Plain w | Quoted w => w end.
Definition typed (x : item) : bytes := match x with Plain w => w | Quoted w => (""""%char :: w) ++ [""""%char] end.
Definition item_ok (x : item) : Prop :=
  match x with
  | Plain w => w <> [] /\ ~ In " "%char w /\ ~ In """"%char w
  | Quoted w => ~ In """"%char w end.

(* A line: words, separated by one or more spaces, with any spaces around. *)
Inductive line : list item -> bytes -> Prop :=
| line_nil n : line [] (repeat " "%char n)
| line_last n x k : item_ok x -> line [x] (repeat " "%char n ++ typed x ++ repeat " "%char k)
| line_cons n x k l s : item_ok x -> line l s -> line (x :: l) (repeat " "%char n ++ typed x ++ " "%char :: repeat " "%char k ++ s).

(* The lines of a text. *)
Fixpoint lines (s : bytes) : list bytes :=
  match s with
  | [] => [[]]
  | c :: s' => if Ascii.eqb c LF then [] :: lines s'
               else match lines s' with [] => [[c]] | x :: l => (c :: x) :: l end
  end.
