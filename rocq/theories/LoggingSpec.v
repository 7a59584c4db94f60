(* What a log should hold: the levels by name and in order, and templates as lists of pieces. *)
From Coq Require Import List Ascii String.
From Verif Require Import Base Logging.
Import ListNotations.

Definition named (t : bytes) (l : level) : Prop :=
  In (t, l) [(bs "DEBUG", LDebug); (bs "INFO", LInfo); (bs "WARN", LWarn); (bs "ERROR", LError); (bs "FATAL", LFatal)].
(* m is as severe as l, or more *)
Definition at_least (l m : level) : Prop :=
  exists x y, [LDebug; LInfo; LWarn; LError; LDPanic; LPanic; LFatal] = x ++ l :: y /\ In m (l :: y).

(* A template: plain text and places for strings. *)
Inductive piece := Plain (b : bytes) | Hole.
Fixpoint quoted (b : bytes) : bytes := match b with [] => [] | x :: b' => if Ascii.eqb x "%" then "%"%char :: "%"%char :: quoted b' else x :: quoted b' end.
Definition template (l : list piece) : bytes := flat_map (fun p => match p with Plain b => quoted b | Hole => bs "%s" end) l.
Fixpoint filled (l : list piece) (args : list bytes) : bytes :=
  match l, args with
  | [], _ => []
  | Plain b :: l', _ => b ++ filled l' args
  | Hole :: l', a :: args' => a ++ filled l' args'
  | Hole :: l', [] => filled l' []
  end.
Fixpoint holes (l : list piece) : nat := match l with [] => 0 | Plain _ :: l' => holes l' | Hole :: l' => S (holes l') end.
(* The same with a mark in every hole after the first. *)
Fixpoint marked (l : list piece) : bytes := match l with [] => [] | Plain b :: l' => b ++ marked l' | Hole :: l' => bs "%!s(MISSING)" ++ marked l' end.
Fixpoint first_only (l : list piece) (a : bytes) : bytes := match l with [] => [] | Plain b :: l' => b ++ first_only l' a | Hole :: l' => a ++ marked l' end.
(* A list of texts in brackets, one space between them. *)
Definition listed (l : list bytes) : bytes := bs "[" ++ tl (List.concat (map (cons " "%char) l)) ++ bs "]".
(* Arguments that no place took, as they are shown at the end of a message. *)
Definition unused (l : list bytes) : bytes := bs "%!(EXTRA " ++ skipn 2 (List.concat (map (fun b => bs ", string=" ++ b) l)) ++ bs ")".
(* The template with what arguments there are; a mark in each place that has none. *)
Fixpoint partly (l : list piece) (args : list bytes) : bytes :=
  match l, args with
  | [], _ => []
  | Plain b :: l', _ => b ++ partly l' args
  | Hole :: l', a :: args' => a ++ partly l' args'
  | Hole :: l', [] => bs "%!s(MISSING)" ++ partly l' []
  end.
