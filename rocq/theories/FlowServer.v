(* The server of Server.v over connections with limited room (Flow.v): every client takes the
   bytes sent to it when it likes, or not at all. *)
From Coq Require Import List Arith Bool.
From Verif Require Import Base Lts Conn Flow Server RestSpec.
Import ListNotations.

Definition state : Type := (Server.state * (nat -> flow))%type.
Inductive event :=
| VServer (e : Server.event)
| VFlow (c : nat) (a : Flow.event). (* on connection c *)
Inductive step (clean : bool) (cap : nat) : state -> option event -> state -> Prop :=
| srv s f l s' : Server.step clean s l s' -> (forall c, calm (s_conn s c) (s_conn s' c) (f c)) -> step clean cap (s, f) (option_map VServer l) (s', f)
| net_move s f c a w : s_crash s = false -> s_rd s c <> RNone -> moves cap (s_conn s c) (f c) a w -> step clean cap (s, f) (Some (VFlow c a)) (s, upd f c w)
| net_end s f c l u w : s_crash s = false -> s_rd s c <> RNone -> ends (s_conn s c) (f c) l u w ->
    step clean cap (s, f) (option_map (VFlow c) l) (put_conn s c u, upd f c w).
Definition runs (clean : bool) (cap : nat) d input (tr : list event) (x : state) : Prop :=
  exec (step clean cap) (Server.init d input, fun _ => no_flow) tr x.

(* What a run shows to the server of Server.v, and what the peer of connection c has taken. *)
Definition on_server (a : event) : list Server.event :=
  match a with VServer e => [e] | VFlow c a => map (SConn c) (Flow.on_conn a) end.
Definition server_trace (tr : list event) : list Server.event := flat_map on_server tr.
Definition taken_of (c : nat) (a : event) : bytes := match a with VFlow c' a => if Nat.eqb c' c then Flow.taken_of a else [] | _ => [] end.
Definition taken (c : nat) (tr : list event) : bytes := flat_map (taken_of c) tr.

(* What a client or the network does to the bytes on their way comes from outside, like the rest
   of RestSpec.outside. *)
Definition peer_does (a : Flow.event) : Prop := match a with FGot _ | FBreak _ _ => True | _ => False end.
Definition own (clean : bool) (cap : nat) (x : state) (l : option event) (y : state) : Prop :=
  step clean cap x l y /\
  match l with
  | Some (VFlow _ a) => ~ peer_does a
  | Some (VServer e) => ~ outside (fst x) (Some e) (fst y)
  | None => ~ outside (fst x) None (fst y)
  end.
Definition rests (clean : bool) (cap : nat) (x : state) : Prop := forall l y, ~ own clean cap x l y.
