(* pkg/concurrency/event_bus.go 125-222: the table of topics under its RWMutex. What happens on
   the topic itself (publishing, subscribing) is Topic.v; here only whether the call finds the
   topic. RemoveTopic (198-212) distributes the removal event while it holds the write lock;
   that time is the duration of its access in RWLock.v. *)
From Coq Require Import List Bool String.
From Verif Require Import Lts RWLock.
From stdpp Require Import gmap strings.
Import ListNotations.

Inductive op := BPublish (t : string) | BSubscribe (t : string) | BNew (t : string) | BRemove (t : string) | BExist (t : string).
(* the call reached the topic, ErrNoSuchTopic, or the returned bool *)
Inductive res := RTopic | RNoSuchTopic | RBool (b : bool).
Definition has (t : string) (m : gset string) : bool := if decide (t ∈ m) then true else false.
Definition perform (o : op) (m : gset string) : gset string * res :=
  match o with
  | BPublish t | BSubscribe t => (m, if has t m then RTopic else RNoSuchTopic) (* 131-180 *)
  | BNew t => if has t m then (m, RBool false) else ({[t]} ∪ m, RBool true) (* 183-196 *)
  | BRemove t => if has t m then (m ∖ {[t]}, RBool true) else (m, RBool false) (* 198-212 *)
  | BExist t => (m, RBool (has t m)) (* 214-221 *)
  end.
Definition writes (o : op) : bool := match o with BNew _ | BRemove _ => true | _ => false end.
(* Which methods assign to or delete from the Go map: 193, 209. *)
Definition mutates (o : op) : bool := match o with BNew _ | BRemove _ => true | BPublish _ | BSubscribe _ | BExist _ => false end.
Definition bus_runs := RWLock.runs writes mutates perform.
