(* pkg/types/data_map.go: the three DataMap implementations. V is interface{}. *)
From Coq Require Import List Arith Bool ZArith String.
From Verif Require Import Lts RWLock.
From stdpp Require Import gmap strings.
Import ListNotations.
Local Open Scope Z_scope.

(* int32 arithmetic (two's complement). *)
Definition wrap32 (z : Z) : Z := (z + 2 ^ 31) mod 2 ^ 32 - 2 ^ 31.

Section DataMap.
  Context {V : Type}.

  (* The interface, 10-16; a (value, bool) pair is an option. *)
  Inductive op := OSet (k : string) (v : V) | OGet (k : string) | OHas (k : string) | ORemove (k : string) | OLen.
  Inductive res := RUnit | RGet (x : option V) | RHas (b : bool) | RLen (n : Z).

  (* simpleDataMap, 29-54: the methods on a Go map. *)
  Definition perform (o : op) (m : gmap string V) : gmap string V * res :=
    match o with
    | OSet k v => (<[k := v]> m, RUnit)
    | OGet k => (m, RGet (m !! k))
    | OHas k => (m, RHas (match m !! k with Some _ => true | None => false end))
    | ORemove k => (delete k m, RUnit)
    | OLen => (m, RLen (Z.of_nat (size m)))
    end.

  (* lockedDataMap, 69-104: Set and Remove take the write lock, the others the read lock. *)
  Definition writes (o : op) : bool := match o with OSet _ _ | ORemove _ => true | _ => false end.
  (* Which methods assign to or delete from the Go map: 73, 96. *)
  Definition mutates (o : op) : bool := match o with OSet _ _ | ORemove _ => true | OGet _ | OHas _ | OLen => false end.
  Definition locked_runs := RWLock.runs writes mutates perform.

  (* syncDataMap, 106-151. A sync.Map's Load, Store and Delete are atomic (its contract), as
     are AddInt32 and LoadInt32. EDo marks the access to the container (Len: to the size)
     that decides the result. *)
  Notation event := (RWLock.event op res).
  Inductive pc :=
  | PIdle | PSetHas (k : string) (v : V) | PSetAdd (k : string) (v : V) | PSetStore (k : string) (v : V)
  | PGet (k : string) | PHas (k : string) | PRmHas (k : string) | PRmDel (k : string) | PRmAdd (k : string) | PLen
  | PRet (o : op) (r : res) | PDone.
  Record state := mkM { m_map : gmap string V; m_size : Z; m_pc : nat -> pc }.
  Definition init : state := mkM ∅ 0 (fun _ => PIdle).
  Definition set_pc (s : state) i p := mkM (m_map s) (m_size s) (upd (m_pc s) i p).
  Definition start (o : op) : pc :=
    match o with OSet k v => PSetHas k v | OGet k => PGet k | OHas k => PHas k | ORemove k => PRmHas k | OLen => PLen end.
  Definition has (s : state) (k : string) : bool := match m_map s !! k with Some _ => true | None => false end.

  Inductive step : state -> option event -> state -> Prop :=
  | call s i o : m_pc s i = PIdle -> step s (Some (ECall i o)) (set_pc s i (start o))
  | ret s i o r : m_pc s i = PRet o r -> step s (Some (ERet i o r)) (set_pc s i PDone)
  (* Set, 120-126 *)
  | set_has s i k v : m_pc s i = PSetHas k v -> step s None (set_pc s i (if has s k then PSetStore k v else PSetAdd k v))
  | set_add s i k v : m_pc s i = PSetAdd k v -> step s None (mkM (m_map s) (wrap32 (m_size s + 1)) (upd (m_pc s) i (PSetStore k v)))
  | set_store s i k v : m_pc s i = PSetStore k v ->
      step s (Some (EDo i (OSet k v) RUnit)) (mkM (<[k := v]> (m_map s)) (m_size s) (upd (m_pc s) i (PRet (OSet k v) RUnit)))
  (* Get 129-131, Has 134-137 *)
  | get_load s i k : m_pc s i = PGet k ->
      step s (Some (EDo i (OGet k) (RGet (m_map s !! k)))) (set_pc s i (PRet (OGet k) (RGet (m_map s !! k))))
  | has_load s i k : m_pc s i = PHas k ->
      step s (Some (EDo i (OHas k) (RHas (has s k)))) (set_pc s i (PRet (OHas k) (RHas (has s k))))
  (* Remove, 141-146 *)
  | rm_has s i k : m_pc s i = PRmHas k -> has s k = true -> step s None (set_pc s i (PRmDel k))
  | rm_none s i k : m_pc s i = PRmHas k -> has s k = false ->
      step s (Some (EDo i (ORemove k) RUnit)) (set_pc s i (PRet (ORemove k) RUnit))
  | rm_del s i k : m_pc s i = PRmDel k ->
      step s (Some (EDo i (ORemove k) RUnit)) (mkM (delete k (m_map s)) (m_size s) (upd (m_pc s) i (PRmAdd k)))
  | rm_add s i k : m_pc s i = PRmAdd k ->
      step s None (mkM (m_map s) (wrap32 (m_size s - 1)) (upd (m_pc s) i (PRet (ORemove k) RUnit)))
  (* Len, 149-151 *)
  | len_load s i : m_pc s i = PLen ->
      step s (Some (EDo i OLen (RLen (m_size s)))) (set_pc s i (PRet OLen (RLen (m_size s)))).

  Definition sync_runs (tr : list event) (s : state) : Prop := exec step init tr s.
End DataMap.
Arguments op : clear implicits.
Arguments res : clear implicits.
Arguments pc : clear implicits.
Arguments state : clear implicits.
