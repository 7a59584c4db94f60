(* Which address is the host of a record. *)
From Verif Require Import Base Host.
From Coq Require Import ZArith List.
Import ListNotations.
Open Scope Z_scope.

(* The four bytes of an IPv4 address, itself or within IPv6. *)
Inductive v4 : ip -> ip -> Prop :=
| v4_short a b c d : v4 [a; b; c; d] [a; b; c; d]
| v4_mapped a b c d : v4 [0; 0; 0; 0; 0; 0; 0; 0; 0; 0; 255; 255; a; b; c; d] [a; b; c; d].
(* An address by which others may reach this machine. *)
Definition outer (x : option ip) (b : ip) : Prop := exists a, x = Some a /\ v4 a b /\ hd 0 b <> 127.
Definition none_outer (l : list (option ip)) : Prop := forall x b, In x l -> ~ outer x b.
Definition in_use (i : iface) : Prop := if_up i = true /\ if_loop i = false.
Definition readable (i : iface) : Prop := exists l, if_addrs i = Some l.
(* [has i b]: [b] is the first outer address of the interface. *)
Definition has (i : iface) (b : ip) : Prop :=
  exists l1 x l2, if_addrs i = Some (l1 ++ x :: l2) /\ none_outer l1 /\ outer x b.
Definition has_none (i : iface) : Prop := in_use i -> exists l, if_addrs i = Some l /\ none_outer l.
Definition ip_ok (b : ip) : Prop := Forall (fun z => 0 <= z < 256) b.
