(* pkg/util/util.go init and GetIP, pkg/util/uuid.go: what NewLog takes from the environment. *)
From Verif Require Import Base IntParse Quote.
From Coq Require Import ZArith List Ascii String Bool.
Import ListNotations.
Open Scope Z_scope.

(* net.IP: 4 or 16 bytes, or something else, nil included. *)
Definition ip := list Z.
Definition starts (p s : ip) : bool := if list_eq_dec Z.eq_dec (firstn (List.length p) s) p then true else false.
(* net/ip.go To4; None is nil. *)
Definition to4 (a : ip) : option ip :=
  if Nat.eqb (List.length a) 4 then Some a
  else if Nat.eqb (List.length a) 16 && starts [0; 0; 0; 0; 0; 0; 0; 0; 0; 0; 255; 255] a then Some (skipn 12 a)
  else None.
(* net/ip.go IsLoopback: 127.x.y.z or ::1. *)
Definition is_loopback (a : ip) : bool :=
  match to4 a with
  | Some b => hd 0 b =? 127
  | None => if list_eq_dec Z.eq_dec a [0; 0; 0; 0; 0; 0; 0; 0; 0; 0; 0; 0; 0; 0; 0; 1] then true else false
  end.
(* net/ip.go String of four bytes *)
Definition dotted (a : ip) : bytes := join (bs ".") (map format_int a).

(* A network interface: FlagUp, FlagLoopback, and Addrs(), None being an error.  An address is an
   *IPNet or an *IPAddr; one of another type has no IP. *)
Record iface := mkIface { if_up : bool; if_loop : bool; if_addrs : option (list (option ip)) }.
Fixpoint first_addr (l : list (option ip)) : option bytes :=
  match l with
  | [] => None
  | None :: l' => first_addr l'
  | Some a :: l' =>
      if is_loopback a then first_addr l'
      else match to4 a with None => first_addr l' | Some b => Some (dotted b) end
  end.
(* util.go:11-46 the loop of init; 10 is the value it leaves if it finds nothing. *)
Fixpoint find_addr (l : list iface) : bytes :=
  match l with
  | [] => bs "unknown"
  | i :: l' =>
      if negb (if_up i) then find_addr l'
      else if if_loop i then find_addr l'
      else match if_addrs i with
           | None => bs "unknown"
           | Some as_ => match first_addr as_ with Some t => t | None => find_addr l' end
           end
  end.
(* util.go:12-15, 84-88 GetIP; None is an error of net.Interfaces. *)
Definition get_ip (ifaces : option (list iface)) : bytes :=
  match ifaces with None => bs "unknown" | Some l => find_addr l end.

(* satori/go.uuid String: 16 bytes in hexadecimal, with four dashes. *)
Definition uuid_text (u : list Z) : bytes :=
  let h l := List.concat (map (hex 2) l) in
  h (firstn 4 u) ++ bs "-" ++ h (firstn 2 (skipn 4 u)) ++ bs "-" ++ h (firstn 2 (skipn 6 u)) ++ bs "-" ++
  h (firstn 2 (skipn 8 u)) ++ bs "-" ++ h (skipn 10 u).
(* uuid.go:15-24 GenNewUUID.  NewV4 and NewV1 are oracles: None is a panic; that of NewV4 is recovered. *)
Definition gen_uuid (v4 v1 : option (list Z)) : res bytes :=
  match v4 with
  | Some u => Ret (uuid_text u)
  | None => match v1 with Some u => Ret (uuid_text u) | None => Panic end
  end.
