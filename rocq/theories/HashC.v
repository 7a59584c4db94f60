(* pkg/container/hash.go and set.go. *)
From Verif Require Import Base StringC.
From Coq Require Import ZArith List Ascii Bool.
From stdpp Require Import gmap.
Open Scope Z_scope.

(* Go map iteration order: the n-th range loop of a command visits the keys in the
   order [ord n keys].  Theorems hold for every [ord] that permutes its input. *)
Definition orders := nat -> list bytes -> list bytes.

Definition iter_keys {A} (ord : orders) (n : nat) (m : gmap bytes A) : list bytes :=
  ord n (map fst (map_to_list m)).
(* for _, v := range m { ret = append(ret, v) } *)
Definition iter_vals {A} (ord : orders) (n : nat) (m : gmap bytes A) : list A :=
  omap (fun k => m !! k) (iter_keys ord n m).

(* hash.go:32-41.  An entry keeps the field's own container and the value. *)
Record hentry := mkHentry { he_key : strc; he_val : strc }.
Notation hashc := (gmap bytes hentry).

(* hash.go:62-82 Set: loop and result; None is ErrHashLengthNotMatch. *)
Fixpoint h_put (h : hashc) (ks vs : list strc) : hashc :=
  match ks, vs with
  | k :: ks', v :: vs' =>
      let h' :=
        match h !! s_data k with
        | None => <[s_data k := mkHentry k v]> h
        | Some e => <[s_data k := mkHentry (he_key e) v]> h
        end in
      h_put h' ks' vs'
  | _, _ => h
  end.
Definition h_len (h : hashc) : Z := Z.of_nat (size h).
Definition h_set (h : hashc) (ks vs : list strc) : option (hashc * Z) :=
  if Nat.eqb (length ks) (length vs) then
    let h' := h_put h ks vs in Some (h', h_len h' - h_len h)
  else None.

(* hash.go:84-96 Get. *)
Definition h_get (h : hashc) (ks : list strc) : list (option strc) :=
  map (fun k => he_val <$> h !! s_data k) ks.

(* hash.go:98-102 Exists. *)
Definition h_exists (h : hashc) (k : strc) : bool :=
  match h !! s_data k with Some _ => true | None => false end.

(* hash.go:104-115 Del. *)
Fixpoint h_del (h : hashc) (ks : list strc) : hashc * Z :=
  match ks with
  | [] => (h, 0)
  | k :: ks' =>
      match h !! s_data k with
      | Some _ => let '(h', n) := h_del (delete (s_data k) h) ks' in (h', 1 + n)
      | None => h_del h ks'
      end
  end.

(* hash.go:117-146 Keys, Values, Entries. *)
Definition h_keys (ord : orders) (n : nat) (h : hashc) : list strc := he_key <$> iter_vals ord n h.
Definition h_values (ord : orders) (n : nat) (h : hashc) : list strc := he_val <$> iter_vals ord n h.
Definition h_entries (ord : orders) (n : nat) (h : hashc) : list strc * list strc :=
  (he_key <$> iter_vals ord n h, he_val <$> iter_vals ord n h).

(* hash.go:148-156 KeyLen; None is ErrKeyNotExist. *)
Definition h_keylen (h : hashc) (k : strc) : option Z :=
  match h !! s_data k with Some e => Some (s_size (he_val e)) | None => None end.

(* ---- set.go ---- *)
Notation setc := (gmap bytes strc).

(* set.go:45-56 Add. *)
Fixpoint set_add (s : setc) (l : list strc) : setc * Z :=
  match l with
  | [] => (s, 0)
  | x :: l' =>
      match s !! s_data x with
      | None => let '(s', n) := set_add (<[s_data x := x]> s) l' in (s', 1 + n)
      | Some _ => set_add s l'
      end
  end.

(* set.go:58-69 Delete. *)
Fixpoint set_delete (s : setc) (l : list strc) : setc * Z :=
  match l with
  | [] => (s, 0)
  | x :: l' =>
      match s !! s_data x with
      | Some _ => let '(s', n) := set_delete (delete (s_data x) s) l' in (s', 1 + n)
      | None => set_delete s l'
      end
  end.

(* set.go:71-74 IsMember. *)
Definition set_is_member (s : setc) (x : strc) : bool :=
  match s !! s_data x with Some _ => true | None => false end.

(* set.go:76-84 Members. *)
Definition set_members (ord : orders) (n : nat) (s : setc) : list strc := iter_vals ord n s.

(* set.go:162-164 Len. *)
Definition set_len (s : setc) : Z := Z.of_nat (size s).

(* set.go:93-98, the loop of RandomMember: [if count--; count < 0 { break }]. *)
Fixpoint random_loop (count : Z) (l : list strc) : list strc :=
  match l with
  | [] => []
  | x :: l' => let c := wrap64 (count - 1) in if c <? 0 then [] else x :: random_loop c l'
  end.

(* set.go:86-101 RandomMember; negating the minimum int64 wraps to itself. *)
Definition set_random (ord : orders) (n : nat) (s : setc) (count : Z) : list strc :=
  random_loop (if count <? 0 then wrap64 (- count) else count) (set_members ord n s).

(* set.go:103-108 Pop. *)
Definition set_pop (ord : orders) (n : nat) (s : setc) (count : Z) : setc * list strc :=
  let ret := set_random ord n s count in (fst (set_delete s ret), ret).

(* set.go:110-128 Diff. *)
Fixpoint diff_loop (ord : orders) (n : nat) (ret : setc) (cs : list setc) : setc :=
  match cs with
  | [] => ret
  | c :: cs' =>
      let candidate := List.filter (set_is_member ret) (set_members ord n c) in
      diff_loop ord (S n) (fst (set_delete ret candidate)) cs'
  end.
Definition set_diff (ord : orders) (s : setc) (cs : list setc) : setc :=
  diff_loop ord 1 (fst (set_add ∅ (set_members ord 0 s))) cs.

(* set.go:130-149 Intersect. *)
Fixpoint inter_loop (ord : orders) (n : nat) (ret : setc) (cs : list setc) : setc :=
  match cs with
  | [] => ret
  | c :: cs' =>
      let candidate := List.filter (set_is_member ret) (set_members ord n c) in
      let ret' := fst (set_pop ord (S n) ret (set_len ret)) in
      inter_loop ord (S (S n)) (fst (set_add ret' candidate)) cs'
  end.
Definition set_inter (ord : orders) (s : setc) (cs : list setc) : setc :=
  inter_loop ord 1 (fst (set_add ∅ (set_members ord 0 s))) cs.

(* set.go:151-160 Union: the other sets first, then the receiver. *)
Fixpoint union_loop (ord : orders) (n : nat) (ret : setc) (cs : list setc) : setc :=
  match cs with
  | [] => ret
  | c :: cs' => union_loop ord (S n) (fst (set_add ret (set_members ord n c))) cs'
  end.
Definition set_union (ord : orders) (s : setc) (cs : list setc) : setc :=
  fst (set_add (union_loop ord 1 ∅ cs) (set_members ord 0 s)).
