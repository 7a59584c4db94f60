(* pkg/container/sorted_set.go: the skip list.  Nodes live in a heap (address -> node); address 0
   is sl.head, 1 is sl.tail.  Scores are IEEE binary64 numbers (Coq's SpecFloat, prec 53, emax
   1024).  Entries are *StringContainer in Go; here they are their String() value, which assumes
   that the caller does not change a container it handed over.  Spans and ranks are unbounded
   integers (they are bounded by the number of inserts). *)
From Coq Require Import ZArith List Bool SpecFloat.
From Verif Require Import Base Lts StringC UtilIndex.
Import ListNotations.
Open Scope Z_scope.

(* sorted_set.go:10-13 (maxLevel, scaleFactor) *)
Definition max_level : nat := 32.
Definition scale_factor : Z := 4.
(* float64 comparison < and ==, and +; NaN compares false. *)
Definition float := spec_float.
Definition f_lt (a b : float) : bool := SFltb a b.
Definition f_eq (a b : float) : bool := SFeqb a b.
Definition f_add (a b : float) : float := SFadd 53 1024 a b.
(* math.MaxFloat64 *)
Definition max_float : float := S754_finite false 9007199254740991 971.

(* sorted_set.go:52-62 (skipListLevel: node, span; skipListNode).  data = None is the nil pointer. *)
Record node := Node { n_score : float; n_data : option bytes; n_next : list (nat * Z); n_prev : option nat }.
(* sorted_set.go:73-79 (skipList).  The Go map is a list of its (key, node) entries. *)
Record zset := ZSet { z_heap : nat -> node; z_fresh : nat; z_level : nat; z_set : list (bytes * nat) }.
Definition head : nat := 0.
Definition tail : nat := 1.

(* Map access, delete, and len (Go built-ins). *)
Fixpoint find_key (m : bytes) (l : list (bytes * nat)) : option nat :=
  match l with [] => None | (k, a) :: l' => if bytes_eqb m k then Some a else find_key m l' end.
Definition drop_key (m : bytes) (l : list (bytes * nat)) : list (bytes * nat) := List.filter (fun e => negb (bytes_eqb m (fst e))) l.
(* sorted_set.go:362-364 (Len) *)
Definition z_len (z : zset) : Z := Z.of_nat (List.length (z_set z)).

(* a.next[level]; index out of range panics. *)
Definition at_ (h : nat -> node) (a level : nat) : res (nat * Z) :=
  match nth_error (n_next (h a)) level with Some x => Ret x | None => Panic end.
Fixpoint set_nth {A} (l : list A) (i : nat) (x : A) : list A :=
  match l, i with [], _ => [] | _ :: l', O => x :: l' | y :: l', S i' => y :: set_nth l' i' x end.
(* a.next[level] = x, where the index was just checked. *)
Definition set_next (h : nat -> node) (a level : nat) (x : nat * Z) : nat -> node :=
  upd h a (Node (n_score (h a)) (n_data (h a)) (set_nth (n_next (h a)) level x) (n_prev (h a))).
(* a.next = append(a.next, x) *)
Definition push_next (h : nat -> node) (a : nat) (x : nat * Z) : nat -> node :=
  upd h a (Node (n_score (h a)) (n_data (h a)) (n_next (h a) ++ [x]) (n_prev (h a))).
(* a.prev = p *)
Definition set_prev (h : nat -> node) (a : nat) (p : option nat) : nat -> node :=
  upd h a (Node (n_score (h a)) (n_data (h a)) (n_next (h a)) p).

(* sorted_set.go:81-92 (getRandomLevel), given the numbers the generator returns (not negative);
   NoFuel if they all ask for one level more. *)
Fixpoint random_level (level : nat) (draws : list Z) : res nat :=
  match draws with
  | [] => NoFuel
  | r :: draws' => if Z.rem r scale_factor =? 0 then random_level (S level) draws'
                   else Ret (if (max_level <? level)%nat then max_level else level)
  end.
Definition get_random_level (draws : list Z) : res nat := random_level 1 draws.

(* sorted_set.go:114-119, the inner loop of insert: go on while the next node is before
   (score, entry).  A released node has no data to compare. *)
Fixpoint seek (fuel : nat) (h : nat -> node) (level : nat) (score : float) (entry : bytes) (cur : nat) (rank : Z) : res (nat * Z) :=
  match fuel with
  | O => NoFuel
  | S f =>
    let! (nx, span) := at_ h cur level in
    if (nx =? tail)%nat then Ret (cur, rank)
    else if f_lt (n_score (h nx)) score then seek f h level score entry nx (rank + span)
    else if f_eq (n_score (h nx)) score then
      match n_data (h nx) with
      | None => Panic
      | Some d => if lexical_compare d entry <? 0 then seek f h level score entry nx (rank + span) else Ret (cur, rank)
      end
    else Ret (cur, rank)
  end.
(* sorted_set.go:107-122: from the top level down; update and rank, indexed by level. *)
Fixpoint descend (level : nat) (fuel : nat) (h : nat -> node) (score : float) (entry : bytes) (cur : nat) (rank : Z) : res (list (nat * Z)) :=
  match level with
  | O => Ret []
  | S l =>
    let! (c, r) := seek fuel h l score entry cur rank in
    let! us := descend l fuel h score entry c r in
    Ret (us ++ [(c, r)])
  end.
(* sorted_set.go:127-131: levels level .. level + n - 1 start at the head. *)
Fixpoint raise (n level : nat) (h : nat -> node) (len : Z) : res (nat -> node) :=
  match n with
  | O => Ret h
  | S n' => let! (nx, _) := at_ h head level in raise n' (S level) (set_next h head level (nx, len)) len
  end.
(* sorted_set.go:158-165: link cur behind update[level] on every level. *)
Fixpoint link (us : list (nat * Z)) (level : nat) (h : nat -> node) (cur : nat) (rank0 : Z) : res (nat -> node) :=
  match us with
  | [] => Ret h
  | (u, r) :: us' =>
    let! (nx, span) := at_ h u level in
    link us' (S level) (set_next (push_next h cur (nx, span - (rank0 - r))) u level (cur, rank0 - r + 1)) cur rank0
  end.
(* sorted_set.go:169-171: one more node is skipped above newLevel. *)
Fixpoint bump (us : list (nat * Z)) (level : nat) (h : nat -> node) : res (nat -> node) :=
  match us with
  | [] => Ret h
  | (u, _) :: us' => let! (nx, span) := at_ h u level in bump us' (S level) (set_next h u level (nx, span + 1))
  end.
(* sorted_set.go:94-177 (insert); new_level is what getRandomLevel returns.  The fuel of the walk
   is the number of nodes ever made. *)
Definition insert (z : zset) (score : float) (entry : bytes) (new_level : nat) : res zset :=
  match find_key entry (z_set z) with
  | Some _ => Ret z
  | None =>
    let! us := descend (z_level z) (S (z_fresh z)) (z_heap z) score entry head 0 in
    let lift := (new_level - z_level z)%nat in
    let! h1 := raise lift (z_level z) (z_heap z) (z_len z) in
    let us := us ++ List.repeat (head, 0) lift in
    let cur := z_fresh z in
    let! u0 := match us with [] => Panic | u :: _ => Ret u end in
    let! h2 := link us 0 (upd h1 cur (Node score (Some entry) [] None)) cur (snd u0) in
    let! h3 := bump (List.skipn new_level us) new_level h2 in
    let h4 := set_prev h3 cur (Some (fst u0)) in
    let! (succ, _) := at_ h4 cur 0 in
    let h5 := set_prev h4 succ (Some cur) in
    Ret (ZSet h5 (S cur) (Nat.max (z_level z) new_level) ((entry, cur) :: z_set z))
  end.

(* sorted_set.go:182-189: take node out of every level it is found on. *)
Fixpoint unlink (us : list nat) (level : nat) (h : nat -> node) (nd : nat) : res (nat -> node) :=
  match us with
  | [] => Ret h
  | u :: us' =>
    let! (nx, span) := at_ h u level in
    if (nx =? nd)%nat then
      let! (nn, nspan) := at_ h nd level in
      unlink us' (S level) (set_next h u level (nn, span + (nspan - 1))) nd
    else unlink us' (S level) (set_next h u level (nx, span - 1)) nd
  end.
(* sorted_set.go:191-193: forget empty levels. *)
Fixpoint lower (h : nat -> node) (level : nat) : res nat :=
  match level with
  | S (S _ as l) => let! (nx, _) := at_ h head l in if (nx =? tail)%nat then lower h l else Ret level
  | _ => Ret level
  end.
(* sorted_set.go:64-71 (release): its loop changes copies of the next entries, so they stay. *)
Definition release (h : nat -> node) (a : nat) : nat -> node := upd h a (Node (n_score (h a)) None (n_next (h a)) None).
(* sorted_set.go:181-198 (delete) *)
Definition delete (z : zset) (nd : nat) (us : list nat) : res zset :=
  let! h1 := unlink us 0 (z_heap z) nd in
  let! lv := lower h1 (z_level z) in
  match n_data (h1 nd) with
  | None => Panic
  | Some d => Ret (ZSet (release h1 nd) (z_fresh z) lv (drop_key d (z_set z)))
  end.
(* sorted_set.go:205-207, the inner loop of deleteNode: go on until the node or the tail. *)
Fixpoint reach (fuel : nat) (h : nat -> node) (level nd cur : nat) : res nat :=
  match fuel with
  | O => NoFuel
  | S f => let! (nx, _) := at_ h cur level in if (nx =? tail)%nat || (nx =? nd)%nat then Ret cur else reach f h level nd nx
  end.
(* sorted_set.go:203-210 *)
Fixpoint fall (level fuel : nat) (h : nat -> node) (nd cur : nat) : res (list nat) :=
  match level with
  | O => Ret []
  | S l => let! c := reach fuel h l nd cur in let! us := fall l fuel h nd c in Ret (us ++ [c])
  end.
(* sorted_set.go:200-213 (deleteNode) *)
Definition delete_node (z : zset) (nd : nat) : res zset :=
  let! us := fall (z_level z) (S (z_fresh z)) (z_heap z) nd head in delete z nd us.

(* sorted_set.go:219-222, the inner loop of getRank: stops only where the next node is the tail
   and is the node sought. *)
Fixpoint stride (fuel : nat) (h : nat -> node) (level nd cur : nat) (rank : Z) : res (nat * Z) :=
  match fuel with
  | O => NoFuel
  | S f =>
    let! (nx, span) := at_ h cur level in
    if negb (nx =? tail)%nat || negb (nx =? nd)%nat then stride f h level nd nx (rank + span) else Ret (cur, rank)
  end.
(* sorted_set.go:215-226 (getRank) *)
Fixpoint rank_from (level fuel : nat) (h : nat -> node) (nd cur : nat) (rank : Z) : res Z :=
  match level with
  | O => Ret rank
  | S l => let! (c, r) := stride fuel h l nd cur rank in rank_from l fuel h nd c r
  end.
Definition get_rank (z : zset) (nd : nat) : res Z := rank_from (z_level z) (S (S (z_fresh z))) (z_heap z) nd head 0.

(* sorted_set.go:230-256 (NewSortedSetContainer) *)
Definition new_zset : zset :=
  ZSet (fun a => if (a =? head)%nat then Node (SFopp max_float) None (List.repeat (tail, 0) max_level) None
                 else Node max_float None [] (Some head)) 2 1 [].

(* What a call returns.  ZData None is a nil pointer without an error. *)
Inductive zerr := ELength | ENotFound | EEmpty.
Inductive zret := ZDone | ZFail (e : zerr) | ZScore (f : float) | ZData (d : option bytes) | ZInt (n : Z).

(* sorted_set.go:274-276: Add's loop.  new_levels are the draws, one per entry (an entry that is
   present makes none). *)
Fixpoint add_all (z : zset) (scores : list float) (entries : list bytes) (new_levels : list nat) : res zset :=
  match scores, entries with
  | s :: scores', e :: entries' =>
    let! z' := insert z s e (List.hd 1%nat new_levels) in add_all z' scores' entries' (List.tl new_levels)
  | _, _ => Ret z
  end.
(* sorted_set.go:268-279 (Add) *)
Definition z_add (z : zset) (scores : list float) (entries : list bytes) (new_levels : list nat) : res (zset * zret) :=
  if negb (List.length scores =? List.length entries)%nat then Ret (z, ZFail ELength)
  else let! z' := add_all z scores entries new_levels in Ret (z', ZDone).
(* sorted_set.go:281-287 (Del) *)
Fixpoint z_del (z : zset) (entries : list bytes) : res (zset * zret) :=
  match entries with
  | [] => Ret (z, ZDone)
  | e :: entries' => match find_key e (z_set z) with Some a => let! z' := delete_node z a in z_del z' entries' | None => z_del z entries' end
  end.
(* sorted_set.go:293-299 (Score) *)
Definition z_score (z : zset) (e : bytes) : res (zset * zret) :=
  match find_key e (z_set z) with None => Ret (z, ZFail ENotFound) | Some a => Ret (z, ZScore (n_score (z_heap z a))) end.
(* sorted_set.go:301-314 (IncreaseBy).  Data is not nil for a node in the map; if it were, insert
   would panic. *)
Definition z_incr (z : zset) (e : bytes) (by_ : float) (new_level : nat) : res (zset * zret) :=
  match find_key e (z_set z) with
  | None => Ret (z, ZFail ENotFound)
  | Some a =>
    let s := f_add (n_score (z_heap z a)) by_ in
    let data := n_data (z_heap z a) in
    let! z1 := delete_node z a in
    match data with None => Panic | Some d => let! z2 := insert z1 s d new_level in Ret (z2, ZScore s) end
  end.
(* sorted_set.go:316-325 (PopMin) *)
Definition z_pop_min (z : zset) : res (zset * zret) :=
  if z_len z =? 0 then Ret (z, ZFail EEmpty)
  else let! (a, _) := at_ (z_heap z) head 0 in
       let data := n_data (z_heap z a) in
       let! z1 := delete_node z a in Ret (z1, ZData data).
(* sorted_set.go:327-336 (PopMax).  A nil tail.prev cannot be dereferenced. *)
Definition z_pop_max (z : zset) : res (zset * zret) :=
  if z_len z =? 0 then Ret (z, ZFail EEmpty)
  else match n_prev (z_heap z tail) with
       | None => Panic
       | Some a => let data := n_data (z_heap z a) in let! z1 := delete_node z a in Ret (z1, ZData data)
       end.
(* sorted_set.go:338-344 (Rank) *)
Definition z_rank (z : zset) (e : bytes) : res (zset * zret) :=
  match find_key e (z_set z) with None => Ret (z, ZFail ENotFound) | Some a => let! r := get_rank z a in Ret (z, ZInt r) end.

(* The methods.  Count, RangeByRank, RangeByScore, DelRangeByRank and DelRangeByScore only panic
   (sorted_set.go:289-291, 346-360). *)
Inductive zop :=
| OAdd (scores : list float) (entries : list bytes) (new_levels : list nat)
| ODel (entries : list bytes)
| OScore (e : bytes)
| OIncr (e : bytes) (by_ : float) (new_level : nat)
| OPopMin
| OPopMax
| ORank (e : bytes)
| OLen
| OUnimplemented.
Definition z_step (z : zset) (o : zop) : res (zset * zret) :=
  match o with
  | OAdd ss es ls => z_add z ss es ls
  | ODel es => z_del z es
  | OScore e => z_score z e
  | OIncr e f l => z_incr z e f l
  | OPopMin => z_pop_min z
  | OPopMax => z_pop_max z
  | ORank e => z_rank z e
  | OLen => Ret (z, ZInt (z_len z))
  | OUnimplemented => Panic
  end.
Fixpoint z_run (z : zset) (os : list zop) : res (zset * list zret) :=
  match os with
  | [] => Ret (z, [])
  | o :: os' => let! (z1, r) := z_step z o in let! (z2, rs) := z_run z1 os' in Ret (z2, r :: rs)
  end.
