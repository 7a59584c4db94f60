(* pkg/container/container.go, pkg/db/db.go and the Execute methods of pkg/command. *)
From Verif Require Import Base IntParse UtilIndex Resp StringC StringMap HashC LinkedList Command.
From Coq Require Import ZArith List Ascii String Bool.
From stdpp Require Import gmap.
Open Scope Z_scope.

(* container.go:38-44; the sorted set map is never used (137-157 are commented out). *)
Record db := mkDb {
  d_strs : gmap bytes strc;
  d_lists : gmap bytes llist;
  d_hashes : gmap bytes (gmap bytes hentry);
  d_sets : gmap bytes (gmap bytes strc)
}.
(* container.go:48-56, db.go:19-24. *)
Definition new_db : db := mkDb ∅ ∅ ∅ ∅.

Definition put_strs (d : db) m := mkDb m (d_lists d) (d_hashes d) (d_sets d).
Definition put_list (d : db) k l := mkDb (d_strs d) (<[k := l]> (d_lists d)) (d_hashes d) (d_sets d).
Definition put_hash (d : db) k h := mkDb (d_strs d) (d_lists d) (<[k := h]> (d_hashes d)) (d_sets d).
Definition put_set (d : db) k s := mkDb (d_strs d) (d_lists d) (d_hashes d) (<[k := s]> (d_sets d)).

(* A container.ContainerObject held by a command: nil, or a pointer to the container
   stored under a key.  Since the object's type always is the command's target type,
   the "target container type mismatch" branches cannot be taken and are left out.
   Converting a nil ListContainer to ContainerObject gives a nil interface. *)
Inductive aobj := ANil | AGlobal | AAt (k : bytes).

(* db.go:26-52 resolveName with container.go:62-135. *)
Definition get_list (d : db) (k : bytes) : db * aobj :=
  match d_lists d !! k with Some _ => (d, AAt k) | None => (d, ANil) end.
Definition get_or_create_list (d : db) (k : bytes) : db * aobj :=
  if bytes_eqb k [] then (d, ANil)
  else match d_lists d !! k with Some _ => (d, AAt k) | None => (put_list d k new_list, AAt k) end.
Definition get_hash (d : db) (k : bytes) : db * aobj :=
  match d_hashes d !! k with Some _ => (d, AAt k) | None => (d, ANil) end.
Definition get_or_create_hash (d : db) (k : bytes) : db * aobj :=
  if bytes_eqb k [] then (d, ANil)
  else match d_hashes d !! k with Some _ => (d, AAt k) | None => (put_hash d k ∅, AAt k) end.
Definition get_set (d : db) (k : bytes) : db * aobj :=
  match d_sets d !! k with Some _ => (d, AAt k) | None => (d, ANil) end.
Definition get_or_create_set (d : db) (k : bytes) : db * aobj :=
  if bytes_eqb k [] then (d, ANil)
  else match d_sets d !! k with Some _ => (d, AAt k) | None => (put_set d k ∅, AAt k) end.
Definition resolve_name (d : db) (k : bytes) (t : ctype) (create : bool) : db * aobj :=
  match t with
  | TGlobal => (d, AGlobal)
  | TList => if create then get_or_create_list d k else get_list d k
  | THash => if create then get_or_create_hash d k else get_hash d k
  | TSet => if create then get_or_create_set d k else get_set d k
  end.

(* db.go:59-61. *)
Fixpoint resolve_names (d : db) (ks : list bytes) (t : ctype) (create : bool) : db * list aobj :=
  match ks with
  | [] => (d, [])
  | k :: ks' =>
      let '(d1, o) := resolve_name d k t create in
      let '(d2, os) := resolve_names d1 ks' t create in (d2, o :: os)
  end.

(* SetAccessObjects of the single-object commands, e.g. global.go:182-187: the first
   object, or the nil it was initialised with. *)
Definition first_obj (os : list aobj) : aobj := match os with o :: _ => o | [] => ANil end.

(* Outcome of Execute followed by Result(). *)
Notation reply := (robj + cerr)%type.
Notation xres := (res (db * reply)).
Definition done (d : db) (r : robj) : xres := Ret (d, inl r).
Definition fail (d : db) (e : cerr) : xres := Ret (d, inr e).
Definition ok_reply : robj := RSimple (bs "OK").
(* protocol.NewBulkRedisString(x.String()) *)
Definition bulk (s : strc) : robj := RBulk (s_data s).
(* global.go:233-237 and the like: a nil pointer becomes the null bulk string *)
Definition bulk_opt (s : option strc) : robj := match s with Some v => bulk v | None => RNullBulk end.
Definition strs (l : list bytes) : list strc := map new_string l.

(* Execute of the string commands: global.go:135-156 set, 220-238 get, 314-343 mset,
   411-442 mget, 510-530 exists, 594-608 strlen, 678-698 append, 773-805 incr,
   880-912 decr, 1002-1020 getrange. *)
Definition exec_incr (d : db) (k amount : bytes) (up : bool) : xres :=
  match parse_int amount with
  | None => fail d EInternal
  | Some n =>
      match (if up then sm_increase else sm_decrease) (d_strs d) (new_string k) n with
      | inl (m, v) => done (put_strs d m) (RInt v)
      | inr SmNoKey => fail d ENoKey
      | inr SmNotInt => fail d ENotInt
      end
  end.

Definition exec_global (c : cmd) (d : db) : xres :=
  match c with
  | CSet k v =>
      match sm_set (d_strs d) [new_string k] [new_string v] with
      | Some m => done (put_strs d m) ok_reply
      | None => fail d EInternal
      end
  | CGet k =>
      match sm_get (d_strs d) [new_string k] with
      | [Some v] => done d (bulk v)
      | _ => done d RNullBulk
      end
  | CMset ks vs =>
      match ks, vs with
      | [], _ | _, [] => fail d EArg
      | _, _ =>
          match sm_set (d_strs d) (strs ks) (strs vs) with
          | Some m => done (put_strs d m) ok_reply
          | None => done d ok_reply
          end
      end
  | CMget ks => done d (RArr (map bulk_opt (sm_get (d_strs d) (strs ks))))
  | CExists ks => done d (RInt (sm_exists (d_strs d) (strs ks)))
  | CStrlen k => done d (RInt (match sm_strlen (d_strs d) (new_string k) with Some n => n | None => 0 end))
  | CAppend k v =>
      let '(m, n) := sm_append (d_strs d) (new_string k) (new_string v) in done (put_strs d m) (RInt n)
  | CIncr k a => exec_incr d k a true
  | CDecr k a => exec_incr d k a false
  | CGetrange k a b =>
      match sm_getrange (d_strs d) (new_string k) a b with
      | Some r => done d (bulk r)
      | None => done d (RBulk [])
      end
  | _ => fail d EInternal
  end.

(* Execute of the list commands with a non-nil access object: list.go:124-130 lpop,
   206-212 rpop, 299-308 lpush, 395-404 rpush, 506-518 lrange, 607-613 lindex,
   689-691 llen, 786-792 lset, 887-888 lrem, 990-997 ltrim, 1100-1106 linsert.
   [l] is the container stored under [k]; after a mutation the mutated list is stored
   back under [k]. *)
Definition exec_list (c : cmd) (d : db) (k : bytes) (l : llist) : xres :=
  match c with
  | CLpop _ =>
      let! r := pop_head l in
      match r with
      | (l', Some v) => done (put_list d k l') (bulk v)
      | (_, None) => done d RNullBulk
      end
  | CRpop _ =>
      let! r := pop_tail l in
      match r with
      | (l', Some v) => done (put_list d k l') (bulk v)
      | (_, None) => done d RNullBulk
      end
  | CLpush _ vs => let! l' := push_head l (strs vs) in done (put_list d k l') (RInt (list_len l'))
  | CRpush _ vs => let! l' := push_tail l (strs vs) in done (put_list d k l') (RInt (list_len l'))
  | CLrange _ a b =>
      let! r := list_range l a b in
      match r with
      | Some vs => done d (RArr (map bulk vs))
      | None => done d RNullArr
      end
  | CLindex _ i => let! r := list_index l i in done d (bulk_opt r)
  | CLlen _ => done d (RInt (list_len l))
  | CLset _ i v =>
      let! r := list_set l i (new_string v) in
      match r with
      | Some l' => done (put_list d k l') ok_reply
      | None => fail d ERange
      end
  | CLrem _ n v =>
      let! r := list_removec l n (new_string v) in
      let '(l', m) := r in done (put_list d k l') (RInt m)
  | CLtrim _ a b =>
      let! r := list_trim l a b in
      match r with
      | Some l' => done (put_list d k l') ok_reply
      | None =>
          let! r2 := list_trim l 0 (-1) in
          match r2 with
          | Some l' => done (put_list d k l') ok_reply
          | None => done d ok_reply
          end
      end
  | CLinsert _ after p v =>
      let! r := list_insertp l (new_string p) (new_string v) after in
      match r with
      | Some l' => done (put_list d k l') (RInt (list_len l'))
      | None => done d (RInt (-1))
      end
  | _ => fail d EInternal
  end.

(* The nil branch of the list commands: list.go:114-117, 196-199, 289-292, 385-388,
   496-499, 597-600, 679-682, 776-779, 877-880, 980-983, 1090-1093. *)
Definition exec_list_nil (c : cmd) (d : db) : xres :=
  match c with
  | CLpop _ | CRpop _ | CLindex _ _ => done d RNullBulk
  | CLrange _ _ _ => done d RNullArr
  | CLlen _ | CLrem _ _ _ | CLinsert _ _ _ _ => done d (RInt 0)
  | CLset _ _ _ => fail d ENoKey
  | CLtrim _ _ _ => done d ok_reply
  | _ => fail d EInternal
  end.

(* hash.go:606-609: fields and values alternate. *)
Fixpoint interleave (fs vs : list strc) : list robj :=
  match fs, vs with
  | f :: fs', v :: vs' => bulk f :: bulk v :: interleave fs' vs'
  | _, _ => []
  end.

(* Execute of the hash commands: hash.go:129-144 hset, 228-239 hget, 335-354 hmget,
   438-447 hexists, 523-525 hlen, 601-611 hgetall, 687-696 hkeys, 772-781 hvals,
   865-876 hstrlen, 964-978 hdel. *)
Definition exec_hash (ord : orders) (c : cmd) (d : db) (k : bytes) (h : gmap bytes hentry) : xres :=
  match c with
  | CHset _ fs vs =>
      match fs, vs with
      | [], _ | _, [] => fail d EArg
      | _, _ =>
          match h_set h (strs fs) (strs vs) with
          | Some (h', n) => done (put_hash d k h') (RInt n)
          | None => done d (RInt 0)
          end
      end
  | CHget _ f =>
      if bytes_eqb f [] then fail d EArg
      else match h_get h [new_string f] with
           | [Some v] => done d (bulk v)
           | _ => done d RNullBulk
           end
  | CHmget _ fs => done d (RArr (map bulk_opt (h_get h (strs fs))))
  | CHexists _ f =>
      if bytes_eqb f [] then fail d EArg
      else done d (RInt (if h_exists h (new_string f) then 1 else 0))
  | CHlen _ => done d (RInt (h_len h))
  | CHgetall _ => let '(fs, vs) := h_entries ord 0 h in done d (RArr (interleave fs vs))
  | CHkeys _ => done d (RArr (map bulk (h_keys ord 0 h)))
  | CHvals _ => done d (RArr (map bulk (h_values ord 0 h)))
  | CHstrlen _ f =>
      if bytes_eqb f [] then fail d EArg
      else match h_get h [new_string f] with
           | [Some v] => done d (RInt (s_size v))
           | _ => done d (RInt 0)
           end
  | CHdel _ fs =>
      match fs with
      | [] => fail d EArg
      | _ => let '(h', n) := h_del h (strs fs) in done (put_hash d k h') (RInt n)
      end
  | _ => fail d EInternal
  end.

(* The nil branch: hash.go:218-221, 317-328, 428-431, 513-516, 591-594, 677-680,
   762-765, 855-858, 954-957.  HSET has none: calling Type() on the nil interface
   (hash.go:124) panics. *)
Definition exec_hash_nil (c : cmd) (d : db) : xres :=
  match c with
  | CHset _ _ _ => Panic
  | CHget _ _ => done d RNullBulk
  | CHmget _ fs => done d (RArr (map (fun _ => RNullBulk) fs))
  | CHexists _ _ | CHlen _ | CHstrlen _ _ | CHdel _ _ => done d (RInt 0)
  | CHgetall _ | CHkeys _ | CHvals _ => done d RNullArr
  | _ => fail d EInternal
  end.

(* set.go:593-611, 715-733: the reply of SPOP/SRANDMEMBER; [ret[0]] panics on an
   empty slice. *)
Definition pop_reply (ret : list strc) (count_set : bool) : res robj :=
  if count_set then Ret (match ret with [] => RNullArr | _ => RArr (map bulk ret) end)
  else match ret with [] => Panic | v :: _ => Ret (bulk v) end.

(* Execute of the single-set commands: set.go:115-117 scard, 200-214 sadd,
   290-299 smembers, 383-392 sismember, 475-489 srem, 591-611 spop, 713-733 srandmember. *)
Definition exec_set (ord : orders) (c : cmd) (d : db) (k : bytes) (s : gmap bytes strc) : xres :=
  match c with
  | CScard _ => done d (RInt (set_len s))
  | CSadd _ vs =>
      match vs with
      | [] => fail d EArg
      | _ => let '(s', n) := set_add s (strs vs) in done (put_set d k s') (RInt n)
      end
  | CSmembers _ => done d (RArr (map bulk (set_members ord 0 s)))
  | CSismember _ v =>
      if bytes_eqb v [] then fail d EArg
      else done d (RInt (if set_is_member s (new_string v) then 1 else 0))
  | CSrem _ vs =>
      match vs with
      | [] => fail d EArg
      | _ => let '(s', n) := set_delete s (strs vs) in done (put_set d k s') (RInt n)
      end
  | CSpop _ n cs =>
      let '(s', ret) := set_pop ord 0 s n in
      let! r := pop_reply ret cs in done (put_set d k s') r
  | CSrandmember _ n cs =>
      let! r := pop_reply (set_random ord 0 s n) cs in done d r
  | _ => fail d EInternal
  end.

(* The nil branch: set.go:105-108, 280-283, 373-376, 577-584, 699-706.  SADD and SREM
   have none (set.go:195, 470). *)
Definition exec_set_nil (c : cmd) (d : db) : xres :=
  match c with
  | CSadd _ _ | CSrem _ _ => Panic
  | CScard _ | CSismember _ _ => done d (RInt 0)
  | CSmembers _ => done d RNullArr
  | CSpop _ _ cs | CSrandmember _ _ cs => done d (if cs then RNullArr else RNullBulk)
  | _ => fail d EInternal
  end.

(* set.go:867-878, 980-991, 1093-1104: nil objects become fresh empty sets. *)
Definition set_of (d : db) (o : aobj) : gmap bytes strc :=
  match o with AAt k => match d_sets d !! k with Some s => s | None => ∅ end | _ => ∅ end.

(* set.go:804-841 sdiff, 917-954 sinter, 1030-1067 sunion.  The receiver's and the
   arguments' loops use the order oracle up to index [2 * length + 1]; the final
   Members() uses the next index. *)
Definition exec_sets (ord : orders) (op : gmap bytes strc -> list (gmap bytes strc) -> gmap bytes strc)
  (d : db) (os : list aobj) : xres :=
  match map (set_of d) os with
  | [] => done d RNullArr
  | base :: others =>
      let ret := op base others in
      if set_len ret =? 0 then done d RNullArr
      else done d (RArr (map bulk (set_members ord (2 * length os + 2) ret)))
  end.

(* Execute(). *)
Definition execute (ord : orders) (c : cmd) (d : db) (os : list aobj) : xres :=
  match c with
  | CSdiff _ => exec_sets ord (set_diff ord) d os
  | CSinter _ => exec_sets ord (set_inter ord) d os
  | CSunion _ => exec_sets ord (set_union ord) d os
  | _ =>
      match target c, first_obj os with
      | TGlobal, AGlobal => exec_global c d
      | TGlobal, _ => fail d EInternal
      | TList, AAt k =>
          match d_lists d !! k with Some l => exec_list c d k l | None => Panic end
      | TList, _ => exec_list_nil c d
      | THash, AAt k =>
          match d_hashes d !! k with Some h => exec_hash ord c d k h | None => Panic end
      | THash, _ => exec_hash_nil c d
      | TSet, AAt k =>
          match d_sets d !! k with Some s => exec_set ord c d k s | None => Panic end
      | TSet, _ => exec_set_nil c d
      end
  end.

(* db.go:54-66 ExecuteCommand, followed by Result(). *)
Definition execute_command (ord : orders) (d : db) (c : cmd) : xres :=
  let '(d1, os) := resolve_names d (cmd_keys c) (target c) (should_create c) in
  execute ord c d1 os.
