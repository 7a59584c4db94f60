(* pkg/command: command names, argument parsing and static attributes. *)
From Verif Require Import Base IntParse Resp.
From Coq Require Import ZArith List Ascii String Bool.
Import ListNotations.
Open Scope Z_scope.

(* strings.ToLower as used at command.go:119 and list.go:1067.  ASCII capitals are
   lowered; of all other Unicode characters only U+0130 (bytes C4 B0) and U+212A
   (bytes E2 84 AA) lower to an ASCII letter, 'i' and 'k'.
   Simplified: every other non-ASCII character is kept as it is, where Go may map it
   to another non-ASCII character (or an invalid byte to U+FFFD).  The result is only
   compared with ASCII names, so this cannot change any comparison. *)
Definition lower_byte (c : ascii) : ascii :=
  if (65 <=? byteZ c) && (byteZ c <=? 90) then byteOf (byteZ c + 32) else c.
Fixpoint to_lower (s : bytes) : bytes :=
  match s with
  | [] => []
  | c :: s1 =>
      match s1 with
      | c2 :: s2 =>
          if (byteZ c =? 196) && (byteZ c2 =? 176) then "i"%char :: to_lower s2
          else
            match s2 with
            | c3 :: s3 =>
                if (byteZ c =? 226) && (byteZ c2 =? 132) && (byteZ c3 =? 170)
                then "k"%char :: to_lower s3
                else lower_byte c :: to_lower s1
            | [] => lower_byte c :: to_lower s1
            end
      | [] => [lower_byte c]
      end
  end.

(* One constructor per command struct, carrying the fields its ParseArguments fills:
   global.go:102-1055, list.go:86-1142, hash.go:76-1014, set.go:77-1108.
   INCRBY/DECRBY build the structs of INCR/DECR (global.go:68-73, 85-90). *)
Inductive cmd : Type :=
| CSet (k v : bytes)
| CGet (k : bytes)
| CMset (ks vs : list bytes)
| CMget (ks : list bytes)
| CExists (ks : list bytes)
| CStrlen (k : bytes)
| CAppend (k v : bytes)
| CIncr (k amount : bytes)
| CDecr (k amount : bytes)
| CGetrange (k : bytes) (a b : Z)
| CLpop (k : bytes)
| CRpop (k : bytes)
| CLpush (k : bytes) (vs : list bytes)
| CRpush (k : bytes) (vs : list bytes)
| CLrange (k : bytes) (a b : Z)
| CLindex (k : bytes) (i : Z)
| CLlen (k : bytes)
| CLset (k : bytes) (i : Z) (v : bytes)
| CLrem (k : bytes) (count : Z) (v : bytes)
| CLtrim (k : bytes) (a b : Z)
| CLinsert (k : bytes) (after : bool) (pivot v : bytes)
| CHset (k : bytes) (fs vs : list bytes)
| CHget (k f : bytes)
| CHmget (k : bytes) (fs : list bytes)
| CHexists (k f : bytes)
| CHlen (k : bytes)
| CHgetall (k : bytes)
| CHkeys (k : bytes)
| CHvals (k : bytes)
| CHstrlen (k f : bytes)
| CHdel (k : bytes) (fs : list bytes)
| CScard (k : bytes)
| CSadd (k : bytes) (vs : list bytes)
| CSmembers (k : bytes)
| CSismember (k v : bytes)
| CSrem (k : bytes) (vs : list bytes)
| CSpop (k : bytes) (count : Z) (count_set : bool)
| CSrandmember (k : bytes) (count : Z) (count_set : bool)
| CSdiff (ks : list bytes)
| CSinter (ks : list bytes)
| CSunion (ks : list bytes).

(* obj.(protocol.RedisString) followed by Data(): simple and bulk strings and the null
   bulk string (whose data is "") implement RedisString, resp.go:33-40, 68-107. *)
Definition str_arg (o : robj) : option bytes :=
  match o with
  | RSimple d => Some d
  | RBulk d => Some d
  | RNullBulk => Some []
  | _ => None
  end.

(* The loops collecting string arguments, e.g. global.go:399-406, list.go:276-283. *)
Fixpoint str_args (l : list robj) : option (list bytes) :=
  match l with
  | [] => Some []
  | o :: l' =>
      match str_arg o with
      | None => None
      | Some d => match str_args l' with Some ds => Some (d :: ds) | None => None end
      end
  end.

(* The loops collecting key/value pairs: global.go:295-309, hash.go:104-118. *)
Fixpoint pair_args (l : list robj) : option (list bytes * list bytes) :=
  match l with
  | [] => Some ([], [])
  | k :: v :: l' =>
      match str_arg k, str_arg v with
      | Some kd, Some vd =>
          match pair_args l' with
          | Some (ks, vs) => Some (kd :: ks, vd :: vs)
          | None => None
          end
      | _, _ => None
      end
  | _ => None
  end.

(* A string argument parsed by util.ParseInt64, e.g. global.go:975-985. *)
Definition int_arg (o : robj) : option Z :=
  match str_arg o with Some d => parse_int d | None => None end.

(* exactly one string: global.go:205-218, 579-592, list.go:98-111, 180-193, 663-676,
   hash.go:497-510, 575-588, 661-674, 746-759, set.go:89-102, 264-277 *)
Definition parse1 (f : bytes -> cmd) (l : list robj) : option cmd :=
  match l with
  | [a] => match str_arg a with Some k => Some (f k) | None => None end
  | _ => None
  end.
(* exactly two strings: global.go:115-133, 658-676, hash.go:195-215, 405-425, 832-852,
   set.go:350-370 *)
Definition parse2 (f : bytes -> bytes -> cmd) (l : list robj) : option cmd :=
  match l with
  | [a; b] =>
      match str_arg a, str_arg b with Some k, Some v => Some (f k v) | _, _ => None end
  | _ => None
  end.
(* at least one string: global.go:392-409, 491-508, set.go:783-802, 896-915, 1009-1028 *)
Definition parse_many (f : list bytes -> cmd) (l : list robj) : option cmd :=
  match l with
  | [] => None
  | _ => match str_args l with Some ks => Some (f ks) | None => None end
  end.
(* a key and at least one string: list.go:263-286, 359-382, hash.go:290-314, 927-951,
   set.go:168-192, 443-467 *)
Definition parse_key_many (f : bytes -> list bytes -> cmd) (l : list robj) : option cmd :=
  match l with
  | a :: (_ :: _) as l' =>
      match str_arg a, str_args (tl l) with Some k, Some vs => Some (f k vs) | _, _ => None end
  | _ => None
  end.
(* a key and two integers: global.go:963-1000, list.go:456-493, 940-977 *)
Definition parse_range (f : bytes -> Z -> Z -> cmd) (l : list robj) : option cmd :=
  match l with
  | [a; x; y] =>
      match str_arg a, int_arg x, int_arg y with
      | Some k, Some i, Some j => Some (f k i j)
      | _, _, _ => None
      end
  | _ => None
  end.
(* a key, an integer and a string: list.go:743-773, 844-874 *)
Definition parse_key_int_str (f : bytes -> Z -> bytes -> cmd) (l : list robj) : option cmd :=
  match l with
  | [a; x; y] =>
      match str_arg a, int_arg x, str_arg y with
      | Some k, Some i, Some v => Some (f k i v)
      | _, _, _ => None
      end
  | _ => None
  end.
(* list.go:569-594 *)
Definition parse_key_int (f : bytes -> Z -> cmd) (l : list robj) : option cmd :=
  match l with
  | [a; x] =>
      match str_arg a, int_arg x with Some k, Some i => Some (f k i) | _, _ => None end
  | _ => None
  end.
(* global.go:748-771, 855-878: a missing amount is "1" *)
Definition parse_incr (f : bytes -> bytes -> cmd) (l : list robj) : option cmd :=
  match l with
  | [a] => match str_arg a with Some k => Some (f k (bs "1")) | None => None end
  | [a; b] =>
      match str_arg a, str_arg b with Some k, Some v => Some (f k v) | _, _ => None end
  | _ => None
  end.
(* global.go:57-67, 74-84: INCR/DECR look at the first argument only *)
Definition parse_incr1 (f : bytes -> bytes -> cmd) (l : list robj) : option cmd :=
  match l with
  | [] => parse_incr f []
  | a :: _ => parse_incr f [a]
  end.
(* global.go:288-312 *)
Definition parse_mset (l : list robj) : option cmd :=
  match pair_args l with Some (ks, vs) => Some (CMset ks vs) | None => None end.
(* hash.go:90-121 *)
Definition parse_hset (l : list robj) : option cmd :=
  match l with
  | [] => None
  | a :: l' =>
      match str_arg a, pair_args l' with
      | Some k, Some (fs, vs) => Some (CHset k fs vs)
      | _, _ => None
      end
  end.
(* list.go:1050-1087 *)
Definition parse_linsert (l : list robj) : option cmd :=
  match l with
  | [a; w; p; v] =>
      match str_arg a, str_arg w, str_arg p, str_arg v with
      | Some k, Some wd, Some pd, Some vd =>
          if bytes_eqb (to_lower wd) (bs "before") then Some (CLinsert k false pd vd)
          else if bytes_eqb (to_lower wd) (bs "after") then Some (CLinsert k true pd vd)
          else None
      | _, _, _, _ => None
      end
  | _ => None
  end.
(* set.go:541-574, 663-696 *)
Definition parse_pop (f : bytes -> Z -> bool -> cmd) (l : list robj) : option cmd :=
  match l with
  | [a] => match str_arg a with Some k => Some (f k 1 false) | None => None end
  | [a; x] =>
      match str_arg a, int_arg x with Some k, Some n => Some (f k n true) | _, _ => None end
  | _ => None
  end.

(* command.go:62-110 keyMap with the dispatch of newGlobalCommand (global.go:13-100),
   newListCommand (list.go:13-84), newHashCommand (hash.go:10-74) and newSetCommand
   (set.go:11-75). *)
Definition key_map : list (bytes * (list robj -> option cmd)) :=
  [ (bs "set", parse2 CSet);
    (bs "get", parse1 CGet);
    (bs "mset", parse_mset);
    (bs "mget", parse_many CMget);
    (bs "exists", parse_many CExists);
    (bs "strlen", parse1 CStrlen);
    (bs "append", parse2 CAppend);
    (bs "incr", parse_incr1 CIncr);
    (bs "incrby", parse_incr CIncr);
    (bs "decr", parse_incr1 CDecr);
    (bs "decrby", parse_incr CDecr);
    (bs "getrange", parse_range CGetrange);
    (bs "lpop", parse1 CLpop);
    (bs "rpop", parse1 CRpop);
    (bs "lindex", parse_key_int CLindex);
    (bs "linsert", parse_linsert);
    (bs "llen", parse1 CLlen);
    (bs "lpush", parse_key_many CLpush);
    (bs "rpush", parse_key_many CRpush);
    (bs "lrange", parse_range CLrange);
    (bs "ltrim", parse_range CLtrim);
    (bs "lrem", parse_key_int_str CLrem);
    (bs "lset", parse_key_int_str CLset);
    (bs "hset", parse_hset);
    (bs "hget", parse2 CHget);
    (bs "hexists", parse2 CHexists);
    (bs "hdel", parse_key_many CHdel);
    (bs "hmget", parse_key_many CHmget);
    (bs "hkeys", parse1 CHkeys);
    (bs "hvals", parse1 CHvals);
    (bs "hgetall", parse1 CHgetall);
    (bs "hstrlen", parse2 CHstrlen);
    (bs "hlen", parse1 CHlen);
    (bs "sadd", parse_key_many CSadd);
    (bs "srem", parse_key_many CSrem);
    (bs "sismember", parse2 CSismember);
    (bs "smembers", parse1 CSmembers);
    (bs "srandmember", parse_pop CSrandmember);
    (bs "spop", parse_pop CSpop);
    (bs "sdiff", parse_many CSdiff);
    (bs "sinter", parse_many CSinter);
    (bs "sunion", parse_many CSunion);
    (bs "scard", parse1 CScard) ].

Fixpoint find_name {A} (n : bytes) (l : list (bytes * A)) : option A :=
  match l with
  | [] => None
  | (m, a) :: l' => if bytes_eqb n m then Some a else find_name n l'
  end.

(* Errors a request can end with, as far as handleError (engine.go:270-286) tells
   them apart. *)
Inductive cerr : Type :=
| ENoCmd      (* command.ErrCommandNotExist *)
| EArg        (* command.ErrArgumentInvalid *)
| ENotInt     (* container.ErrNotAInt *)
| ENoKey      (* command.ErrNoSuchKey *)
| ERange      (* container.ErrOutOfRange *)
| EInternal.  (* anything else *)

(* command.go:114-127 NewCommand. *)
Definition new_command (name : bytes) (args : list robj) : cmd + cerr :=
  match find_name (to_lower name) key_map with
  | None => inr ENoCmd
  | Some f => match f args with Some c => inl c | None => inr EArg end
  end.

(* Type(): true is ModifyCommandType, false AccessCommandType.  E.g. global.go:170, 252;
   LTRIM is an access command (list.go:1012). *)
Definition is_modify (c : cmd) : bool :=
  match c with
  | CSet _ _ | CMset _ _ | CAppend _ _ | CIncr _ _ | CDecr _ _
  | CLpop _ | CRpop _ | CLpush _ _ | CRpush _ _ | CLset _ _ _ | CLrem _ _ _ | CLinsert _ _ _ _
  | CHset _ _ _ | CHdel _ _ | CSadd _ _ | CSrem _ _ | CSpop _ _ _ => true
  | _ => false
  end.

(* TargetContainerType(), container.go:5-14. *)
Inductive ctype := TGlobal | TList | THash | TSet.
Definition target (c : cmd) : ctype :=
  match c with
  | CSet _ _ | CGet _ | CMset _ _ | CMget _ | CExists _ | CStrlen _ | CAppend _ _
  | CIncr _ _ | CDecr _ _ | CGetrange _ _ _ => TGlobal
  | CLpop _ | CRpop _ | CLpush _ _ | CRpush _ _ | CLrange _ _ _ | CLindex _ _ | CLlen _
  | CLset _ _ _ | CLrem _ _ _ | CLtrim _ _ _ | CLinsert _ _ _ _ => TList
  | CHset _ _ _ | CHget _ _ | CHmget _ _ | CHexists _ _ | CHlen _ | CHgetall _ | CHkeys _
  | CHvals _ | CHstrlen _ _ | CHdel _ _ => THash
  | CScard _ | CSadd _ _ | CSmembers _ | CSismember _ _ | CSrem _ _ | CSpop _ _ _
  | CSrandmember _ _ _ | CSdiff _ | CSinter _ | CSunion _ => TSet
  end.

(* ShouldCreate(): list.go:331, 427, hash.go:167, set.go:237, 512.  The string
   commands' answer is irrelevant (db.go:28-30). *)
Definition should_create (c : cmd) : bool :=
  match c with
  | CSet _ _ | CMset _ _ | CAppend _ _ | CIncr _ _ | CDecr _ _
  | CLpush _ _ | CRpush _ _ | CHset _ _ _ | CSadd _ _ | CSrem _ _ => true
  | _ => false
  end.

(* Keys(), e.g. global.go:174, 361. *)
Definition cmd_keys (c : cmd) : list bytes :=
  match c with
  | CSet k _ | CGet k | CStrlen k | CAppend k _ | CIncr k _ | CDecr k _ | CGetrange k _ _
  | CLpop k | CRpop k | CLpush k _ | CRpush k _ | CLrange k _ _ | CLindex k _ | CLlen k
  | CLset k _ _ | CLrem k _ _ | CLtrim k _ _ | CLinsert k _ _ _
  | CHset k _ _ | CHget k _ | CHmget k _ | CHexists k _ | CHlen k | CHgetall k | CHkeys k
  | CHvals k | CHstrlen k _ | CHdel k _
  | CScard k | CSadd k _ | CSmembers k | CSismember k _ | CSrem k _ | CSpop k _ _
  | CSrandmember k _ _ => [k]
  | CMset ks _ | CMget ks | CExists ks | CSdiff ks | CSinter ks | CSunion ks => ks
  end.
