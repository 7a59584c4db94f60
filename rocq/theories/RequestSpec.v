(* What a request means: an independent grammar of command names and arguments, and
   the answer the reference machine gives to each request. *)
From Verif Require Import Base IntSpec Resp Command SpecDb.
From Coq Require Import ZArith List Ascii String Bool.
From stdpp Require Import gmap.
Open Scope Z_scope.

(* [spells s w]: [s] is the lower-case ASCII word [w] up to letter case.  Besides the
   ASCII capitals, two other Unicode letters have a plain ASCII lower case: U+0130
   (capital dotted I) and U+212A (Kelvin sign). *)
Inductive spells : bytes -> bytes -> Prop :=
| sp_nil : spells [] []
| sp_same c s w : 97 <= byteZ c <= 122 -> spells s w -> spells (c :: s) (c :: w)
| sp_upper c l s w : 97 <= byteZ l <= 122 -> byteZ c = byteZ l - 32 -> spells s w -> spells (c :: s) (l :: w)
| sp_dotted c1 c2 s w : byteZ c1 = 196 -> byteZ c2 = 176 -> spells s w -> spells (c1 :: c2 :: s) ("i"%char :: w)
| sp_kelvin c1 c2 c3 s w : byteZ c1 = 226 -> byteZ c2 = 132 -> byteZ c3 = 170 -> spells s w ->
    spells (c1 :: c2 :: c3 :: s) ("k"%char :: w).

(* An object that counts as a string: the null bulk string is the empty one. *)
Inductive is_str : robj -> bytes -> Prop :=
| is_simple d : is_str (RSimple d) d
| is_bulk d : is_str (RBulk d) d
| is_null : is_str RNullBulk [].
Notation are_strs := (Forall2 is_str).
Definition is_num (o : robj) (n : Z) : Prop := exists t, is_str o t /\ is_int t n.
(* alternating keys and values *)
Inductive are_pairs : list robj -> list bytes -> list bytes -> Prop :=
| pairs_nil : are_pairs [] [] []
| pairs_cons a b k v l ks vs : is_str a k -> is_str b v -> are_pairs l ks vs -> are_pairs (a :: b :: l) (k :: ks) (v :: vs).

(* Commands of the same argument shape. *)
Inductive takes1 : bytes -> (bytes -> cmd) -> Prop :=
| t_get : takes1 (bs "get") CGet | t_strlen : takes1 (bs "strlen") CStrlen
| t_lpop : takes1 (bs "lpop") CLpop | t_rpop : takes1 (bs "rpop") CRpop | t_llen : takes1 (bs "llen") CLlen
| t_hkeys : takes1 (bs "hkeys") CHkeys | t_hvals : takes1 (bs "hvals") CHvals
| t_hgetall : takes1 (bs "hgetall") CHgetall | t_hlen : takes1 (bs "hlen") CHlen
| t_smembers : takes1 (bs "smembers") CSmembers | t_scard : takes1 (bs "scard") CScard.
Inductive takes2 : bytes -> (bytes -> bytes -> cmd) -> Prop :=
| t_set : takes2 (bs "set") CSet | t_append : takes2 (bs "append") CAppend
| t_hget : takes2 (bs "hget") CHget | t_hexists : takes2 (bs "hexists") CHexists
| t_hstrlen : takes2 (bs "hstrlen") CHstrlen | t_sismember : takes2 (bs "sismember") CSismember.
(* one or more *)
Inductive takes_many : bytes -> (list bytes -> cmd) -> Prop :=
| t_mget : takes_many (bs "mget") CMget | t_exists : takes_many (bs "exists") CExists
| t_sdiff : takes_many (bs "sdiff") CSdiff | t_sinter : takes_many (bs "sinter") CSinter
| t_sunion : takes_many (bs "sunion") CSunion.
(* a key and one or more *)
Inductive takes_key_many : bytes -> (bytes -> list bytes -> cmd) -> Prop :=
| t_lpush : takes_key_many (bs "lpush") CLpush | t_rpush : takes_key_many (bs "rpush") CRpush
| t_hdel : takes_key_many (bs "hdel") CHdel | t_hmget : takes_key_many (bs "hmget") CHmget
| t_sadd : takes_key_many (bs "sadd") CSadd | t_srem : takes_key_many (bs "srem") CSrem.
(* a key, start, stop *)
Inductive takes_range : bytes -> (bytes -> Z -> Z -> cmd) -> Prop :=
| t_getrange : takes_range (bs "getrange") CGetrange | t_lrange : takes_range (bs "lrange") CLrange
| t_ltrim : takes_range (bs "ltrim") CLtrim.
(* a key, an integer and a value *)
Inductive takes_int_str : bytes -> (bytes -> Z -> bytes -> cmd) -> Prop :=
| t_lset : takes_int_str (bs "lset") CLset | t_lrem : takes_int_str (bs "lrem") CLrem.
(* a key and perhaps a count *)
Inductive takes_count : bytes -> (bytes -> Z -> bool -> cmd) -> Prop :=
| t_spop : takes_count (bs "spop") CSpop | t_srandmember : takes_count (bs "srandmember") CSrandmember.

(* [call w args c]: the command word [w] with these arguments is the command [c]. *)
Inductive call : bytes -> list robj -> cmd -> Prop :=
| c_1 w f a k : takes1 w f -> is_str a k -> call w [a] (f k)
| c_2 w f a b k v : takes2 w f -> is_str a k -> is_str b v -> call w [a; b] (f k v)
| c_many w f l ks : takes_many w f -> are_strs l ks -> l <> [] -> call w l (f ks)
| c_key_many w f a l k vs : takes_key_many w f -> is_str a k -> are_strs l vs -> l <> [] -> call w (a :: l) (f k vs)
| c_range w f a x y k i j : takes_range w f -> is_str a k -> is_num x i -> is_num y j -> call w [a; x; y] (f k i j)
| c_int_str w f a x b k i v : takes_int_str w f -> is_str a k -> is_num x i -> is_str b v -> call w [a; x; b] (f k i v)
| c_count0 w f a k : takes_count w f -> is_str a k -> call w [a] (f k 1 false)
| c_count w f a x k n : takes_count w f -> is_str a k -> is_num x n -> call w [a; x] (f k n true)
| c_lindex a x k i : is_str a k -> is_num x i -> call (bs "lindex") [a; x] (CLindex k i)
| c_mset l ks vs : are_pairs l ks vs -> call (bs "mset") l (CMset ks vs)
| c_hset a l k fs vs : is_str a k -> are_pairs l fs vs -> call (bs "hset") (a :: l) (CHset k fs vs)
(* INCR and DECR ignore what follows the key *)
| c_incr a l k : is_str a k -> call (bs "incr") (a :: l) (CIncr k (bs "1"))
| c_decr a l k : is_str a k -> call (bs "decr") (a :: l) (CDecr k (bs "1"))
(* the amount may be left out, and is not checked here *)
| c_incrby1 a k : is_str a k -> call (bs "incrby") [a] (CIncr k (bs "1"))
| c_incrby a b k n : is_str a k -> is_str b n -> call (bs "incrby") [a; b] (CIncr k n)
| c_decrby1 a k : is_str a k -> call (bs "decrby") [a] (CDecr k (bs "1"))
| c_decrby a b k n : is_str a k -> is_str b n -> call (bs "decrby") [a; b] (CDecr k n)
| c_before a w p x k ww pv v : is_str a k -> is_str w ww -> spells ww (bs "before") -> is_str p pv -> is_str x v ->
    call (bs "linsert") [a; w; p; x] (CLinsert k false pv v)
| c_after a w p x k ww pv v : is_str a k -> is_str w ww -> spells ww (bs "after") -> is_str p pv -> is_str x v ->
    call (bs "linsert") [a; w; p; x] (CLinsert k true pv v).

(* The documented command words. *)
Definition command_words : list bytes := map bs
  ["set"; "get"; "mset"; "mget"; "exists"; "strlen"; "append"; "incr"; "incrby"; "decr"; "decrby"; "getrange";
   "lpop"; "rpop"; "lpush"; "rpush"; "lrange"; "lindex"; "llen"; "lset"; "lrem"; "ltrim"; "linsert";
   "hset"; "hget"; "hmget"; "hexists"; "hlen"; "hgetall"; "hkeys"; "hvals"; "hstrlen"; "hdel";
   "scard"; "sadd"; "smembers"; "sismember"; "srem"; "spop"; "srandmember"; "sdiff"; "sinter"; "sunion"]%string.

Definition err (s : string) : robj := RErr (bs s).
Definition is_internal_error (r : robj) : Prop :=
  exists t, r = RErr (bs "ERR vertex server internal error, err=" ++ t).
Definition error_text (e : cerr) (r : robj) : Prop :=
  match e with
  | ENoCmd => r = err "ERR no such command"
  | EArg => r = err "ERR invalid argument"
  | ENotInt => r = err "ERR value is not an integer or out of range"
  | ENoKey => r = err "ERR no such key"
  | ERange => r = err "ERR index out of range"
  | EInternal => is_internal_error r
  end.

(* The elements of a request; a null array counts as empty. *)
Inductive parts : robj -> list robj -> Prop :=
| el_arr l : parts (RArr l) l
| el_null : parts RNullArr [].

(* [asks q c]: request [q] is well-formed and means [c]. *)
Definition asks (q : robj) (c : cmd) : Prop :=
  exists o name w args, parts q (o :: args) /\ is_str o name /\ spells name w /\ call w args c.

(* Answers of the reference machine: None is a crash; otherwise the new contents and
   the reply, if any. *)
Inductive answer (s : sdb) (q : robj) : option (sdb * option robj) -> Prop :=
| a_ignored : (forall l, ~ parts q l) -> answer s q (Some (s, None))
| a_empty r : parts q [] -> is_internal_error r -> answer s q (Some (s, Some r))
| a_nameless o args r : parts q (o :: args) -> (forall d, ~ is_str o d) -> is_internal_error r ->
    answer s q (Some (s, Some r))
| a_unknown o args name : parts q (o :: args) -> is_str o name ->
    (forall w, w ∈ command_words -> ~ spells name w) ->
    answer s q (Some (s, Some (err "ERR no such command")))
| a_invalid o args name w : parts q (o :: args) -> is_str o name -> w ∈ command_words -> spells name w ->
    (forall c, ~ call w args c) ->
    answer s q (Some (s, Some (err "ERR invalid argument")))
| a_crash c : asks q c -> spec s c None -> answer s q None
| a_reply c s' r : asks q c -> spec s c (Some (s', inl r)) -> answer s q (Some (s', Some r))
| a_error c s' e r : asks q c -> spec s c (Some (s', inr e)) -> error_text e r -> answer s q (Some (s', Some r)).

(* Answers to a sequence of requests; the outcome is None if the server crashed. *)
Inductive answers : sdb -> list robj -> option (sdb * list (option robj)) -> Prop :=
| as_nil s : answers s [] (Some (s, []))
| as_crash s q l : answer s q None -> answers s (q :: l) None
| as_cons s q l s1 r s2 rs : answer s q (Some (s1, r)) -> answers s1 l (Some (s2, rs)) ->
    answers s (q :: l) (Some (s2, r :: rs))
| as_later s q l s1 r : answer s q (Some (s1, r)) -> answers s1 l None -> answers s (q :: l) None.

(* Size of a request: its bytes and elements, and room for the text of one integer. *)
Definition str_size (o : robj) : Z := match o with RSimple d | RBulk d => blen d | _ => 0 end.
Fixpoint args_size (l : list robj) : Z := match l with [] => 0 | o :: l' => 1 + str_size o + args_size l' end.
Definition request_size (q : robj) : Z := match q with RArr l => 20 + args_size l | _ => 0 end.
Fixpoint requests_size (l : list robj) : Z := match l with [] => 0 | q :: l' => request_size q + requests_size l' end.
