(* Property theorems C22-C27: request handling as a whole. *)
From Verif Require Import Base IntSpec IndexSpec ListSpec IntParse Resp StringC HashC Command SpecDb RequestSpec IdealSpec Db DbProofs
  Engine EngineProofs SpecFacts StringFacts EngineFacts.
From Coq Require Import ZArith List Ascii String Bool Lia.
From stdpp Require Import gmap.
Open Scope Z_scope.

Definition req (l : list string) : robj := str_req (map bs l).
Definition ok := Some (RSimple (bs "OK")).
Definition bulk (s : string) := RBulk (bs s).
Ltac spelling := cbn [bs list_ascii_of_string];
  repeat first [apply sp_nil | apply sp_upper; [vm_compute; split; discriminate|vm_compute; reflexivity|]].
Definition crashed (l : list (list string)) : Prop := run new_db (map (fun q => (some_env, req q)) l) = Panic.

(* C22: six ways to crash the server. *)
Theorem C22_no_crash_refuted :
  crashed [["HSET"; ""; "f"; "v"]]%string /\
  crashed [["SADD"; ""; "v"]]%string /\
  crashed [["SREM"; ""; "v"]]%string /\
  crashed [["RPUSH"; "k"; "a"]; ["LREM"; "k"; "0"; "dummy string"]]%string /\
  crashed [["RPUSH"; "k"; "a"]; ["LINSERT"; "k"; "BEFORE"; "dummy string"; "x"]]%string /\
  crashed [["SREM"; "k"; "a"]; ["SRANDMEMBER"; "k"]]%string.
Proof. unfold crashed. vm_compute. repeat split. Qed.
Print Assumptions C22_no_crash_refuted.
(* Those are all: [crashes] lists the conditions. *)
Theorem C22_crash_conditions : forall (e : env) (d : db) (s : sdb) (q : robj), env_ok e -> db_rel d s -> fits s ->
  (handle e d q = Panic <-> exists c, asks q c /\ crashes s c).
Proof. exact crash_iff. Qed.
Print Assumptions C22_crash_conditions.
(* Everything else gets an outcome, and a reply if it is an array. *)
Theorem C22_total_partial : forall (e : env) (d : db) (s : sdb) (q : robj), env_ok e -> db_rel d s -> fits s ->
  (forall c, asks q c -> ~ crashes s c) -> exists d' r, handle e d q = Ret (d', r).
Proof. exact handle_total. Qed.
Print Assumptions C22_total_partial.
Theorem C22_reply : forall (e : env) (d : db) (q : robj) (l : list robj) (d' : db) r,
  parts q l -> handle e d q = Ret (d', r) -> r <> None.
Proof. exact array_reply. Qed.
Print Assumptions C22_reply.
Example C22_crash_case : exists c, asks (req ["SPOP"; "k"]%string) c /\ crashes (mkSdb ∅ ∅ ∅ {[bs "k" := ∅]}) c.
Proof.
  exists (CSpop (bs "k") 1 false). split; [|split; reflexivity].
  exists (bulk "SPOP"), (bs "SPOP"), (bs "spop"), [bulk "k"].
  split; [constructor|]. split; [constructor|]. split; [spelling|]. apply c_count0; constructor.
Qed.

(* C23 *)
Theorem C23_read_only_partial : forall (e : env) (d : db) (s : sdb) (q : robj) (c : cmd) (d' : db) r,
  good e d s -> asks q c -> is_modify c = false -> (forall k a b, c <> CLtrim k a b) -> handle e d q = Ret (d', r) -> db_rel d' s.
Proof. exact read_only. Qed.
Print Assumptions C23_read_only_partial.
(* LTRIM is not classified as modifying, but trims. *)
Theorem C23_ltrim_refuted : exists c k, is_modify c = false /\ asks (req ["LTRIM"; "k"; "1"; "1"]%string) c /\ k = "k"%string /\
  replies (map req [["RPUSH"; k; "a"; "b"]; ["LTRIM"; k; "1"; "1"]; ["LRANGE"; k; "0"; "-1"]]%string)
  = Some [Some (RInt 2); ok; Some (RArr [bulk "b"])].
Proof.
  exists (CLtrim (bs "k") 1 1), "k"%string. split; [reflexivity|]. split.
  - apply (req_range _ "ltrim" CLtrim (bs "k") (bs "1") (bs "1") 1 1 t_ltrim).
    1, 2: apply IntParseProofs.parse_int_spec; reflexivity.
    apply (str_req_request (bs "LTRIM") "ltrim"). spelling.
  - split; [reflexivity|]. vm_compute. reflexivity.
Qed.
Print Assumptions C23_ltrim_refuted.
Example C23_case : replies (map req [["RPUSH"; "k"; "a"; "b"]; ["LRANGE"; "k"; "0"; "-1"]; ["LLEN"; "k"]; ["LRANGE"; "k"; "0"; "-1"]]%string)
  = Some [Some (RInt 2); Some (RArr [bulk "a"; bulk "b"]); Some (RInt 2); Some (RArr [bulk "a"; bulk "b"])].
Proof. vm_compute. reflexivity. Qed.

(* C24: an error changes nothing, but for HSET with a key and nothing else. *)
Theorem C24_error_effect_partial : forall (e : env) (d : db) (s : sdb) (q : robj) (d' : db) t,
  env_ok e -> db_rel d s -> fits s -> handle e d q = Ret (d', Some (RErr t)) ->
  db_rel d' s \/ exists k, asks q (CHset k [] []) /\ sh s !! k = None /\ db_rel d' (with_sh s (<[k := ∅]> (sh s))).
Proof. exact error_effect. Qed.
Print Assumptions C24_error_effect_partial.
Theorem C24_error_effect_refuted : exists q,
  replies (map req [["HKEYS"; "k"]; q; ["HKEYS"; "k"]]%string) = Some [Some RNullArr; Some (err "ERR invalid argument"); Some (RArr [])].
Proof. exists ["HSET"; "k"]%string. vm_compute. reflexivity. Qed.
Print Assumptions C24_error_effect_refuted.
Example C24_case : replies (map req
  [["SET"; "k"; "x"]; ["INCR"; "k"]; ["GET"; "k"]; ["LSET"; "l"; "0"; "a"]; ["LLEN"; "l"]; ["RPUSH"; "l"; "a"]; ["LSET"; "l"; "1"; "b"];
   ["LRANGE"; "l"; "0"; "9"]]%string)
  = Some [ok; Some (err "ERR value is not an integer or out of range"); Some (bulk "x"); Some (err "ERR no such key"); Some (RInt 0);
          Some (RInt 1); Some (err "ERR index out of range"); Some (RArr [bulk "a"])].
Proof. vm_compute. reflexivity. Qed.

(* C25 *)
Theorem C25_frame : forall (e : env) (d : db) (s : sdb) (q : robj) (d' : db) r,
  good e d s -> handle e d q = Ret (d', r) ->
  exists s', db_rel d' s' /\
    forall t (k : bytes), (forall c, asks q c -> kind_of c <> t \/ k ∉ names c) -> same_at t k s s'.
Proof. exact frame. Qed.
Print Assumptions C25_frame.
Example C25_case : replies (map req
  [["SET"; "k"; "x"]; ["RPUSH"; "k"; "a"]; ["HSET"; "k"; "f"; "v"]; ["SADD"; "k"; "m"]; ["SET"; "j"; "y"]; ["LPOP"; "k"]; ["HDEL"; "k"; "f"];
   ["GET"; "k"]; ["SCARD"; "k"]; ["LLEN"; "k"]; ["HLEN"; "k"]; ["EXISTS"; "k"; "j"]]%string)
  = Some [ok; Some (RInt 1); Some (RInt 1); Some (RInt 1); ok; Some (bulk "a"); Some (RInt 1); Some (bulk "x"); Some (RInt 1);
          Some (RInt 0); Some (RInt 0); Some (RInt 2)].
Proof. vm_compute. reflexivity. Qed.

(* C26 *)
Theorem C26_unknown : forall (e : env) (d : db) (q o : robj) (args : list robj) (name : bytes),
  parts q (o :: args) -> is_str o name -> (forall w, w ∈ command_words -> ~ spells name w) ->
  handle e d q = Ret (d, Some (err "ERR no such command")).
Proof. exact lookup_unknown. Qed.
Print Assumptions C26_unknown.
Theorem C26_invalid : forall (e : env) (d : db) (q o : robj) (args : list robj) (name w : bytes),
  parts q (o :: args) -> is_str o name -> w ∈ command_words -> spells name w -> (forall c, ~ call w args c) ->
  handle e d q = Ret (d, Some (err "ERR invalid argument")).
Proof. exact lookup_invalid. Qed.
Print Assumptions C26_invalid.
(* A request that names no command gets one of two other errors, and changes nothing. *)
Theorem C26_empty : forall (e : env) (d : db) (q : robj), parts q [] -> handle e d q = Ret (d, Some (err "ERR vertex server internal error, err=empty request objects")).
Proof. exact lookup_no_parts. Qed.
Print Assumptions C26_empty.
Theorem C26_nameless : forall (e : env) (d : db) (q o : robj) (args : list robj), parts q (o :: args) -> (forall n, ~ is_str o n) ->
  handle e d q = Ret (d, Some (RErr (bs "ERR vertex server internal error, err=invalid command name, raw=" ++ Resp.encode o))).
Proof. exact lookup_nameless. Qed.
Print Assumptions C26_nameless.
Example C26_nameless_ex : parts RNullArr [] /\ (forall n, ~ is_str (RInt 7) n) /\
  replies [RArr [RInt 7; bulk "k"]; RNullArr] = Some [Some (err ("ERR vertex server internal error, err=invalid command name, raw=:7" ++ String CR (String LF EmptyString))); Some (err "ERR vertex server internal error, err=empty request objects")].
Proof. split; [constructor|]. split; [intros n H; inversion H|vm_compute; reflexivity]. Qed.
Theorem C26_known : forall (e : env) (d : db) (s : sdb) (q o : robj) (args : list robj) (name w : bytes),
  good e d s -> parts q (o :: args) -> is_str o name -> w ∈ command_words -> spells name w ->
  forall d', handle e d q <> Ret (d', Some (err "ERR no such command")).
Proof. exact lookup_known. Qed.
Print Assumptions C26_known.
Theorem C26_letter_case : forall (e : env) (d : db) (o o' : robj) (args : list robj) (n n' w : bytes),
  is_str o n -> is_str o' n' -> spells n w -> spells n' w -> handle e d (RArr (o :: args)) = handle e d (RArr (o' :: args)).
Proof. exact letter_case. Qed.
Print Assumptions C26_letter_case.
Theorem C26_words : Forall (fun w => spells w w) command_words.
Proof. exact words_spelt. Qed.
Print Assumptions C26_words.
Example C26_case : replies (map req [["sEt"; "k"; "x"]; ["GET"; "k"]; ["gets"; "k"]; ["Get"]; ["get"; "k"; "j"]; ["GET "; "k"]]%string)
  = Some [ok; Some (bulk "x"); Some (err "ERR no such command"); Some (err "ERR invalid argument"); Some (err "ERR invalid argument");
          Some (err "ERR no such command")].
Proof. vm_compute. reflexivity. Qed.
Example C26_non_string : replies [RArr [bulk "SET"; bulk "k"; RInt 1]; RArr [bulk "SET"; bulk "k"; RArr []]; RArr [bulk "GET"; RSimple (bs "k")]]
  = Some [Some (err "ERR invalid argument"); Some (err "ERR invalid argument"); Some RNullBulk].
Proof. vm_compute. reflexivity. Qed.

(* C27: [answers] is the reference machine; [db_rel d s] says that [d] holds the
   contents [s], and determines them. *)
Theorem C27_refines : forall (h : list (env * robj)),
  Forall (fun x => env_ok (fst x)) h -> requests_size (map snd h) < 2 ^ 62 ->
  match run new_db h with
  | Ret (d, rs) => exists s, db_rel d s /\ fits s /\ answers empty_sdb (map snd h) (Some (s, rs))
  | Panic => answers empty_sdb (map snd h) None
  | NoFuel => False
  end.
Proof. exact runs_refine. Qed.
Print Assumptions C27_refines.
Theorem C27_contents : forall (d : db) (s s' : sdb),
  db_rel d s -> db_rel d s' -> s = s'.
Proof. exact contents_unique. Qed.
Print Assumptions C27_contents.
Example C27_case : replies (map req
  [["MSET"; "a"; "1"; "b"; "2"]; ["INCRBY"; "a"; "41"]; ["APPEND"; "b"; "xyz"]; ["RPUSH"; "l"; "1"; "2"; "3"]; ["LSET"; "l"; "-1"; "z"];
   ["HSET"; "h"; "f"; "v"]; ["SADD"; "s"; "m"; "n"]; ["MGET"; "a"; "b"; "c"]; ["LRANGE"; "l"; "-2"; "-1"]; ["HGET"; "h"; "f"]; ["SCARD"; "s"]]%string)
  = Some [ok; Some (RInt 42); Some (RInt 4); Some (RInt 3); ok; Some (RInt 1); Some (RInt 2);
          Some (RArr [bulk "42"; bulk "2xyz"; RNullBulk]); Some (RArr [bulk "2"; bulk "z"]); Some (bulk "v"); Some (RInt 2)].
Proof. vm_compute. reflexivity. Qed.
