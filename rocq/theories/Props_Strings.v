(* Property theorems C06-C10: string commands, stated on requests and replies. *)
From Verif Require Import Base IntSpec IndexSpec ListSpec IntParse Resp StringC HashC Command SpecDb RequestSpec IdealSpec Db DbProofs
  Engine EngineProofs SpecFacts StringFacts.
From Coq Require Import ZArith List Ascii String Bool Lia.
From stdpp Require Import gmap.
Open Scope Z_scope.

(* C06: SET, MSET, GET and MGET act on the map of strings.  [db_rel d s]: database [d]
   has the contents [s]; [good] adds the size bound. *)
Theorem C06_set : forall e d s q k v, good e d s -> request q "set" [k; v] ->
  exists d', handle e d q = Ret (d', Some (RSimple (bs "OK"))) /\ db_rel d' (with_ss s (<[k := v]> (ss s))).
Proof. exact set_ok. Qed.
Print Assumptions C06_set.

Theorem C06_get : forall e d s q k, good e d s -> request q "get" [k] ->
  exists d', handle e d q = Ret (d', Some (match ss s !! k with Some v => RBulk v | None => RNullBulk end)) /\ db_rel d' s.
Proof. exact get_ok. Qed.
Print Assumptions C06_get.

Theorem C06_mset : forall e d s q l, good e d s -> l <> [] -> request q "mset" (alternate l) ->
  exists d' m, handle e d q = Ret (d', Some (RSimple (bs "OK"))) /\ db_rel d' (with_ss s m) /\
    (forall k v l1 l2, l = l1 ++ (k, v) :: l2 -> k ∉ l2.*1 -> m !! k = Some v) /\
    (forall k, k ∉ l.*1 -> m !! k = ss s !! k).
Proof. exact mset_ok. Qed.
Print Assumptions C06_mset.

Theorem C06_mget : forall e d s q ks, good e d s -> ks <> [] -> request q "mget" ks ->
  exists d', handle e d q = Ret (d', Some (RArr (map (fun k => match ss s !! k with Some v => RBulk v | None => RNullBulk end) ks)))
    /\ db_rel d' s.
Proof. exact mget_ok. Qed.
Print Assumptions C06_mget.

(* Over whole histories: GET answers with the last write, whatever other traffic there
   was, and with null if there was none. *)
Theorem C06_last_write : forall h1 e1 q1 h2 e2 q2 k v d rs,
  Forall (fun x => env_ok (fst x)) (h1 ++ (e1, q1) :: h2 ++ [(e2, q2)]) ->
  requests_size (map snd (h1 ++ (e1, q1) :: h2 ++ [(e2, q2)])) < 2 ^ 62 ->
  (request q1 "set" [k; v] \/
   exists l1 l2, request q1 "mset" (alternate (l1 ++ (k, v) :: l2)) /\ k ∉ l2.*1) ->
  (forall q, q ∈ map snd h2 -> ~ writes q KStr k) -> request q2 "get" [k] ->
  run new_db (h1 ++ (e1, q1) :: h2 ++ [(e2, q2)]) = Ret (d, rs) -> last rs = Some (Some (RBulk v)).
Proof. exact last_write_ok. Qed.
Print Assumptions C06_last_write.

Theorem C06_never_written : forall h e2 q2 k d rs,
  Forall (fun x => env_ok (fst x)) (h ++ [(e2, q2)]) -> requests_size (map snd (h ++ [(e2, q2)])) < 2 ^ 62 ->
  (forall q, q ∈ map snd h -> ~ writes q KStr k) -> request q2 "get" [k] ->
  run new_db (h ++ [(e2, q2)]) = Ret (d, rs) -> last rs = Some (Some RNullBulk).
Proof. exact never_written_ok. Qed.
Print Assumptions C06_never_written.

(* the whole string store as a map, with any traffic to other data types in between *)
Theorem C06_history : forall h ocs m xs, Forall (fun x => env_ok (fst x)) h -> requests_size (map snd h) < 2 ^ 62 ->
  Forall2 (fun q oc => match oc with
                       | Some c => asks q c /\ True
                       | None => forall c, asks q c -> kind_of c = KStr -> written c = []
                       end) (map snd h) ocs ->
  ideal_run ideal_str ∅ ocs = Some (m, xs) ->
  match run new_db h with
  | Ret (d, rs) => Forall2 agrees xs rs /\ exists s, db_rel d s /\ fits s /\ ss s = m
  | Panic => None ∈ ocs
  | NoFuel => False
  end.
Proof. exact str_history. Qed.
Print Assumptions C06_history.

(* The hypotheses hold, e.g. in the empty database, for a request in mixed case. *)
Example C06_case_hyps : good some_env new_db empty_sdb /\ request (str_req [bs "gEt"; bs "k"]) "get" [bs "k"].
Proof.
  split; [exact some_good|]. apply str_req_request.
  apply sp_same; [vm_compute; split; discriminate|]. apply (sp_upper _ "e"%char); [vm_compute; split; discriminate|reflexivity|].
  apply sp_same; [vm_compute; split; discriminate|]. constructor.
Qed.
Example C06_case : replies (map str_req
  [[bs "SET"; bs "k"; bs "v"]; [bs "MSET"; bs "a"; bs "1"; bs "k"; bs "2"; bs "a"; bs "3"]; [bs "get"; bs "a"];
   [bs "MGET"; bs "k"; bs "zz"; bs "a"]])
  = Some [Some (RSimple (bs "OK")); Some (RSimple (bs "OK")); Some (RBulk (bs "3"));
          Some (RArr [RBulk (bs "2"); RNullBulk; RBulk (bs "3")])].
Proof. vm_compute. reflexivity. Qed.
Example C06_history_case : ideal_run ideal_str ∅ [Some (CSet (bs "k") (bs "v")); None; Some (CGet (bs "k"))]
  = Some ({[bs "k" := bs "v"]}, [Some (RSimple (bs "OK")); None; Some (RBulk (bs "v"))]).
Proof. reflexivity. Qed.

(* C07 *)
Theorem C07_exists : forall e d s q ks, good e d s -> ks <> [] -> request q "exists" ks ->
  exists d', handle e d q = Ret (d', Some (RInt (Z.of_nat (length (filter (fun k => is_Some (ss s !! k)) ks))))) /\ db_rel d' s.
Proof. exact exists_ok. Qed.
Print Assumptions C07_exists.
Theorem C07_strlen : forall e d s q k, good e d s -> request q "strlen" [k] ->
  exists d', handle e d q = Ret (d', Some (RInt (match ss s !! k with Some v => blen v | None => 0 end))) /\ db_rel d' s.
Proof. exact strlen_ok. Qed.
Print Assumptions C07_strlen.

Example C07_case : replies (map str_req
  [[bs "SET"; bs "k"; bs "abc"]; [bs "EXISTS"; bs "k"; bs "x"; bs "k"]; [bs "STRLEN"; bs "k"]; [bs "STRLEN"; bs "x"]])
  = Some [Some (RSimple (bs "OK")); Some (RInt 2); Some (RInt 3); Some (RInt 0)].
Proof. vm_compute. reflexivity. Qed.

(* C08: exact arithmetic as long as the result is an int64 ... *)
Theorem C08_incrby_partial : forall e d s q k ta n t v, good e d s -> request q "incrby" [k; ta] -> is_int ta n ->
  ss s !! k = Some t -> is_int t v -> int64_ok (v + n) ->
  exists d' t', handle e d q = Ret (d', Some (RInt (v + n))) /\ canonical t' (v + n) /\
    db_rel d' (with_ss s (<[k := t']> (ss s))).
Proof. exact incrby_ok. Qed.
Print Assumptions C08_incrby_partial.
Theorem C08_decrby_partial : forall e d s q k ta n t v, good e d s -> request q "decrby" [k; ta] -> is_int ta n ->
  ss s !! k = Some t -> is_int t v -> int64_ok (v - n) ->
  exists d' t', handle e d q = Ret (d', Some (RInt (v - n))) /\ canonical t' (v - n) /\
    db_rel d' (with_ss s (<[k := t']> (ss s))).
Proof. exact decrby_ok. Qed.
Print Assumptions C08_decrby_partial.
Theorem C08_incr_partial : forall e d s q k rest t v, good e d s -> request q "incr" (k :: rest) ->
  ss s !! k = Some t -> is_int t v -> v <> 2 ^ 63 - 1 ->
  exists d' t', handle e d q = Ret (d', Some (RInt (v + 1))) /\ canonical t' (v + 1) /\
    db_rel d' (with_ss s (<[k := t']> (ss s))).
Proof. exact incr_ok. Qed.
Print Assumptions C08_incr_partial.
Theorem C08_decr_partial : forall e d s q k rest t v, good e d s -> request q "decr" (k :: rest) ->
  ss s !! k = Some t -> is_int t v -> v <> - 2 ^ 63 ->
  exists d' t', handle e d q = Ret (d', Some (RInt (v - 1))) /\ canonical t' (v - 1) /\
    db_rel d' (with_ss s (<[k := t']> (ss s))).
Proof. exact decr_ok. Qed.
Print Assumptions C08_decr_partial.
(* ... an error, with nothing changed, on an absent key or a text that is no integer ... *)
Theorem C08_errors : forall e d s q w k ta, good e d s -> (w = "incrby" \/ w = "decrby")%string -> request q w [k; ta] ->
  (ss s !! k = None \/ (forall n, ~ is_int ta n) \/ exists t, ss s !! k = Some t /\ forall n, ~ is_int t n) ->
  exists d' t, handle e d q = Ret (d', Some (RErr t)) /\ db_rel d' s.
Proof. exact arith_errors. Qed.
Print Assumptions C08_errors.
Theorem C08_errors_one : forall e d s q w k rest, good e d s -> (w = "incr" \/ w = "decr")%string -> request q w (k :: rest) ->
  (ss s !! k = None \/ exists t, ss s !! k = Some t /\ forall n, ~ is_int t n) ->
  exists d' t, handle e d q = Ret (d', Some (RErr t)) /\ db_rel d' s.
Proof. exact one_errors. Qed.
Print Assumptions C08_errors_one.
(* ... but an overflow wraps silently. *)
Theorem C08_overflow_refuted : exists h d v, Forall (fun x => env_ok (fst x)) h /\
  map snd h = [str_req [bs "SET"; bs "n"; bs "9223372036854775807"]; str_req [bs "INCR"; bs "n"]] /\
  run new_db h = Ret (d, [Some (RSimple (bs "OK")); Some (RInt v)]) /\ v <> 9223372036854775807 + 1.
Proof. exact overflow_wraps. Qed.
Print Assumptions C08_overflow_refuted.
Theorem C08_wraps : forall e d s q k ta n t v, good e d s -> request q "incrby" [k; ta] -> is_int ta n ->
  ss s !! k = Some t -> is_int t v ->
  exists d' t', handle e d q = Ret (d', Some (RInt (wrap64 (v + n)))) /\ canonical t' (wrap64 (v + n)) /\
    db_rel d' (with_ss s (<[k := t']> (ss s))).
Proof. exact incrby_wraps. Qed.
Print Assumptions C08_wraps.
Theorem C08_wraps_decrby : forall e d s q k ta n t v, good e d s -> request q "decrby" [k; ta] -> is_int ta n ->
  ss s !! k = Some t -> is_int t v ->
  exists d' t', handle e d q = Ret (d', Some (RInt (wrap64 (v - n)))) /\ canonical t' (wrap64 (v - n)) /\
    db_rel d' (with_ss s (<[k := t']> (ss s))).
Proof. exact decrby_wraps. Qed.
Print Assumptions C08_wraps_decrby.
Theorem C08_wraps_incr : forall e d s q k rest t, good e d s -> request q "incr" (k :: rest) ->
  ss s !! k = Some t -> is_int t (2 ^ 63 - 1) ->
  exists d' t', handle e d q = Ret (d', Some (RInt (- 2 ^ 63))) /\ canonical t' (- 2 ^ 63) /\
    db_rel d' (with_ss s (<[k := t']> (ss s))).
Proof. exact incr_wraps. Qed.
Print Assumptions C08_wraps_incr.
Theorem C08_wraps_decr : forall e d s q k rest t, good e d s -> request q "decr" (k :: rest) ->
  ss s !! k = Some t -> is_int t (- 2 ^ 63) ->
  exists d' t', handle e d q = Ret (d', Some (RInt (2 ^ 63 - 1))) /\ canonical t' (2 ^ 63 - 1) /\
    db_rel d' (with_ss s (<[k := t']> (ss s))).
Proof. exact decr_wraps. Qed.
Print Assumptions C08_wraps_decr.

Example C08_wraps_ex : replies (map str_req
  [[bs "SET"; bs "k"; bs "9223372036854775807"]; [bs "INCR"; bs "k"]; [bs "DECR"; bs "k"]; [bs "INCRBY"; bs "k"; bs "2"];
   [bs "DECRBY"; bs "k"; bs "9"]; [bs "DECR"; bs "zz"]; [bs "SET"; bs "k"; bs "x"]; [bs "DECR"; bs "k"]])
  = Some [Some (RSimple (bs "OK")); Some (RInt (- 2 ^ 63)); Some (RInt (2 ^ 63 - 1)); Some (RInt (- 2 ^ 63 + 1));
          Some (RInt (2 ^ 63 - 8)); Some (err "ERR no such key"); Some (RSimple (bs "OK")); Some (err "ERR value is not an integer or out of range")].
Proof. vm_compute. reflexivity. Qed.
Example C08_case : replies (map str_req
  [[bs "SET"; bs "k"; bs "+041"]; [bs "INCR"; bs "k"]; [bs "DECRBY"; bs "k"; bs "-8"]; [bs "GET"; bs "k"];
   [bs "INCRBY"; bs "zz"; bs "1"]; [bs "SET"; bs "k"; bs "4x"]; [bs "INCR"; bs "k"]])
  = Some [Some (RSimple (bs "OK")); Some (RInt 42); Some (RInt 50); Some (RBulk (bs "50"));
          Some (err "ERR no such key"); Some (RSimple (bs "OK")); Some (err "ERR value is not an integer or out of range")].
Proof. vm_compute. reflexivity. Qed.

(* C09 *)
Theorem C09_append : forall e d s q k v, good e d s -> request q "append" [k; v] ->
  let t := match ss s !! k with Some t => t ++ v | None => v end in
  exists d', handle e d q = Ret (d', Some (RInt (blen t))) /\ db_rel d' (with_ss s (<[k := t]> (ss s))).
Proof. exact append_ok. Qed.
Print Assumptions C09_append.

Example C09_case : replies (map str_req
  [[bs "APPEND"; bs "k"; bs "ab"]; [bs "APPEND"; bs "k"; bs "c"]; [bs "GET"; bs "k"]])
  = Some [Some (RInt 2); Some (RInt 3); Some (RBulk (bs "abc"))].
Proof. vm_compute. reflexivity. Qed.

(* C10: [position] resolves an index; the reply holds exactly the bytes at positions
   a..b, b clipped. *)
Theorem C10_getrange : forall e d s q k ta tb a b, good e d s -> request q "getrange" [k; ta; tb] ->
  is_int ta a -> is_int tb b ->
  let t := match ss s !! k with Some t => t | None => [] end in
  let pa := position a (blen t) in let pb := position b (blen t) in
  exists d' r, handle e d q = Ret (d', Some (RBulk r)) /\ db_rel d' s /\
    (0 <= pa < blen t /\ pa <= pb ->
       blen r = Z.min pb (blen t - 1) - pa + 1 /\
       forall i, 0 <= i < blen r -> r !! Z.to_nat i = t !! Z.to_nat (pa + i)) /\
    (~ (0 <= pa < blen t /\ pa <= pb) -> r = []).
Proof. exact getrange_ok. Qed.
Print Assumptions C10_getrange.

Example C10_case : replies (map str_req
  [[bs "SET"; bs "k"; bs "hello"]; [bs "GETRANGE"; bs "k"; bs "1"; bs "-2"]; [bs "GETRANGE"; bs "k"; bs "-3"; bs "99"];
   [bs "GETRANGE"; bs "k"; bs "3"; bs "1"]; [bs "GETRANGE"; bs "k"; bs "-9"; bs "2"]])
  = Some [Some (RSimple (bs "OK")); Some (RBulk (bs "ell")); Some (RBulk (bs "llo")); Some (RBulk []); Some (RBulk [])].
Proof. vm_compute. reflexivity. Qed.
