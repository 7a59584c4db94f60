(* Property theorems C17-C18: hash commands. *)
From Verif Require Import Base IntSpec IndexSpec ListSpec IntParse Resp StringC HashC Command SpecDb RequestSpec IdealSpec Db DbProofs
  Engine EngineProofs SpecFacts StringFacts HashSetFacts.
From Coq Require Import ZArith List Ascii String Bool Lia.
From stdpp Require Import gmap.
Open Scope Z_scope.

Definition req (l : list string) : robj := str_req (map bs l).
Definition ok := Some (RSimple (bs "OK")).
Definition bulk (s : string) := RBulk (bs s).

(* C17: [hash_or_empty s k] is the map under [k], empty if absent. *)
Theorem C17_hset_partial : forall (e : env) (d : db) (s : sdb) (q : robj) (k : bytes) l,
  good e d s -> k <> [] -> l <> [] -> request q "hset" (k :: alternate l) ->
  exists d' m, handle e d q = Ret (d', Some (RInt (Z.of_nat (size (list_to_set l.*1 ∖ dom (hash_or_empty s k) : gset bytes))))) /\
    db_rel d' (with_sh s (<[k := m]> (sh s))) /\
    (forall f v l1 l2, l = l1 ++ (f, v) :: l2 -> f ∉ l2.*1 -> m !! f = Some v) /\
    (forall f, f ∉ l.*1 -> m !! f = hash_or_empty s k !! f).
Proof. exact hset_ok. Qed.
Print Assumptions C17_hset_partial.
Theorem C17_hdel : forall (e : env) (d : db) (s : sdb) (q : robj) (k : bytes) (fs : list bytes),
  good e d s -> fs <> [] -> request q "hdel" (k :: fs) ->
  exists d' s', handle e d q = Ret (d', Some (RInt (Z.of_nat (size (list_to_set fs ∩ dom (hash_or_empty s k) : gset bytes))))) /\
    db_rel d' s' /\
    (forall f, hash_or_empty s' k !! f = if decide (f ∈ fs) then None else hash_or_empty s k !! f) /\
    (forall k', k' <> k -> sh s' !! k' = sh s !! k') /\ ss s' = ss s /\ sl s' = sl s /\ st s' = st s.
Proof. exact hdel_ok. Qed.
Print Assumptions C17_hdel.
Theorem C17_hget_partial : forall (e : env) (d : db) (s : sdb) (q : robj) (k : bytes) (f : bytes),
  good e d s -> f <> [] -> request q "hget" [k; f] ->
  exists d', handle e d q = Ret (d', Some (match hash_or_empty s k !! f with Some v => RBulk v | None => RNullBulk end)) /\ db_rel d' s.
Proof. exact hget_ok. Qed.
Print Assumptions C17_hget_partial.
Theorem C17_hmget : forall (e : env) (d : db) (s : sdb) (q : robj) (k : bytes) (fs : list bytes),
  good e d s -> fs <> [] -> request q "hmget" (k :: fs) ->
  exists d', handle e d q =
    Ret (d', Some (RArr (map (fun f => match hash_or_empty s k !! f with Some v => RBulk v | None => RNullBulk end) fs))) /\ db_rel d' s.
Proof. exact hmget_ok. Qed.
Print Assumptions C17_hmget.
Theorem C17_hexists_partial : forall (e : env) (d : db) (s : sdb) (q : robj) (k : bytes) (f : bytes),
  good e d s -> f <> [] -> request q "hexists" [k; f] ->
  exists d', handle e d q = Ret (d', Some (RInt (match hash_or_empty s k !! f with Some _ => 1 | None => 0 end))) /\ db_rel d' s.
Proof. exact hexists_ok. Qed.
Print Assumptions C17_hexists_partial.
Theorem C17_hlen : forall (e : env) (d : db) (s : sdb) (q : robj) (k : bytes),
  good e d s -> request q "hlen" [k] ->
  exists d', handle e d q = Ret (d', Some (RInt (Z.of_nat (size (hash_or_empty s k))))) /\ db_rel d' s.
Proof. exact hlen_ok. Qed.
Print Assumptions C17_hlen.
Theorem C17_hstrlen_partial : forall (e : env) (d : db) (s : sdb) (q : robj) (k : bytes) (f : bytes),
  good e d s -> f <> [] -> request q "hstrlen" [k; f] ->
  exists d', handle e d q = Ret (d', Some (RInt (match hash_or_empty s k !! f with Some v => blen v | None => 0 end))) /\ db_rel d' s.
Proof. exact hstrlen_ok. Qed.
Print Assumptions C17_hstrlen_partial.
(* Whole histories, with any other traffic in between.  Missing: the empty key (it
   crashes HSET, see C22), HSET without fields, and reads of the empty field. *)
Theorem C17_history_partial : forall (k : bytes) h ocs v xs,
  k <> [] -> Forall (fun x => env_ok (fst x)) h -> requests_size (map snd h) < 2 ^ 62 ->
  Forall2 (fun q oc => match oc with
                       | Some c => asks q c /\ names c = [k]
                       | None => ~ writes q KHash k
                       end) (map snd h) ocs ->
  ideal_run ideal_hash None ocs = Some (v, xs) ->
  match run new_db h with
  | Ret (d, rs) => Forall2 agrees xs rs /\ exists s, db_rel d s /\ fits s /\ sh s !! k = v
  | Panic => None ∈ ocs
  | NoFuel => False
  end.
Proof. exact hash_history. Qed.
Print Assumptions C17_history_partial.
(* The empty field can be set but not read back. *)
Theorem C17_empty_field_refuted : exists h,
  h = map req [["HSET"; "k"; ""; "v"]; ["HMGET"; "k"; ""]; ["HGET"; "k"; ""]]%string /\
  replies h = Some [Some (RInt 1); Some (RArr [bulk "v"]); Some (err "ERR invalid argument")].
Proof. eexists. split; [reflexivity|]. vm_compute. reflexivity. Qed.
Print Assumptions C17_empty_field_refuted.
Example C17_case : replies (map req
  [["HSET"; "k"; "a"; "1"; "b"; "2"; "a"; "3"]; ["HGET"; "k"; "a"]; ["HSET"; "k"; "b"; "4"; "c"; "5"]; ["HLEN"; "k"];
   ["HMGET"; "k"; "b"; "zz"]; ["HEXISTS"; "k"; "c"]; ["HDEL"; "k"; "c"; "c"; "zz"]; ["HEXISTS"; "k"; "c"]; ["HSTRLEN"; "k"; "a"]]%string)
  = Some [Some (RInt 2); Some (bulk "3"); Some (RInt 1); Some (RInt 3); Some (RArr [bulk "4"; RNullBulk]); Some (RInt 1);
          Some (RInt 1); Some (RInt 0); Some (RInt 1)].
Proof. vm_compute. reflexivity. Qed.
Example C17_history_case : fmap snd (ideal_run ideal_hash None
  [Some (CHset (bs "k") [bs "f"; bs "f"] [bs "1"; bs "2"]); None; Some (CHget (bs "k") (bs "f")); Some (CHlen (bs "k"))])
  = Some [Some (RInt 1); None; Some (bulk "2"); Some (RInt 1)].
Proof. vm_compute. reflexivity. Qed.

(* C18: [lists_fields l h]: [l] lists the fields of [h], each once. *)
Theorem C18_hkeys : forall (e : env) (d : db) (s : sdb) (q : robj) (k : bytes) (h : gmap bytes bytes),
  good e d s -> request q "hkeys" [k] -> sh s !! k = Some h ->
  exists d' l, handle e d q = Ret (d', Some (RArr (map RBulk l))) /\ db_rel d' s /\ lists_fields l h.
Proof. exact hkeys_ok. Qed.
Print Assumptions C18_hkeys.
Theorem C18_hvals : forall (e : env) (d : db) (s : sdb) (q : robj) (k : bytes) (h : gmap bytes bytes),
  good e d s -> request q "hvals" [k] -> sh s !! k = Some h ->
  exists d' l vs, handle e d q = Ret (d', Some (RArr (map RBulk vs))) /\ db_rel d' s /\ lists_fields l h /\
    Forall2 (fun f v => h !! f = Some v) l vs.
Proof. exact hvals_ok. Qed.
Print Assumptions C18_hvals.
Theorem C18_hgetall : forall (e : env) (d : db) (s : sdb) (q : robj) (k : bytes) (h : gmap bytes bytes),
  good e d s -> request q "hgetall" [k] -> sh s !! k = Some h ->
  exists d' l, handle e d q = Ret (d', Some (RArr (map RBulk (alternate l)))) /\ db_rel d' s /\ lists_fields l.*1 h /\
    Forall (fun p => h !! p.1 = Some p.2) l.
Proof. exact hgetall_ok. Qed.
Print Assumptions C18_hgetall.
Theorem C18_absent : forall (e : env) (d : db) (s : sdb) (q : robj) (w : string) (k : bytes),
  good e d s -> (w = "hkeys" \/ w = "hvals" \/ w = "hgetall")%string -> request q w [k] -> sh s !! k = None ->
  exists d', handle e d q = Ret (d', Some RNullArr) /\ db_rel d' s.
Proof. exact hash_enum_absent. Qed.
Print Assumptions C18_absent.
(* Two iteration orders. *)
Definition rev_env : env := mkEnv (fun _ l => rev l) [].
Lemma rev_env_ok : env_ok rev_env.
Proof. intros n l. symmetry. apply Permutation_rev. Qed.
Definition replies_rev (l : list robj) : option (list (option robj)) :=
  match run new_db (map (fun q => (rev_env, q)) l) with Ret (_, rs) => Some rs | _ => None end.
Example C18_case :
  replies (map req [["HSET"; "k"; "a"; "1"; "b"; "2"]; ["HGETALL"; "k"]; ["HKEYS"; "k"]; ["HVALS"; "k"]]%string)
  = Some [Some (RInt 2); Some (RArr [bulk "b"; bulk "2"; bulk "a"; bulk "1"]); Some (RArr [bulk "b"; bulk "a"]);
          Some (RArr [bulk "2"; bulk "1"])] /\
  replies_rev (map req [["HSET"; "k"; "a"; "1"; "b"; "2"]; ["HGETALL"; "k"]; ["HKEYS"; "k"]; ["HVALS"; "k"]]%string)
  = Some [Some (RInt 2); Some (RArr [bulk "a"; bulk "1"; bulk "b"; bulk "2"]); Some (RArr [bulk "a"; bulk "b"]);
          Some (RArr [bulk "1"; bulk "2"])].
Proof. vm_compute. auto. Qed.
