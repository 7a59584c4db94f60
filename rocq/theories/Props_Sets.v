(* Property theorems C19-C21: set commands. *)
From Verif Require Import Base IntSpec IndexSpec ListSpec IntParse Resp StringC HashC Command SpecDb RequestSpec IdealSpec Db DbProofs
  Engine EngineProofs SpecFacts StringFacts HashSetFacts.
From Coq Require Import ZArith List Ascii String Bool Lia.
From stdpp Require Import gmap.
Open Scope Z_scope.

Definition req (l : list string) : robj := str_req (map bs l).
Definition ok := Some (RSimple (bs "OK")).
Definition bulk (s : string) := RBulk (bs s).

(* C19: [set_or_empty s k] is the set under [k], empty if absent. *)
Theorem C19_sadd_partial : forall (e : env) (d : db) (s : sdb) (q : robj) (k : bytes) (vs : list bytes),
  good e d s -> k <> [] -> vs <> [] -> request q "sadd" (k :: vs) ->
  exists d', handle e d q = Ret (d', Some (RInt (Z.of_nat (size (list_to_set vs ∖ set_or_empty s k : gset bytes))))) /\
    db_rel d' (with_st s (<[k := set_or_empty s k ∪ list_to_set vs]> (st s))).
Proof. exact sadd_ok. Qed.
Print Assumptions C19_sadd_partial.
Theorem C19_srem_partial : forall (e : env) (d : db) (s : sdb) (q : robj) (k : bytes) (vs : list bytes),
  good e d s -> k <> [] -> vs <> [] -> request q "srem" (k :: vs) ->
  exists d', handle e d q = Ret (d', Some (RInt (Z.of_nat (size (set_or_empty s k ∩ list_to_set vs))))) /\
    db_rel d' (with_st s (<[k := set_or_empty s k ∖ list_to_set vs]> (st s))).
Proof. exact srem_ok. Qed.
Print Assumptions C19_srem_partial.
Theorem C19_sismember_partial : forall (e : env) (d : db) (s : sdb) (q : robj) (k : bytes) (v : bytes),
  good e d s -> v <> [] -> request q "sismember" [k; v] ->
  exists d', handle e d q = Ret (d', Some (RInt (if decide (v ∈ set_or_empty s k) then 1 else 0))) /\ db_rel d' s.
Proof. exact sismember_ok. Qed.
Print Assumptions C19_sismember_partial.
Theorem C19_scard : forall (e : env) (d : db) (s : sdb) (q : robj) (k : bytes),
  good e d s -> request q "scard" [k] ->
  exists d', handle e d q = Ret (d', Some (RInt (Z.of_nat (size (set_or_empty s k))))) /\ db_rel d' s.
Proof. exact scard_ok. Qed.
Print Assumptions C19_scard.
Theorem C19_smembers : forall (e : env) (d : db) (s : sdb) (q : robj) (k : bytes) (X : gset bytes),
  good e d s -> request q "smembers" [k] -> st s !! k = Some X ->
  exists d' l, handle e d q = Ret (d', Some (RArr (map RBulk l))) /\ db_rel d' s /\ NoDup l /\ forall x, x ∈ l <-> x ∈ X.
Proof. exact smembers_ok. Qed.
Print Assumptions C19_smembers.
Theorem C19_smembers_absent : forall (e : env) (d : db) (s : sdb) (q : robj) (k : bytes),
  good e d s -> request q "smembers" [k] -> st s !! k = None ->
  exists d', handle e d q = Ret (d', Some RNullArr) /\ db_rel d' s.
Proof. exact smembers_absent. Qed.
Print Assumptions C19_smembers_absent.
(* Whole histories, with any other traffic in between.  Missing: the empty key (it
   crashes, see C22) and SISMEMBER of the empty member. *)
Theorem C19_history_partial : forall (k : bytes) h ocs v xs,
  k <> [] -> Forall (fun x => env_ok (fst x)) h -> requests_size (map snd h) < 2 ^ 62 ->
  Forall2 (fun q oc => match oc with
                       | Some c => asks q c /\ names c = [k]
                       | None => ~ writes q KSet k
                       end) (map snd h) ocs ->
  ideal_run ideal_set None ocs = Some (v, xs) ->
  match run new_db h with
  | Ret (d, rs) => Forall2 agrees xs rs /\ exists s, db_rel d s /\ fits s /\ st s !! k = v
  | Panic => None ∈ ocs
  | NoFuel => False
  end.
Proof. exact set_history. Qed.
Print Assumptions C19_history_partial.
(* The empty member can be added but SISMEMBER rejects it. *)
Theorem C19_empty_member_refuted : exists h,
  h = map req [["SADD"; "k"; ""]; ["SCARD"; "k"]; ["SISMEMBER"; "k"; ""]]%string /\
  replies h = Some [Some (RInt 1); Some (RInt 1); Some (err "ERR invalid argument")].
Proof. eexists. split; [reflexivity|]. vm_compute. reflexivity. Qed.
Print Assumptions C19_empty_member_refuted.
Example C19_case : replies (map req
  [["SADD"; "k"; "a"; "b"; "a"]; ["SADD"; "k"; "b"; "c"]; ["SCARD"; "k"]; ["SISMEMBER"; "k"; "c"]; ["SREM"; "k"; "c"; "c"; "zz"];
   ["SISMEMBER"; "k"; "c"]; ["SREM"; "k"; "b"]; ["SMEMBERS"; "k"]]%string)
  = Some [Some (RInt 2); Some (RInt 1); Some (RInt 3); Some (RInt 1); Some (RInt 1); Some (RInt 0); Some (RInt 1);
          Some (RArr [bulk "a"])].
Proof. vm_compute. reflexivity. Qed.
Example C19_history_case : fmap snd (ideal_run ideal_set None
  [Some (CSadd (bs "k") [bs "f"; bs "f"]); None; Some (CSismember (bs "k") (bs "f")); Some (CScard (bs "k"))])
  = Some [Some (RInt 1); None; Some (RInt 1); Some (RInt 1)].
Proof. vm_compute. reflexivity. Qed.

(* C20: [replies_set r P]: the reply lists exactly the [x] with [P x], each once, or is
   null if there is none. *)
Theorem C20_sdiff : forall (e : env) (d : db) (s : sdb) (q : robj) (k : bytes) (ks : list bytes),
  good e d s -> request q "sdiff" (k :: ks) ->
  exists d' r, handle e d q = Ret (d', Some r) /\ db_rel d' s /\
    replies_set r (fun x => x ∈ set_or_empty s k /\ forall k', k' ∈ ks -> x ∉ set_or_empty s k').
Proof. exact sdiff_ok. Qed.
Print Assumptions C20_sdiff.
Theorem C20_sinter : forall (e : env) (d : db) (s : sdb) (q : robj) (ks : list bytes),
  good e d s -> ks <> [] -> request q "sinter" ks ->
  exists d' r, handle e d q = Ret (d', Some r) /\ db_rel d' s /\ replies_set r (fun x => forall k, k ∈ ks -> x ∈ set_or_empty s k).
Proof. exact sinter_ok. Qed.
Print Assumptions C20_sinter.
Theorem C20_sunion : forall (e : env) (d : db) (s : sdb) (q : robj) (ks : list bytes),
  good e d s -> ks <> [] -> request q "sunion" ks ->
  exists d' r, handle e d q = Ret (d', Some r) /\ db_rel d' s /\ replies_set r (fun x => exists k, k ∈ ks /\ x ∈ set_or_empty s k).
Proof. exact sunion_ok. Qed.
Print Assumptions C20_sunion.
Example C20_case : replies (map req
  [["SADD"; "x"; "a"; "b"; "c"]; ["SADD"; "y"; "b"; "c"; "d"]; ["SDIFF"; "x"; "y"]; ["SINTER"; "y"; "x"; "x"]; ["SINTER"; "x"; "none"];
   ["SUNION"; "x"; "none"; "y"]]%string)
  = Some [Some (RInt 3); Some (RInt 3); Some (RArr [bulk "a"]); Some (RArr [bulk "b"; bulk "c"]); Some RNullArr;
          Some (RArr [bulk "d"; bulk "b"; bulk "a"; bulk "c"])].
Proof. vm_compute. reflexivity. Qed.

(* C21: [chooses l n X]: [l] is a choice of min(n, |X|) distinct members of [X]. *)
Theorem C21_srandmember : forall (e : env) (d : db) (s : sdb) (q : robj) (k : bytes) (tn : bytes) (n : Z),
  good e d s -> request q "srandmember" [k; tn] -> is_int tn n ->
  exists d' l, handle e d q = Ret (d', Some (chooses_reply l)) /\ db_rel d' s /\ chooses l (Z.abs n) (set_or_empty s k).
Proof. exact srandmember_ok. Qed.
Print Assumptions C21_srandmember.
Theorem C21_spop : forall (e : env) (d : db) (s : sdb) (q : robj) (k : bytes) (tn : bytes) (n : Z),
  good e d s -> request q "spop" [k; tn] -> is_int tn n ->
  exists d' s' l, handle e d q = Ret (d', Some (chooses_reply l)) /\ chooses l (Z.abs n) (set_or_empty s k) /\ db_rel d' s' /\
    set_or_empty s' k = set_or_empty s k ∖ list_to_set l /\
    (forall k', k' <> k -> st s' !! k' = st s !! k') /\ ss s' = ss s /\ sl s' = sl s /\ sh s' = sh s.
Proof. exact spop_ok. Qed.
Print Assumptions C21_spop.
Theorem C21_srandmember1_partial : forall (e : env) (d : db) (s : sdb) (q : robj) (k : bytes),
  good e d s -> request q "srandmember" [k] -> set_or_empty s k <> ∅ ->
  exists d' x, handle e d q = Ret (d', Some (RBulk x)) /\ db_rel d' s /\ x ∈ set_or_empty s k.
Proof. exact srandmember1_ok. Qed.
Print Assumptions C21_srandmember1_partial.
Theorem C21_spop1_partial : forall (e : env) (d : db) (s : sdb) (q : robj) (k : bytes),
  good e d s -> request q "spop" [k] -> set_or_empty s k <> ∅ ->
  exists d' x, handle e d q = Ret (d', Some (RBulk x)) /\ x ∈ set_or_empty s k /\
    db_rel d' (with_st s (<[k := set_or_empty s k ∖ {[x]}]> (st s))).
Proof. exact spop1_ok. Qed.
Print Assumptions C21_spop1_partial.
Theorem C21_absent : forall (e : env) (d : db) (s : sdb) (q : robj) (w : string) (k : bytes),
  good e d s -> (w = "spop" \/ w = "srandmember")%string -> request q w [k] -> st s !! k = None ->
  exists d', handle e d q = Ret (d', Some RNullBulk) /\ db_rel d' s.
Proof. exact pick_absent. Qed.
Print Assumptions C21_absent.
(* Without a count, an existing empty set crashes the server. *)
Theorem C21_empty_set_refuted : exists h,
  h = map req [["SADD"; "k"; "a"]; ["SREM"; "k"; "a"]; ["SPOP"; "k"]]%string /\
  run new_db (map (fun q => (some_env, q)) h) = Panic.
Proof. eexists. split; [reflexivity|]. vm_compute. reflexivity. Qed.
Print Assumptions C21_empty_set_refuted.
Example C21_case : replies (map req
  [["SADD"; "x"; "a"; "b"; "c"]; ["SRANDMEMBER"; "x"; "-2"]; ["SCARD"; "x"]; ["SPOP"; "x"; "2"]; ["SMEMBERS"; "x"]; ["SPOP"; "x"];
   ["SPOP"; "x"; "5"]; ["SPOP"; "none"]]%string)
  = Some [Some (RInt 3); Some (RArr [bulk "b"; bulk "a"]); Some (RInt 3); Some (RArr [bulk "b"; bulk "a"]); Some (RArr [bulk "c"]);
          Some (bulk "c"); Some RNullArr; Some RNullBulk].
Proof. vm_compute. reflexivity. Qed.
