(* Property theorems C12-C16: list commands, stated on requests and replies. *)
From Verif Require Import Base IntSpec IndexSpec ListSpec IntParse Resp StringC HashC Command SpecDb RequestSpec IdealSpec Db DbProofs
  Engine EngineProofs SpecFacts StringFacts ListFacts.
From Coq Require Import ZArith List Ascii String Bool Lia.
From stdpp Require Import gmap.
Open Scope Z_scope.

Definition req (l : list string) : robj := str_req (map bs l).
Definition ok := Some (RSimple (bs "OK")).
Definition bulk (s : string) := RBulk (bs s).

(* C12: single commands on the sequence under a key ... *)
Theorem C12_lpush : forall e d s q k vs, good e d s -> k <> [] -> vs <> [] -> request q "lpush" (k :: vs) ->
  let l := rev vs ++ list_or_nil s k in
  exists d', handle e d q = Ret (d', Some (RInt (Z.of_nat (length l)))) /\ db_rel d' (with_sl s (<[k := l]> (sl s))).
Proof. exact lpush_ok. Qed.
Print Assumptions C12_lpush.
Theorem C12_rpush : forall e d s q k vs, good e d s -> k <> [] -> vs <> [] -> request q "rpush" (k :: vs) ->
  let l := list_or_nil s k ++ vs in
  exists d', handle e d q = Ret (d', Some (RInt (Z.of_nat (length l)))) /\ db_rel d' (with_sl s (<[k := l]> (sl s))).
Proof. exact rpush_ok. Qed.
Print Assumptions C12_rpush.
Theorem C12_lpop : forall e d s q k v l, good e d s -> request q "lpop" [k] -> sl s !! k = Some (v :: l) ->
  exists d', handle e d q = Ret (d', Some (RBulk v)) /\ db_rel d' (with_sl s (<[k := l]> (sl s))).
Proof. exact lpop_ok. Qed.
Print Assumptions C12_lpop.
Theorem C12_rpop : forall e d s q k v l, good e d s -> request q "rpop" [k] -> sl s !! k = Some (l ++ [v]) ->
  exists d', handle e d q = Ret (d', Some (RBulk v)) /\ db_rel d' (with_sl s (<[k := l]> (sl s))).
Proof. exact rpop_ok. Qed.
Print Assumptions C12_rpop.
Theorem C12_pop_empty : forall e d s q w k, good e d s -> (w = "lpop" \/ w = "rpop")%string -> request q w [k] ->
  list_or_nil s k = [] -> exists d', handle e d q = Ret (d', Some RNullBulk) /\ db_rel d' s.
Proof. exact pop_empty_ok. Qed.
Print Assumptions C12_pop_empty.
Theorem C12_llen : forall e d s q k, good e d s -> request q "llen" [k] ->
  exists d', handle e d q = Ret (d', Some (RInt (Z.of_nat (length (list_or_nil s k))))) /\ db_rel d' s.
Proof. exact llen_ok. Qed.
Print Assumptions C12_llen.
Theorem C12_lindex : forall e d s q k ti i, good e d s -> request q "lindex" [k; ti] -> is_int ti i ->
  let l := list_or_nil s k in let p := position i (Z.of_nat (length l)) in
  exists d' r, handle e d q = Ret (d', Some r) /\ db_rel d' s /\
    (0 <= p < Z.of_nat (length l) -> exists v, l !! Z.to_nat p = Some v /\ r = RBulk v) /\
    (~ 0 <= p < Z.of_nat (length l) -> r = RNullBulk).
Proof. exact lindex_ok. Qed.
Print Assumptions C12_lindex.
Theorem C12_lset : forall e d s q k ti i v l, good e d s -> request q "lset" [k; ti; v] -> is_int ti i -> sl s !! k = Some l ->
  let p := position i (Z.of_nat (length l)) in
  (0 <= p < Z.of_nat (length l) -> exists d', handle e d q = Ret (d', Some (RSimple (bs "OK"))) /\
      db_rel d' (with_sl s (<[k := <[Z.to_nat p := v]> l]> (sl s)))) /\
  (~ 0 <= p < Z.of_nat (length l) -> exists d', handle e d q = Ret (d', Some (err "ERR index out of range")) /\ db_rel d' s).
Proof. exact lset_ok. Qed.
Print Assumptions C12_lset.
Theorem C12_lset_absent : forall e d s q k ti i v, good e d s -> request q "lset" [k; ti; v] -> is_int ti i -> sl s !! k = None ->
  exists d', handle e d q = Ret (d', Some (err "ERR no such key")) /\ db_rel d' s.
Proof. exact lset_absent. Qed.
Print Assumptions C12_lset_absent.
(* ... and whole histories against the ideal list machine, with any other traffic in
   between.  Missing (see C13-C15): the commands for which [ideal_list] is None. *)
Theorem C12_history_partial : forall (k : bytes) h ocs v xs, k <> [] ->
  Forall (fun x => env_ok (fst x)) h -> requests_size (map snd h) < 2 ^ 62 ->
  Forall2 (fun q oc => match oc with
                       | Some c => asks q c /\ names c = [k]
                       | None => ~ writes q KList k
                       end) (map snd h) ocs ->
  ideal_run ideal_list None ocs = Some (v, xs) ->
  match run new_db h with
  | Ret (d, rs) => Forall2 agrees xs rs /\ exists s, db_rel d s /\ fits s /\ sl s !! k = v
  | Panic => None ∈ ocs
  | NoFuel => False
  end.
Proof. exact list_history. Qed.
Print Assumptions C12_history_partial.
(* Trimming to nothing keeps everything, so histories in general are not those of a list. *)
Theorem C12_history_refuted : exists h, h = map req [["RPUSH"; "k"; "a"; "b"]; ["LTRIM"; "k"; "1"; "0"]; ["LLEN"; "k"]]%string /\
  replies h = Some [Some (RInt 2); ok; Some (RInt 2)].
Proof. eexists. split; [reflexivity|]. vm_compute. reflexivity. Qed.
Print Assumptions C12_history_refuted.
Example C12_case : replies (map req
  [["RPUSH"; "k"; "a"; "b"]; ["LPUSH"; "k"; "x"; "y"]; ["LLEN"; "k"]; ["LRANGE"; "k"; "0"; "-1"]; ["LPOP"; "k"]; ["RPOP"; "k"];
   ["LSET"; "k"; "-1"; "z"]; ["LINDEX"; "k"; "1"]; ["LINDEX"; "k"; "2"]; ["LSET"; "k"; "5"; "z"]; ["LSET"; "none"; "0"; "z"]]%string)
  = Some [Some (RInt 2); Some (RInt 4); Some (RInt 4); Some (RArr [bulk "y"; bulk "x"; bulk "a"; bulk "b"]);
          Some (bulk "y"); Some (bulk "b"); ok; Some (bulk "z"); Some RNullBulk; Some (err "ERR index out of range");
          Some (err "ERR no such key")].
Proof. vm_compute. reflexivity. Qed.
Example C12_history_case : ideal_run ideal_list None
  [Some (CRpush (bs "k") [bs "a"; bs "b"]); None; Some (CLpop (bs "k")); Some (CLrange (bs "k") 0 (-1))]
  = Some (Some [bs "b"], [Some (RInt 2); None; Some (bulk "a"); Some (RArr [bulk "b"])]).
Proof. reflexivity. Qed.

(* C13: for counts that can be negated and texts other than the reserved one. *)
Theorem C13_lrem_partial : forall e d s q k tn n v l, good e d s -> request q "lrem" [k; tn; v] -> is_int tn n -> sl s !! k = Some l ->
  n <> - 2 ^ 63 -> v <> reserved ->
  let l' := if n =? 0 then remove_first (length l) v l
            else if 0 <? n then remove_first (Z.to_nat n) v l
            else rev (remove_first (Z.to_nat (- n)) v (rev l)) in
  exists d', handle e d q = Ret (d', Some (RInt (Z.of_nat (length l) - Z.of_nat (length l')))) /\
    db_rel d' (with_sl s (<[k := l']> (sl s))).
Proof. exact lrem_ok. Qed.
Print Assumptions C13_lrem_partial.
(* [remove_first] does what it says: it drops up to n occurrences and nothing else *)
Theorem C13_remove_first : forall n v l,
  occurrences v (remove_first n v l) = (occurrences v l - n)%nat /\ others v (remove_first n v l) = others v l /\
  remove_first n v l `sublist_of` l.
Proof. exact remove_first_spec. Qed.
Print Assumptions C13_remove_first.
(* the smallest count removes nothing *)
Theorem C13_lrem_refuted : exists h,
  h = map req [["RPUSH"; "k"; "a"]; ["LREM"; "k"; "-9223372036854775808"; "a"]; ["LRANGE"; "k"; "0"; "-1"]]%string /\
  replies h = Some [Some (RInt 1); Some (RInt 0); Some (RArr [bulk "a"])].
Proof. eexists. split; [reflexivity|]. vm_compute. reflexivity. Qed.
Print Assumptions C13_lrem_refuted.
Example C13_case : replies (map req
  [["RPUSH"; "k"; "a"; "b"; "a"; "c"; "a"]; ["LREM"; "k"; "-2"; "a"]; ["LRANGE"; "k"; "0"; "-1"]; ["LREM"; "k"; "5"; "a"];
   ["LRANGE"; "k"; "0"; "-1"]; ["RPUSH"; "k"; "b"]; ["LREM"; "k"; "0"; "b"]; ["LRANGE"; "k"; "0"; "-1"]]%string)
  = Some [Some (RInt 5); Some (RInt 2); Some (RArr [bulk "a"; bulk "b"; bulk "c"]); Some (RInt 1);
          Some (RArr [bulk "b"; bulk "c"]); Some (RInt 3); Some (RInt 2); Some (RArr [bulk "c"])].
Proof. vm_compute. reflexivity. Qed.

(* C14: for pivots other than the reserved text. *)
Theorem C14_linsert_partial : forall e d s q w (after : bool) k ww p v l, good e d s -> request q "linsert" [k; ww; p; v] ->
  spells ww (bs w) -> w = (if after then "after" else "before")%string -> sl s !! k = Some l -> p <> reserved ->
  match insert_near after p v l with
  | Some l' => exists d', handle e d q = Ret (d', Some (RInt (Z.of_nat (length l')))) /\ db_rel d' (with_sl s (<[k := l']> (sl s)))
  | None => exists d', handle e d q = Ret (d', Some (RInt (-1))) /\ db_rel d' s
  end.
Proof. exact linsert_ok. Qed.
Print Assumptions C14_linsert_partial.
Theorem C14_insert_near : forall after p v l,
  match insert_near after p v l with
  | Some l' => exists l1 l2, l = l1 ++ p :: l2 /\ p ∉ l1 /\ l' = l1 ++ (if after then [p; v] else [v; p]) ++ l2
  | None => p ∉ l
  end.
Proof. exact insert_near_spec. Qed.
Print Assumptions C14_insert_near.
Theorem C14_absent : forall e d s q w (after : bool) k ww p v, good e d s -> request q "linsert" [k; ww; p; v] ->
  spells ww (bs w) -> w = (if after then "after" else "before")%string -> sl s !! k = None ->
  exists d', handle e d q = Ret (d', Some (RInt 0)) /\ db_rel d' s.
Proof. exact linsert_absent. Qed.
Print Assumptions C14_absent.
(* the reserved text is found although it is not there *)
Theorem C14_linsert_refuted : exists h,
  h = map req [["RPUSH"; "k"; "a"]; ["LINSERT"; "k"; "AFTER"; "dummy string"; "x"]; ["LRANGE"; "k"; "0"; "-1"]]%string /\
  replies h = Some [Some (RInt 1); Some (RInt 2); Some (RArr [bulk "x"; bulk "a"])].
Proof. eexists. split; [reflexivity|]. vm_compute. reflexivity. Qed.
Print Assumptions C14_linsert_refuted.
Example C14_case : replies (map req
  [["RPUSH"; "k"; "a"; "b"; "a"]; ["LINSERT"; "k"; "beFore"; "b"; "x"]; ["LINSERT"; "k"; "after"; "a"; "y"];
   ["LINSERT"; "k"; "after"; "q"; "y"]; ["LRANGE"; "k"; "0"; "-1"]; ["LINSERT"; "none"; "after"; "q"; "y"]]%string)
  = Some [Some (RInt 3); Some (RInt 4); Some (RInt 5); Some (RInt (-1));
          Some (RArr [bulk "a"; bulk "y"; bulk "x"; bulk "b"; bulk "a"]); Some (RInt 0)].
Proof. vm_compute. reflexivity. Qed.

(* C15: [range_of] is the inclusive range ... *)
Theorem C15_range_of : forall a b l,
  let n := Z.of_nat (length l) in let pa := position a n in let pb := position b n in
  (0 <= pa < n /\ pa <= pb ->
     Z.of_nat (length (range_of a b l)) = Z.min pb (n - 1) - pa + 1 /\
     forall i, 0 <= i < Z.of_nat (length (range_of a b l)) -> range_of a b l !! Z.to_nat i = l !! Z.to_nat (pa + i)) /\
  (~ (0 <= pa < n /\ pa <= pb) -> range_of a b l = []).
Proof. exact range_of_spec. Qed.
Print Assumptions C15_range_of.
(* ... which LRANGE returns unless the end is before the first element ... *)
Theorem C15_lrange_partial : forall e d s q k ta tb a b, good e d s -> request q "lrange" [k; ta; tb] -> is_int ta a -> is_int tb b ->
  0 <= position b (Z.of_nat (length (list_or_nil s k))) ->
  exists d', handle e d q = Ret (d', Some (match range_of a b (list_or_nil s k) with [] => RNullArr | r => RArr (map RBulk r) end))
    /\ db_rel d' s.
Proof. exact lrange_ok. Qed.
Print Assumptions C15_lrange_partial.
(* ... and LTRIM keeps unless it is empty. *)
Theorem C15_ltrim_partial : forall e d s q k ta tb a b l, good e d s -> request q "ltrim" [k; ta; tb] -> is_int ta a -> is_int tb b ->
  sl s !! k = Some l -> range_of a b l <> [] ->
  exists d', handle e d q = Ret (d', Some (RSimple (bs "OK"))) /\ db_rel d' (with_sl s (<[k := range_of a b l]> (sl s))).
Proof. exact ltrim_ok. Qed.
Print Assumptions C15_ltrim_partial.
Theorem C15_lrange_refuted : exists h,
  h = map req [["RPUSH"; "k"; "a"; "b"; "c"]; ["LRANGE"; "k"; "0"; "-4"]]%string /\
  replies h = Some [Some (RInt 3); Some (RArr [bulk "a"; bulk "b"; bulk "c"])].
Proof. eexists. split; [reflexivity|]. vm_compute. reflexivity. Qed.
Print Assumptions C15_lrange_refuted.
Theorem C15_ltrim_refuted : exists h,
  h = map req [["RPUSH"; "k"; "a"; "b"; "c"]; ["LTRIM"; "k"; "2"; "1"]; ["LRANGE"; "k"; "0"; "-1"]]%string /\
  replies h = Some [Some (RInt 3); ok; Some (RArr [bulk "a"; bulk "b"; bulk "c"])].
Proof. eexists. split; [reflexivity|]. vm_compute. reflexivity. Qed.
Print Assumptions C15_ltrim_refuted.
Example C15_case : replies (map req
  [["RPUSH"; "k"; "a"; "b"; "c"; "d"]; ["LRANGE"; "k"; "1"; "-2"]; ["LRANGE"; "k"; "-2"; "99"]; ["LRANGE"; "k"; "2"; "1"];
   ["LTRIM"; "k"; "-3"; "2"]; ["LRANGE"; "k"; "0"; "9"]]%string)
  = Some [Some (RInt 4); Some (RArr [bulk "b"; bulk "c"]); Some (RArr [bulk "c"; bulk "d"]); Some RNullArr; ok;
          Some (RArr [bulk "b"; bulk "c"])].
Proof. vm_compute. reflexivity. Qed.

(* C16: no list command crashes unless it names the reserved text ... *)
Theorem C16_no_crash_partial : forall e d s q c, good e d s -> asks q c -> kind_of c = KList ->
  (forall k n, c <> CLrem k n reserved) -> (forall k v, c <> CLinsert k false reserved v) ->
  exists d' r, handle e d q = Ret (d', Some r).
Proof. exact list_no_crash. Qed.
Print Assumptions C16_no_crash_partial.
(* ... in which case it may. *)
Theorem C16_no_crash_refuted : exists h,
  h = map req [["RPUSH"; "k"; "a"]; ["LREM"; "k"; "1"; "dummy string"]]%string /\
  run new_db (map (fun q => (some_env, q)) h) = Panic.
Proof. eexists. split; [reflexivity|]. vm_compute. reflexivity. Qed.
Print Assumptions C16_no_crash_refuted.
Example C16_case : exists c, asks (req ["LREM"; "k"; "0"; "a"]%string) c /\ kind_of c = KList /\ forall k n, c <> CLrem k n reserved.
Proof.
  exists (CLrem (bs "k") 0 (bs "a")). split; [|split; [reflexivity|]].
  - apply (req_int_str _ "lrem" CLrem (bs "k") (bs "0") 0 (bs "a") t_lrem).
    + split; [exact (IntParseProofs.format_int_denotes 0)|unfold int64_ok; lia].
    + apply str_req_request. repeat (eapply sp_upper; [|reflexivity|]; [vm_compute; split; discriminate|]). constructor.
  - intros k n H. injection H as _ _ H. discriminate.
Qed.
