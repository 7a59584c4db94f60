(* C102: sending a request again. *)
From Verif Require Import Base BaseFacts IntSpec Resp Command SpecDb RequestSpec CommandProofs Db DbProofs Engine EngineProofs Recovery RecoverySpec RecoveryProofs Lts Server ServerSpec ServerProofs LinProofs Props_Det IdealSpec SpecFacts RetrySpec RetryProofs.
From Coq Require Import ZArith List String Lia.
From stdpp Require Import gmap.
Open Scope Z_scope.

(* A request for SET, MSET, LSET, HSET, HDEL, SADD, SREM, or LREM with the count 0, was answered,
   and since then nobody wrote what it writes. Sent again, it is answered too, the data stays as
   it is, and the second reply is as [again] says. *)
Theorem C102_retry : forall h m e e' q c d rs,
  Forall (fun x => env_ok (fst x)) (h ++ (e, q) :: m) -> env_ok e' -> requests_size (map snd (h ++ (e, q) :: m)) < 2 ^ 62 ->
  asks q c -> repeatable c -> Forall (fun x => forall k, k ∈ written c -> ~ writes (snd x) (kind_of c) k) m ->
  run new_db (h ++ (e, q) :: m) = Ret (d, rs) ->
  exists r d' r', nth_error rs (List.length h) = Some (Some r) /\ run new_db ((h ++ (e, q) :: m) ++ [(e', q)]) = Ret (d', rs ++ [Some r']) /\
    (exists s, db_rel d s /\ db_rel d' s) /\ again c r r'.
Proof. exact retried. Qed.
Print Assumptions C102_retry.
(* The same of a server: the last request it handled is one that it handled before. *)
Theorem C102_server : forall cl input tr u h m e e' q c, Server.runs cl new_db input tr u ->
  turns_of tr = (h ++ (e, q) :: m) ++ [(e', q)] -> Forall (fun x => env_ok (fst x)) (turns_of tr) -> requests_size (map snd (turns_of tr)) < 2 ^ 62 ->
  asks q c -> repeatable c -> Forall (fun x => forall k, k ∈ written c -> ~ writes (snd x) (kind_of c) k) m ->
  exists d rs r r', run new_db (h ++ (e, q) :: m) = Ret (d, rs) /\ map snd (map hturn (handled tr)) = rs ++ [Some r'] /\
    nth_error rs (List.length h) = Some (Some r) /\ (exists s, db_rel d s /\ db_rel (s_db u) s) /\ again c r r'.
Proof.
  intros cl input tr u h m e e' q c R T E S A P N. pose proof (turn_run _ _ _ (runs_turn _ _ _ _ _ R)) as K. fold (turns_of tr) in K. rewrite T in K, E, S. apply Forall_app in E as [E E']. inversion E' as [|? ? E1 _]; subst.
  assert (S' : requests_size (map snd (h ++ (e, q) :: m)) < 2 ^ 62).
  { rewrite map_app in S. assert (G : forall l l', requests_size l <= requests_size (l ++ l')) by (induction l as [|x l IH]; intros l'; cbn; [apply requests_size_nonneg|specialize (IH l'); lia]). specialize (G (map snd (h ++ (e, q) :: m)) (map snd [(e', q)])). lia. }
  destruct (run new_db (h ++ (e, q) :: m)) as [[d rs]| |] eqn:H; [|exfalso|exfalso]; rewrite NodeProofs.run_app, H in K; try discriminate K.
  destruct (C102_retry h m e e' q c d rs E E1 S' A P N H) as (r & d' & r' & Hn & Hr & Hd & Ha). rewrite NodeProofs.run_app, H, K in Hr. injection Hr as <- Hr. exists d, rs, r, r'. auto.
Qed.
Print Assumptions C102_server.

(* SADD s a b; then another set changes; then SADD s a b again: 2 were added, then 0. *)
Definition before_ : list (env * robj) := with_env one_way [["SADD"; "s"; "c"]]%string.
Definition between : list (env * robj) := with_env one_way [["SADD"; "t"; "d"]; ["SMEMBERS"; "s"]; ["SET"; "s"; "x"]]%string.
Definition retry : robj := rq ["SADD"; "s"; "a"; "b"]%string.
Definition the_cmd : cmd := CSadd (bs "s") [bs "a"; bs "b"].
Lemma not_written (o : robj) (args : list robj) (name : bytes) (t : kind) (k : bytes) : str_arg o = Some name ->
  match new_command name args with inl c => kind_of c <> t \/ k ∉ written c | inr _ => True end -> ~ writes (RArr (o :: args)) t k.
Proof.
  intros Ho N (c & (o' & name' & w & a & P & S & L & C) & K & W). inversion P; subst. apply str_arg_spec in S. rewrite Ho in S. injection S as <-. rewrite (call_new_command _ _ _ _ L C) in N. tauto.
Qed.
Lemma meant (o : robj) (args : list robj) (name : bytes) (c : cmd) : str_arg o = Some name -> new_command name args = inl c -> asks (RArr (o :: args)) c.
Proof. intros Ho N. pose proof (new_command_spec name args) as K. rewrite N in K. destruct K as (w & S & C). exists o, name, w, args. split; [constructor|]. split; [now apply str_arg_spec|auto]. Qed.
Example C102_ex : asks retry the_cmd /\ repeatable the_cmd /\ Forall (fun x => forall k, k ∈ written the_cmd -> ~ writes (snd x) (kind_of the_cmd) k) between /\
  exists d rs, run new_db (before_ ++ (one_way, retry) :: between) = Ret (d, rs) /\ nth_error rs 1 = Some (Some (RInt 2)).
Proof.
  split; [|split; [exact I|split]].
  - unfold retry, rq, the_cmd. cbn [map]. eapply meant; [reflexivity|vm_compute; reflexivity].
  - unfold between, with_env, the_cmd. cbn [map written kind_of]. repeat apply List.Forall_cons; try apply List.Forall_nil; intros k Hk; apply elem_of_list_singleton in Hk as ->; cbn [snd]; unfold rq; cbn [map]; (eapply not_written; [reflexivity|]); vm_compute new_command; cbn; try (right; apply not_elem_of_nil); try (left; discriminate); right; intros Q; apply elem_of_list_singleton in Q; discriminate Q.
  - assert (H : exists rs, said (before_ ++ (one_way, retry) :: between) = Some rs /\ nth_error rs 1 = Some (Some (RInt 2))) by (eexists; split; [vm_compute; reflexivity|reflexivity]).
    destruct H as (rs & H & N). apply said_run in H as [d H]. exists d, rs. auto.
Qed.

(* No other command that writes may be sent again: what is read afterwards differs. *)
Definition other_commands : list (list string * list string * list string) :=
  [ (["SET"; "k"; "1"], ["APPEND"; "k"; "1"], ["GET"; "k"]);
    (["SET"; "k"; "1"], ["INCR"; "k"], ["GET"; "k"]);
    (["SET"; "k"; "1"], ["INCRBY"; "k"; "5"], ["GET"; "k"]);
    (["SET"; "k"; "1"], ["DECR"; "k"], ["GET"; "k"]);
    (["SET"; "k"; "1"], ["DECRBY"; "k"; "5"], ["GET"; "k"]);
    (["RPUSH"; "l"; "a"; "b"; "a"; "c"], ["LPUSH"; "l"; "x"], ["LRANGE"; "l"; "0"; "-1"]);
    (["RPUSH"; "l"; "a"; "b"; "a"; "c"], ["RPUSH"; "l"; "x"], ["LRANGE"; "l"; "0"; "-1"]);
    (["RPUSH"; "l"; "a"; "b"; "a"; "c"], ["LPOP"; "l"], ["LRANGE"; "l"; "0"; "-1"]);
    (["RPUSH"; "l"; "a"; "b"; "a"; "c"], ["RPOP"; "l"], ["LRANGE"; "l"; "0"; "-1"]);
    (["RPUSH"; "l"; "a"; "b"; "a"; "c"], ["LREM"; "l"; "1"; "a"], ["LRANGE"; "l"; "0"; "-1"]);
    (["RPUSH"; "l"; "a"; "b"; "a"; "c"], ["LREM"; "l"; "-1"; "a"], ["LRANGE"; "l"; "0"; "-1"]);
    (["RPUSH"; "l"; "a"; "b"; "a"; "c"], ["LTRIM"; "l"; "1"; "2"], ["LRANGE"; "l"; "0"; "-1"]);
    (["RPUSH"; "l"; "a"; "b"; "a"; "c"], ["LINSERT"; "l"; "BEFORE"; "b"; "x"], ["LRANGE"; "l"; "0"; "-1"]);
    (["SADD"; "s"; "a"; "b"], ["SPOP"; "s"], ["SCARD"; "s"]) ]%string.
Theorem C102_others_refuted : Forall (fun x => let '(a, q, p) := x in
  exists r1 r2 r r1' r2' r3' r', said (with_env one_way [a; q; p]) = Some [r1; r2; Some r] /\ said (with_env one_way [a; q; q; p]) = Some [r1'; r2'; r3'; Some r'] /\ r <> r') other_commands.
Proof.
  unfold other_commands. repeat (apply List.Forall_cons; [eexists _, _, _, _, _, _, _; split; [vm_compute; reflexivity|]; split; [vm_compute; reflexivity|]; discriminate|]). apply List.Forall_nil.
Qed.
Print Assumptions C102_others_refuted.
