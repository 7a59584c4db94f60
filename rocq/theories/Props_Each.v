(* C104: several arguments at once and one by one. *)
From Verif Require Import Base BaseFacts Resp Command SpecDb RequestSpec CommandProofs Db DbProofs Engine EngineProofs Recovery RecoverySpec RecoveryProofs DetSpec Props_Det EachSpec EachProofs Lts Server ServerSpec ServerProofs LinProofs.
From Coq Require Import ZArith List String Lia.
From stdpp Require Import gmap.
Open Scope Z_scope.

(* After any history, one request with several arguments, and requests that give the arguments one
   by one: both crash or neither does, the contents are the same, and the one reply is made of the
   many. *)
Theorem C104_each : forall h d rs q c e m, Forall (fun x => env_ok (fst x)) (h ++ m) -> env_ok e ->
  requests_size (map snd h) + requests_size (map snd m) < 2 ^ 62 -> requests_size (map snd h) + request_size q < 2 ^ 62 ->
  run new_db h = Ret (d, rs) -> asks q c -> singly c <> [] -> Forall2 asks (map snd m) (singly c) ->
  match run d m, run d [(e, q)] with
  | Ret (d1, rs1), Ret (d2, rs2) => (exists s, db_rel d1 s /\ db_rel d2 s) /\ exists ys y, rs1 = map Some ys /\ rs2 = [Some y] /\ joined c ys y
  | Panic, Panic => True
  | _, _ => False
  end.
Proof. exact each_alike. Qed.
Print Assumptions C104_each.
(* Every part of a request that can be made can itself be requested. *)
Theorem C104_possible : forall q c, asks q c -> exists qs, Forall2 asks qs (singly c).
Proof. exact each_possible. Qed.
Print Assumptions C104_possible.

(* So on two servers, one of which gets the one request and the other the many. *)
Theorem C104_server : forall cl cl' input input' tr tr' u u' h q c e m, Server.runs cl new_db input tr u -> Server.runs cl' new_db input' tr' u' ->
  turns_of tr = h ++ [(e, q)] -> turns_of tr' = h ++ m -> Forall (fun x => env_ok (fst x)) (turns_of tr) -> Forall (fun x => env_ok (fst x)) (turns_of tr') ->
  requests_size (map snd (turns_of tr)) < 2 ^ 62 -> requests_size (map snd (turns_of tr')) < 2 ^ 62 -> asks q c -> singly c <> [] -> Forall2 asks (map snd m) (singly c) ->
  (exists s, db_rel (s_db u) s /\ db_rel (s_db u') s) /\
  exists rs ys y, map snd (map hturn (handled tr)) = rs ++ [Some y] /\ map snd (map hturn (handled tr')) = rs ++ map Some ys /\ joined c ys y.
Proof.
  intros cl cl' input input' tr tr' u u' h q c e m R R' T T' E E' S S' A N F. pose proof (turn_run _ _ _ (runs_turn _ _ _ _ _ R)) as K. pose proof (turn_run _ _ _ (runs_turn _ _ _ _ _ R')) as K'. fold (turns_of tr) in K. fold (turns_of tr') in K'.
  rewrite T in K, E, S. rewrite T' in K', E', S'. pose proof (proj2 (proj1 (Forall_app _ _ _) E)) as Ee. inversion Ee as [|? ? E1 _]; subst. rewrite map_app, NodeProofs.requests_size_app in S, S'. change (requests_size (map snd [(e, q)])) with (request_size q + 0) in S. rewrite Z.add_0_r in S.
  rewrite NodeProofs.run_app in K, K'. destruct (run new_db h) as [[d rs]| |] eqn:H; try discriminate K. cbn -[run new_db] in K, K'.
  pose proof (each_alike h d rs q c e m E' E1 S' S H A N F) as G. destruct (run d m) as [[d1 rs1]| |] eqn:H1; try discriminate K'. destruct (run d [(e, q)]) as [[d2 rs2]| |] eqn:H2; try discriminate K. cbn -[run new_db] in K, K'.
  destruct G as ((s & D1 & D2) & ys & y & -> & -> & J). injection K as -> K. injection K' as -> K'. split; [eauto|]. exists rs, ys, y. rewrite <- K, <- K'. auto.
Qed.
Print Assumptions C104_server.

Lemma asks_rq (o : robj) (args : list robj) (name : bytes) (c : cmd) : str_arg o = Some name -> new_command name args = inl c -> asks (RArr (o :: args)) c.
Proof.
  intros Ho N. pose proof (new_command_spec name args) as K. rewrite N in K. destruct K as (w & P & C). exists o, name, w, args. split; [constructor|]. split; [now apply str_arg_spec|auto].
Qed.
(* A field is set twice, and one of the fields is there already: two are counted, by both ways. *)
Definition before_ : list (list string) := [["HSET"; "h"; "a"; "0"]]%string.
Definition at_once : list string := ["HSET"; "h"; "b"; "1"; "a"; "2"; "b"; "3"; "c"; "4"]%string.
Definition one_by_one : list (list string) := [["HSET"; "h"; "b"; "1"]; ["HSET"; "h"; "a"; "2"]; ["HSET"; "h"; "b"; "3"]; ["HSET"; "h"; "c"; "4"]]%string.
Definition the_hset : cmd := CHset (bs "h") (map bs ["b"; "a"; "b"; "c"]%string) (map bs ["1"; "2"; "3"; "4"]%string).
Example C104_ex : asks (rq at_once) the_hset /\ singly the_hset <> [] /\ Forall2 asks (map snd (with_env one_way one_by_one)) (singly the_hset) /\
  said (with_env one_way (before_ ++ one_by_one)) = Some (map Some [RInt 1; RInt 1; RInt 0; RInt 0; RInt 1]) /\ said (with_env one_way (before_ ++ [at_once])) = Some (map Some [RInt 1; RInt 2]) /\
  joined the_hset [RInt 1; RInt 0; RInt 0; RInt 1] (RInt 2).
Proof.
  split; [eapply asks_rq; [reflexivity|vm_compute; reflexivity]|]. split; [discriminate|]. split; [|split; [vm_compute; reflexivity|split; [vm_compute; reflexivity|exact (j_sum the_hset [1; 0; 0; 1] I)]]].
  repeat apply List.Forall2_cons; try apply List.Forall2_nil; (eapply asks_rq; [reflexivity|vm_compute; reflexivity]).
Qed.
(* Lists: LPUSH of several puts the last one first, as LPUSH of each does. *)
Example C104_push_ex : exists r, said (with_env one_way [["LPUSH"; "l"; "a"; "b"]; ["LRANGE"; "l"; "0"; "-1"]]%string) = Some [Some (RInt 2); r] /\
  said (with_env one_way [["LPUSH"; "l"; "a"]; ["LPUSH"; "l"; "b"]; ["LRANGE"; "l"; "0"; "-1"]]%string) = Some [Some (RInt 1); Some (RInt 2); r].
Proof. eexists. split; vm_compute; reflexivity. Qed.
