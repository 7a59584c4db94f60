(* C101: the data and the replies are determined by the requests. *)
From Verif Require Import Base BaseFacts Resp Command SpecDb RequestSpec CommandProofs Db DbProofs Engine EngineProofs Recovery RecoverySpec RecoveryProofs OrderProofs DetSpec DetProofs Lts Server ServerSpec ServerProofs LinProofs.
From Coq Require Import ZArith List String Lia Permutation.
From stdpp Require Import gmap.
Open Scope Z_scope.

(* Two servers that get the same requests, without SPOP, one after the other, both crash or both
   have the same data, and their replies match, whatever order maps are iterated in and whatever
   is drawn at random. *)
Theorem C101_same : forall h h', Forall (fun x => env_ok (fst x)) h -> Forall (fun x => env_ok (fst x)) h' -> map snd h = map snd h' -> requests_size (map snd h) < 2 ^ 62 -> Forall (fun q => ~ pops q) (map snd h) ->
  match run new_db h, run new_db h' with
  | Ret (d, rs), Ret (d', rs') => (exists s, db_rel d s /\ db_rel d' s) /\ match_replies (map snd h) rs rs'
  | Panic, Panic => True
  | _, _ => False
  end.
Proof. exact runs_alike. Qed.
Print Assumptions C101_same.
(* So do two servers, whatever else differs between them, that have handled the same requests. *)
Theorem C101_server : forall cl cl' input input' tr tr' s s', Server.runs cl new_db input tr s -> Server.runs cl' new_db input' tr' s' ->
  Forall (fun x => env_ok (fst x)) (turns_of tr) -> Forall (fun x => env_ok (fst x)) (turns_of tr') -> map snd (turns_of tr) = map snd (turns_of tr') -> requests_size (map snd (turns_of tr)) < 2 ^ 62 -> Forall (fun q => ~ pops q) (map snd (turns_of tr)) ->
  (exists x, db_rel (s_db s) x /\ db_rel (s_db s') x) /\ match_replies (map snd (turns_of tr)) (map snd (map hturn (handled tr))) (map snd (map hturn (handled tr'))).
Proof.
  intros cl cl' input input' tr tr' s s' R R' E E' Q S P. pose proof (runs_alike _ _ E E' Q S P) as A. unfold turns_of in A at 1 2. now rewrite (turn_run _ _ _ (runs_turn _ _ _ _ _ R)), (turn_run _ _ _ (runs_turn _ _ _ _ _ R')) in A.
Qed.
Print Assumptions C101_server.

(* Matching is not being the same: the order of HKEYS is not determined, ... *)
Definition one_way : env := mkEnv (fun _ l => l) (bs "x").
Definition other_way : env := mkEnv (fun _ l => rev l) (bs "y").
Lemma ways_ok : env_ok one_way /\ env_ok other_way.
Proof. split; intros m l; [apply Permutation_refl|]. apply Permutation_sym, Permutation_rev. Qed.
Definition rq (l : list string) : robj := RArr (map (fun x => RBulk (bs x)) l).
Definition with_env (e : env) (l : list (list string)) : list (env * robj) := map (fun x => (e, rq x)) l.
Definition some_requests : list (list string) := [["HSET"; "h"; "a"; "1"; "b"; "2"]; ["INCRBY"; "h"; "z"]; ["HKEYS"; "h"]; ["HLEN"; "h"]]%string.
Lemma not_pop (o : robj) (args : list robj) (name : bytes) : str_arg o = Some name -> match new_command name args with inl (CSpop _ _ _) => False | _ => True end -> ~ pops (RArr (o :: args)).
Proof.
  intros Ho N (k & n & cs & o' & name' & w & a & P & S & L & C). inversion P; subst. apply str_arg_spec in S. rewrite Ho in S. injection S as <-. rewrite (call_new_command _ _ _ _ L C) in N. exact N.
Qed.
Example C101_ex : Forall (fun q => ~ pops q) (map snd (with_env one_way some_requests)) /\ requests_size (map snd (with_env one_way some_requests)) < 2 ^ 62 /\ map snd (with_env one_way some_requests) = map snd (with_env other_way some_requests).
Proof.
  split; [|split; [vm_compute; reflexivity|reflexivity]]. unfold some_requests, with_env. cbn [map snd]. repeat constructor; (eapply not_pop; [reflexivity|vm_compute; exact I]).
Qed.
(* The replies alone, if there is no crash. *)
Definition said (h : list (env * robj)) : option (list (option robj)) := match run new_db h with Ret (_, rs) => Some rs | _ => None end.
Lemma said_run (h : list (env * robj)) (rs : list (option robj)) : said h = Some rs -> exists d, run new_db h = Ret (d, rs).
Proof. unfold said. destruct (run new_db h) as [[d rs']| |]; try discriminate. injection 1 as <-. eauto. Qed.
Theorem C101_replies_refuted : exists d rs d' rs', run new_db (with_env one_way some_requests) = Ret (d, rs) /\ run new_db (with_env other_way some_requests) = Ret (d', rs') /\
  nth 2 rs None = Some (RArr [RBulk (bs "b"); RBulk (bs "a")]) /\ nth 2 rs' None = Some (RArr [RBulk (bs "a"); RBulk (bs "b")]) /\ nth 1 rs None <> nth 1 rs' None.
Proof.
  assert (H : exists rs rs', said (with_env one_way some_requests) = Some rs /\ said (with_env other_way some_requests) = Some rs' /\
    nth 2 rs None = Some (RArr [RBulk (bs "b"); RBulk (bs "a")]) /\ nth 2 rs' None = Some (RArr [RBulk (bs "a"); RBulk (bs "b")]) /\ nth 1 rs None <> nth 1 rs' None).
  { eexists _, _. split; [vm_compute; reflexivity|]. split; [vm_compute; reflexivity|]. split; [reflexivity|]. split; [reflexivity|]. cbn. discriminate. }
  destruct H as (rs & rs' & H & H' & N). apply said_run in H as [d H], H' as [d' H']. exists d, rs, d', rs'. auto.
Qed.
Print Assumptions C101_replies_refuted.
(* ... and after SPOP not even the data is. *)
Definition popping : list (list string) := [["SADD"; "s"; "a"; "b"]; ["SPOP"; "s"]; ["SISMEMBER"; "s"; "a"]]%string.
Theorem C101_spop_refuted : exists d rs d' rs', run new_db (with_env one_way popping) = Ret (d, rs) /\ run new_db (with_env other_way popping) = Ret (d', rs') /\ nth 2 rs None <> nth 2 rs' None.
Proof.
  assert (H : exists rs rs', said (with_env one_way popping) = Some rs /\ said (with_env other_way popping) = Some rs' /\ nth 2 rs None <> nth 2 rs' None).
  { eexists _, _. split; [vm_compute; reflexivity|]. split; [vm_compute; reflexivity|]. cbn. discriminate. }
  destruct H as (rs & rs' & H & H' & N). apply said_run in H as [d H], H' as [d' H']. exists d, rs, d', rs'. auto.
Qed.
Print Assumptions C101_spop_refuted.
