(* C103: emptied values and absent ones. *)
From Verif Require Import Base BaseFacts Resp Command SpecDb RequestSpec CommandProofs Db DbProofs Engine EngineProofs Recovery RecoverySpec RecoveryProofs DetSpec Props_Det EmptySpec EmptyProofs Lts Server ServerSpec ServerProofs LinProofs.
From Coq Require Import ZArith List String Lia.
From stdpp Require Import gmap.
Open Scope Z_scope.

(* Two servers whose contents differ only in that some lists, hashes and sets are empty in one and
   absent in the other are given the same requests, none of them SPOP and none that [tells]. Both
   crash or neither does, the replies match (C101), and the contents again differ only in that. *)
Theorem C103_alike_partial : forall h h' m m' d rs d' rs' s s', Forall (fun x => env_ok (fst x)) (h ++ m) -> Forall (fun x => env_ok (fst x)) (h' ++ m') ->
  requests_size (map snd h) + requests_size (map snd m) < 2 ^ 62 -> requests_size (map snd h') + requests_size (map snd m) < 2 ^ 62 ->
  run new_db h = Ret (d, rs) -> run new_db h' = Ret (d', rs') -> db_rel d s -> db_rel d' s' -> same_but_empty s s' ->
  map snd m = map snd m' -> Forall (fun q => ~ told q) (map snd m) -> Forall (fun q => ~ pops q) (map snd m) ->
  match run d m, run d' m' with
  | Ret (d1, rs1), Ret (d1', rs1') => (exists s1 s1', db_rel d1 s1 /\ db_rel d1' s1' /\ same_but_empty s1 s1') /\ match_replies (map snd m) rs1 rs1'
  | Panic, Panic => True
  | _, _ => False
  end.
Proof. exact empty_alike. Qed.
Print Assumptions C103_alike_partial.
(* So on two servers that handled such requests. *)
Theorem C103_server_partial : forall cl cl' input input' tr tr' u u' h h' m m' d rs d' rs' s s', Server.runs cl new_db input tr u -> Server.runs cl' new_db input' tr' u' ->
  turns_of tr = h ++ m -> turns_of tr' = h' ++ m' -> Forall (fun x => env_ok (fst x)) (turns_of tr) -> Forall (fun x => env_ok (fst x)) (turns_of tr') ->
  requests_size (map snd (turns_of tr)) < 2 ^ 62 -> requests_size (map snd (turns_of tr')) < 2 ^ 62 ->
  run new_db h = Ret (d, rs) -> run new_db h' = Ret (d', rs') -> db_rel d s -> db_rel d' s' -> same_but_empty s s' ->
  map snd m = map snd m' -> Forall (fun q => ~ told q) (map snd m) -> Forall (fun q => ~ pops q) (map snd m) ->
  (exists s1 s1', db_rel (s_db u) s1 /\ db_rel (s_db u') s1' /\ same_but_empty s1 s1') /\
  exists rs1 rs1', map snd (map hturn (handled tr)) = rs ++ rs1 /\ map snd (map hturn (handled tr')) = rs' ++ rs1' /\ match_replies (map snd m) rs1 rs1'.
Proof.
  intros cl cl' input input' tr tr' u u' h h' m m' d rs d' rs' s s' R R' T T' E E' S S' H H' D D' Q M F P. pose proof (turn_run _ _ _ (runs_turn _ _ _ _ _ R)) as K. pose proof (turn_run _ _ _ (runs_turn _ _ _ _ _ R')) as K'. fold (turns_of tr) in K. fold (turns_of tr') in K'.
  rewrite T in K, E, S. rewrite T' in K', E', S'. rewrite map_app, NodeProofs.requests_size_app in S, S'. rewrite <- M in S'.
  pose proof (empty_alike h h' m m' d rs d' rs' s s' E E' S S' H H' D D' Q M F P) as G. rewrite NodeProofs.run_app, H in K. rewrite NodeProofs.run_app, H' in K'. cbn -[run new_db] in K, K'.
  destruct (run d m) as [[d1 rs1]| |]; try discriminate K. destruct (run d' m') as [[d1' rs1']| |]; try discriminate K'. cbn in K, K'. injection K as -> K. injection K' as -> K'. destruct G as [G1 G2]. split; [exact G1|]. exists rs1, rs1'. auto.
Qed.
Print Assumptions C103_server_partial.
(* One command, SPOP with a count among them: what one server may say and do, the other may. *)
Theorem C103_one_partial : forall s s' c o, same_but_empty s s' -> ~ tells c -> spec s c o -> exists o', spec s' c o' /\
  match o, o' with Some (s1, r), Some (s1', r') => same_but_empty s1 s1' /\ r = r' | None, None => True | _, _ => False end.
Proof. exact spec_eqv. Qed.
Print Assumptions C103_one_partial.

(* A set, a hash and a list that are filled and emptied, and a server that has never had them. *)
Definition emptied : list (list string) := [["SADD"; "s"; "a"]; ["SREM"; "s"; "a"]; ["HSET"; "h"; "f"; "v"]; ["HDEL"; "h"; "f"]; ["RPUSH"; "l"; "x"]; ["LPOP"; "l"]]%string.
Lemma does (s : sdb) (o : robj) (args : list robj) (name : bytes) (c : cmd) s1 l s2 rs : str_arg o = Some name -> new_command name args = inl c ->
  answers s (RArr (o :: args) :: l) (Some (s2, rs)) -> (forall out, spec s c out -> exists x, out = says s1 x) -> exists rs', answers s1 l (Some (s2, rs')).
Proof.
  intros Ho N A S. assert (K : asks (RArr (o :: args)) c).
  { pose proof (new_command_spec name args) as K. rewrite N in K. destruct K as (w & P & C). exists o, name, w, args. split; [constructor|]. split; [now apply str_arg_spec|auto]. }
  inversion A as [| |? ? ? s3 r3 ? rs3 A1 A2|]; subst. pose proof (SpecFacts.asks_answer _ _ _ _ K A1) as Q. destruct r3 as [r3|]; [|contradiction].
  destruct Q as [Q|(er & Q & _)]; destruct (S _ Q) as [x E]; [|discriminate E]. injection E as -> _. eauto.
Qed.
Definition left_empty : sdb := mkSdb ∅ {[ bs "l" := [] ]} {[ bs "h" := ∅ ]} {[ bs "s" := ∅ ]}.
Lemma left_empty_same : same_but_empty left_empty empty_sdb.
Proof.
  repeat split; intros k; cbn [left_empty empty_sdb sl sh st]; rewrite lookup_empty; match goal with |- context [{[ ?a := _ ]} !! k] => destruct (decide (a = k)) as [<-|N] end; try (now rewrite lookup_singleton); now rewrite lookup_singleton_ne.
Qed.
Lemma emptied_left : exists d rs, run new_db (with_env one_way emptied) = Ret (d, rs) /\ db_rel d left_empty.
Proof.
  assert (H : exists rs, said (with_env one_way emptied) = Some rs) by (eexists; vm_compute; reflexivity). destruct H as [rs H]. apply said_run in H as [d H]. exists d, rs. split; [exact H|].
  assert (E : Forall (fun x => env_ok (fst x)) (with_env one_way emptied)) by (unfold emptied, with_env; cbn [map]; repeat apply List.Forall_cons; try apply List.Forall_nil; apply ways_ok).
  pose proof (run_refines _ E ltac:(vm_compute; reflexivity)) as R. rewrite H in R. destruct R as (s & D & A). unfold emptied, with_env, rq in A. cbn [map snd] in A.
  eapply (does _ _ _ _ _ (mkSdb ∅ ∅ ∅ {[ bs "s" := {[ bs "a" ]} ]})) in A as [rs1 A]; [|reflexivity|vm_compute; reflexivity|].
  2: { intros out X. cbn [spec] in X. rewrite bool_decide_false in X by discriminate. cbv zeta in X. eexists. rewrite X. f_equal. unfold with_st. cbn [ss sl sh st empty_sdb]. f_equal. rewrite insert_empty. f_equal. unfold set_or_empty. cbn [st empty_sdb]. rewrite lookup_empty. cbn [default from_option]. set_solver. }
  eapply (does _ _ _ _ _ (mkSdb ∅ ∅ ∅ {[ bs "s" := ∅ ]})) in A as [rs2 A]; [|reflexivity|vm_compute; reflexivity|].
  2: { intros out X. cbn [spec] in X. rewrite bool_decide_false in X by discriminate. cbv zeta in X. eexists. rewrite X. f_equal. unfold with_st, set_or_empty. cbn [ss sl sh st]. f_equal. rewrite insert_singleton, lookup_singleton. f_equal. cbn [default from_option]. set_solver. }
  eapply (does _ _ _ _ _ (mkSdb ∅ ∅ {[ bs "h" := {[ bs "f" := bs "v" ]} ]} {[ bs "s" := ∅ ]})) in A as [rs3 A]; [|reflexivity|vm_compute; reflexivity|].
  2: { intros out X. cbn [spec] in X. rewrite bool_decide_false in X by discriminate. cbv zeta in X. rewrite bool_decide_false in X by discriminate. eexists. rewrite X. reflexivity. }
  eapply (does _ _ _ _ _ (mkSdb ∅ ∅ {[ bs "h" := ∅ ]} {[ bs "s" := ∅ ]})) in A as [rs4 A]; [|reflexivity|vm_compute; reflexivity|].
  2: { intros out X. cbn [spec sh] in X. rewrite lookup_singleton in X. destruct X as (h' & G & X). eexists. rewrite X. f_equal. unfold with_sh. cbn [ss sl sh st]. f_equal. rewrite insert_singleton. f_equal. apply map_eq. intros f. rewrite G, lookup_empty. case_bool_decide as F; [reflexivity|]. apply lookup_singleton_ne. intros <-. apply F. apply elem_of_list_here. }
  eapply (does _ _ _ _ _ (mkSdb ∅ {[ bs "l" := [bs "x"] ]} {[ bs "h" := ∅ ]} {[ bs "s" := ∅ ]})) in A as [rs5 A]; [|reflexivity|vm_compute; reflexivity|].
  2: { intros out X. cbn [spec] in X. rewrite bool_decide_false in X by discriminate. cbv zeta in X. eexists. rewrite X. reflexivity. }
  eapply (does _ _ _ _ _ left_empty) in A as [rs6 A]; [|reflexivity|vm_compute; reflexivity|].
  2: { intros out X. cbn [spec sl] in X. rewrite lookup_singleton in X. eexists. rewrite X. f_equal. unfold with_sl, left_empty. cbn [ss sl sh st]. now rewrite insert_singleton. }
  inversion A; subst. exact D.
Qed.
Definition asked_ : list (list string) := [["SCARD"; "s"]; ["HGET"; "h"; "f"]; ["LRANGE"; "l"; "0"; "-1"]; ["SPOP"; "s"; "3"]; ["SADD"; "s"; "b"]]%string.
Example C103_ex : (exists d rs, run new_db (with_env one_way emptied) = Ret (d, rs) /\ db_rel d left_empty) /\ (exists rs, said (with_env one_way (emptied ++ asked_)) = Some rs /\ said (with_env one_way asked_) = Some (skipn 6 rs)) /\ same_but_empty left_empty empty_sdb /\
  Forall (fun c => ~ tells c) [CScard (bs "s"); CHget (bs "h") (bs "f"); CLrange (bs "l") 0 (-1); CSpop (bs "s") 3 true; CSadd (bs "s") [bs "b"]].
Proof.
  split; [exact emptied_left|]. split; [eexists; split; vm_compute; reflexivity|]. split; [exact left_empty_same|]. repeat apply List.Forall_cons; try apply List.Forall_nil; cbn; (discriminate || tauto).
Qed.

(* But C103 is false: each of the commands that [tells] names is answered differently, *)
Definition tellers : list (list string) := [["LSET"; "l"; "0"; "x"]; ["LINSERT"; "l"; "BEFORE"; "p"; "x"]; ["HGET"; "h"; ""]; ["HEXISTS"; "h"; ""]; ["HSTRLEN"; "h"; ""]; ["HGETALL"; "h"]; ["HKEYS"; "h"]; ["HVALS"; "h"]; ["SMEMBERS"; "s"]; ["SISMEMBER"; "s"; ""]]%string.
Theorem C103_told_refuted : Forall (fun q => exists r1 r2 r3 r4 r5 r6 r r', said (with_env one_way (emptied ++ [q])) = Some [r1; r2; r3; r4; r5; r6; r] /\ said (with_env one_way [q]) = Some [r'] /\ r <> r') tellers.
Proof.
  unfold tellers. repeat (apply List.Forall_cons; [eexists _, _, _, _, _, _, _, _; split; [vm_compute; reflexivity|]; split; [vm_compute; reflexivity|]; discriminate|]). apply List.Forall_nil.
Qed.
Print Assumptions C103_told_refuted.
(* or crashes the server whose value is empty. *)
Definition killers : list (list string) := [["SPOP"; "s"]; ["SRANDMEMBER"; "s"]; ["LREM"; "l"; "1"; "dummy string"]]%string.
Theorem C103_crash_refuted : Forall (fun q => run new_db (with_env one_way (emptied ++ [q])) = Panic /\ exists r, said (with_env one_way [q]) = Some [r]) killers.
Proof.
  unfold killers. repeat (apply List.Forall_cons; [split; [vm_compute; reflexivity|]; eexists; vm_compute; reflexivity|]). apply List.Forall_nil.
Qed.
Print Assumptions C103_crash_refuted.
