(* C105: requests that undo each other. *)
From Verif Require Import Base BaseFacts IntSpec IntParse IntParseProofs Resp Command SpecDb RequestSpec CommandProofs IdealSpec Db DbProofs Engine EngineProofs Recovery RecoverySpec RecoveryProofs DetSpec Props_Det Props_Each EmptySpec UndoSpec UndoProofs Lts Server ServerSpec ServerProofs LinProofs IdealSpec.
From Verif Require CliProofs.
From Coq Require Import ZArith List String Lia.
From stdpp Require Import gmap.
Open Scope Z_scope.

(* After any history a request is answered by [r], and then another that is to undo it is executed:
   it does not crash, its reply is the one expected, and the contents are nearly those before. *)
Theorem C105_undo : forall h d rs s e q c r e' q' c' r' d1, Forall (fun x => env_ok (fst x)) h -> env_ok e -> env_ok e' ->
  requests_size (map snd h) + request_size q + request_size q' < 2 ^ 62 -> run new_db h = Ret (d, rs) -> db_rel d s -> asks q c -> asks q' c' ->
  run d [(e, q)] = Ret (d1, [Some r]) -> undo s c r c' r' ->
  exists d2 s2, run d1 [(e', q')] = Ret (d2, [Some r']) /\ db_rel d2 s2 /\ nearly_same s s2.
Proof. exact undone. Qed.
Print Assumptions C105_undo.

(* Later, when other requests have been executed, none of which wrote the value: that value is nearly
   as it was before the request, and all others are as those requests left them. *)
Theorem C105_later : forall h d rs s e q c r d1 m d2 rs2 e' q' c' r', Forall (fun x => env_ok (fst x)) (h ++ (e, q) :: m) -> env_ok e' ->
  requests_size (map snd (h ++ (e, q) :: m)) + request_size q' < 2 ^ 62 -> run new_db h = Ret (d, rs) -> db_rel d s -> asks q c -> asks q' c' ->
  run d [(e, q)] = Ret (d1, [Some r]) -> undo s c r c' r' ->
  run d1 m = Ret (d2, rs2) -> Forall (fun x => forall k, k ∈ written c -> ~ IdealSpec.writes (snd x) (kind_of c) k) m ->
  exists d3 s2 s3, run d2 [(e', q')] = Ret (d3, [Some r']) /\ db_rel d2 s2 /\ db_rel d3 s3 /\
    forall t k, (t = kind_of c /\ k ∈ written c -> near_at t k s s3) /\ (t <> kind_of c \/ k ∉ written c -> same_at t k s2 s3).
Proof. exact undone_later. Qed.
Print Assumptions C105_later.

(* So on the server, whichever clients sent the requests. *)
Theorem C105_server : forall cl input tr u h d rs s e q c r m e' q' c' r', Server.runs cl new_db input tr u ->
  turns_of tr = (h ++ (e, q) :: m) ++ [(e', q')] -> Forall (fun x => env_ok (fst x)) (turns_of tr) -> requests_size (map snd (turns_of tr)) < 2 ^ 62 ->
  run new_db h = Ret (d, rs) -> db_rel d s -> asks q c -> asks q' c' -> nth_error (map snd (map hturn (handled tr))) (List.length h) = Some (Some r) -> undo s c r c' r' ->
  Forall (fun x => forall k, k ∈ written c -> ~ IdealSpec.writes (snd x) (kind_of c) k) m ->
  exists d2 rs2 s2 s3, run new_db (h ++ (e, q) :: m) = Ret (d2, rs2) /\ map snd (map hturn (handled tr)) = rs2 ++ [Some r'] /\ db_rel d2 s2 /\ db_rel (s_db u) s3 /\
    forall t k, (t = kind_of c /\ k ∈ written c -> near_at t k s s3) /\ (t <> kind_of c \/ k ∉ written c -> same_at t k s2 s3).
Proof.
  intros cl input tr u h d rs s e q c r m e' q' c' r' R T E S H D A A' N U M. pose proof (turn_run _ _ _ (runs_turn _ _ _ _ _ R)) as K. fold (turns_of tr) in K. rewrite T in K, E, S. apply Forall_app in E as [E E']. inversion E' as [|? ? E1 _]; subst.
  rewrite map_app, NodeProofs.requests_size_app in S. change (requests_size (map snd [(e', q')])) with (request_size q' + 0) in S. rewrite Z.add_0_r in S.
  destruct (run new_db (h ++ (e, q) :: m)) as [[d2 rs2]| |] eqn:H2; rewrite NodeProofs.run_app, H2 in K; try discriminate K. cbn -[run new_db] in K.
  pose proof H2 as H3. rewrite NodeProofs.run_app, H in H3. cbn -[run new_db] in H3. change ((e, q) :: m) with ([(e, q)] ++ m) in H3. rewrite NodeProofs.run_app in H3.
  destruct (run d [(e, q)]) as [[d1 r1]| |] eqn:Hq; try discriminate H3. cbn -[run new_db] in H3. destruct (run d1 m) as [[d2' rsm]| |] eqn:Hm; try discriminate H3. cbn -[run new_db] in H3. injection H3 as -> <-.
  assert (L1 : exists x, r1 = [x]). { cbn in Hq. destruct (handle e d q) as [[d1' x]| |]; try discriminate Hq. cbn in Hq. injection Hq as _ <-. eauto. } destruct L1 as [x ->].
  assert (Lh : List.length rs = List.length h). { eapply CliProofs.run_length. exact H. }
  destruct (run d2 [(e', q')]) as [[d3 r3]| |] eqn:Hl; try discriminate K. cbn -[run new_db] in K. injection K as Kd K. rewrite <- K in N.
  assert (x = Some r) as ->. { rewrite <- !app_assoc in N. rewrite nth_error_app2 in N by lia. rewrite Lh, Nat.sub_diag in N. cbn in N. congruence. }
  destruct (undone_later h d rs s e q c r d1 m d2 rsm e' q' c' r' E E1 S H D A A' Hq U Hm M) as (d4 & s2 & s3 & G & D2 & D3 & V). rewrite Hl in G. injection G as -> ->. subst d4.
  exists d2, (rs ++ [Some r] ++ rsm), s2, s3. split; [reflexivity|]. split; [now rewrite <- K|]. split; [exact D2|]. split; [exact D3|exact V].
Qed.
Print Assumptions C105_server.

(* What the theorem says of each pair, on a server: the replies, and what a look at the value shows.
   The sum is past the largest number, and comes back. *)
Definition pairs_ : list (list string * list string * list string * robj * robj) :=
  [(["SET"; "n"; "9223372036854775807"], ["INCRBY"; "n"; "5"], ["DECRBY"; "n"; "5"], RInt (-9223372036854775804), RInt 9223372036854775807);
   (["SET"; "n"; "3"], ["DECRBY"; "n"; "5"], ["INCRBY"; "n"; "5"], RInt (-2), RInt 3);
   (["RPUSH"; "l"; "a"], ["LPUSH"; "l"; "x"], ["LPOP"; "l"], RInt 2, RBulk (bs "x"));
   (["RPUSH"; "l"; "a"], ["RPUSH"; "l"; "x"], ["RPOP"; "l"], RInt 2, RBulk (bs "x"));
   (["SADD"; "s"; "a"], ["SADD"; "s"; "x"; "y"], ["SREM"; "s"; "x"; "y"], RInt 2, RInt 2);
   (["SADD"; "s"; "x"; "y"; "a"], ["SREM"; "s"; "x"; "y"], ["SADD"; "s"; "x"; "y"], RInt 2, RInt 2);
   (["HSET"; "h"; "a"; "1"], ["HSET"; "h"; "f"; "1"; "g"; "2"], ["HDEL"; "h"; "f"; "g"], RInt 2, RInt 2)]%string.
Example C105_ex : Forall (fun p => let '(a, b, b', r, r') := p in exists r0, said (with_env one_way [a; b; b']) = Some [r0; Some r; Some r']) pairs_.
Proof. unfold pairs_. repeat (apply List.Forall_cons; [eexists; vm_compute; reflexivity|]). apply List.Forall_nil. Qed.
Lemma start_n : exists d rs, run new_db (with_env one_way [["SET"; "n"; "3"]]%string) = Ret (d, rs) /\ db_rel d (mkSdb {[ bs "n" := bs "3" ]} ∅ ∅ ∅).
Proof.
  assert (H : exists rs, said (with_env one_way [["SET"; "n"; "3"]]%string) = Some rs) by (eexists; vm_compute; reflexivity). destruct H as [rs H]. apply said_run in H as [d H]. exists d, rs. split; [exact H|].
  assert (E : Forall (fun x => env_ok (fst x)) (with_env one_way [["SET"; "n"; "3"]]%string)) by (repeat constructor; apply ways_ok).
  pose proof (run_refines _ E ltac:(vm_compute; reflexivity)) as R. rewrite H in R. destruct R as (s & D & A). unfold with_env in A. cbn [map snd] in A. apply SpecFacts.answers_one in A as (r & _ & A).
  assert (K : asks (rq ["SET"; "n"; "3"]%string) (CSet (bs "n") (bs "3"))) by (eapply asks_rq; [reflexivity|vm_compute; reflexivity]).
  pose proof (SpecFacts.asks_answer _ _ _ _ K A) as Q. destruct r as [r|]; [|destruct Q]. destruct Q as [Q|(er & Q & _)]; cbn [spec] in Q; [|discriminate Q]. injection Q as -> _. exact D.
Qed.
(* The hypotheses are met: a number, increased by 5. *)
Example C105_hyps : exists d rs s, run new_db (with_env one_way [["SET"; "n"; "3"]]%string) = Ret (d, rs) /\ db_rel d s /\ asks (rq ["INCRBY"; "n"; "5"]%string) (CIncr (bs "n") (bs "5")) /\ asks (rq ["DECRBY"; "n"; "5"]%string) (CDecr (bs "n") (bs "5")) /\
  undo s (CIncr (bs "n") (bs "5")) (RInt 8) (CDecr (bs "n") (bs "5")) (RInt 3) /\ requests_size (map snd (with_env one_way [["SET"; "n"; "3"]; ["INCRBY"; "n"; "5"]; ["DECRBY"; "n"; "5"]]%string)) < 2 ^ 62.
Proof.
  destruct start_n as (d & rs & H & D). exists d, rs, (mkSdb {[ bs "n" := bs "3" ]} ∅ ∅ ∅). split; [exact H|]. split; [exact D|]. split; [eapply asks_rq; [reflexivity|vm_compute; reflexivity]|]. split; [eapply asks_rq; [reflexivity|vm_compute; reflexivity]|].
  split; [|vm_compute; reflexivity]. apply (u_incr _ _ _ (bs "3")); [apply lookup_singleton|]. change (bs "3") with (format_int 3). split; [apply canonical_denotes, format_int_canonical|unfold int64_ok; lia].
Qed.
(* Requests in between that read the value, or write others. *)
Definition between_ : list (list string) := [["GET"; "n"]; ["SET"; "m"; "1"]; ["RPUSH"; "n"; "a"]]%string.
Example C105_later_ex : Forall (fun x => forall k, k ∈ written (CIncr (bs "n") (bs "5")) -> ~ IdealSpec.writes (snd x) (kind_of (CIncr (bs "n") (bs "5"))) k) (with_env one_way between_) /\
  said (with_env one_way ([["SET"; "n"; "3"]; ["INCRBY"; "n"; "5"]] ++ between_ ++ [["DECRBY"; "n"; "5"]]))%string = Some (map Some [r_ok; RInt 8; RBulk (bs "8"); r_ok; RInt 1; RInt 3]).
Proof.
  split; [|vm_compute; reflexivity].
  assert (G : forall l c, asks (rq l) c -> kind_of c <> KStr \/ bs "n" ∉ written c -> forall k, k ∈ [bs "n"] -> ~ IdealSpec.writes (rq l) KStr k).
  { intros l c A N k Hk (c' & A' & T & I). rewrite <- (SpecFacts.asks_det _ _ _ A A') in T, I. apply elem_of_list_singleton in Hk as ->. tauto. }
  unfold between_, with_env. cbn [map]. repeat apply List.Forall_cons; try apply List.Forall_nil; cbn [snd]; eapply G; try (eapply asks_rq; [reflexivity|vm_compute; reflexivity]).
  - right. cbn. apply not_elem_of_nil.
  - right. cbn. intros I. apply elem_of_list_singleton in I. discriminate I.
  - left. discriminate.
Qed.
(* Nearly only: a number may be written differently afterwards, *)
Example C105_text : said (with_env one_way [["SET"; "n"; "007"]; ["INCR"; "n"]; ["DECR"; "n"]; ["GET"; "n"]]%string) = Some (map Some [r_ok; RInt 8; RInt 7; RBulk (bs "7")]).
Proof. vm_compute. reflexivity. Qed.
(* and an addition of what was there already is not undone by removing it. *)
Example C105_old : said (with_env one_way [["SADD"; "s"; "a"]; ["SADD"; "s"; "a"]; ["SREM"; "s"; "a"]; ["SISMEMBER"; "s"; "a"]]%string) = Some (map Some [RInt 1; RInt 0; RInt 1; RInt 0]).
Proof. vm_compute. reflexivity. Qed.
