(* C97: clients that do not take what is sent to them. *)
From Coq Require Import List Arith Bool Ascii String ZArith Lia.
From Verif Require Import Base Lts Counted Command Resp RespSpec RespProofs RequestSpec Engine EngineProofs Db DataChannel Topic Conn ConnProofs WaitSpec WaitConn Server ServerSpec ServerProofs ServerRuns ProgressProofs BoundSpec BoundProofs RestSpec RestProofs
  Props_Server Props_Progress Props_Rest Flow FlowProofs FlowServer FlowServerProofs FlowAll.
Import ListNotations.
Local Open Scope nat_scope.
Local Open Scope string_scope.
Local Open Scope list_scope.

(* A client asks something and gets an answer: up to where the response worker has it. *)
Definition asks (q r : robj) : list Server.event :=
  [SAccept 0; SConn 0 (Conn.ECall 1 ORead); SRead 0 1 0 q; SReq (TPublish 0 (QRequest 0 0 q));
   SReq (TChan 0 (DataChannel.ECall 1 ORecv)); SReq (TVisit 0 0 "engine" 0); SReq (TChan 0 (DataChannel.ECall 0 (OSend (QRequest 0 0 q)))); SReq (TChan 0 (EPass 0 1 (QRequest 0 0 q)));
   SReq (TChan 0 (DataChannel.ERet 1 ORecv (REvent (QRequest 0 0 q)))); SHandle 0 0 plain q (Some r); SRsp (TPublish 0 (PReply 0 0 r));
   SRsp (TChan 0 (DataChannel.ECall 1 ORecv)); SRsp (TVisit 0 0 "server" 0); SRsp (TChan 0 (DataChannel.ECall 0 (OSend (PReply 0 0 r)))); SRsp (TChan 0 (EPut 0 (PReply 0 0 r)));
   SRsp (TChan 0 (ETake 1 (PReply 0 0 r))); SRsp (TChan 0 (DataChannel.ERet 1 ORecv (REvent (PReply 0 0 r))))].
Definition first_sends (b : bytes) (others : nat -> bytes) : nat -> bytes := fun c => match c with 0 => b | _ => others c end.
Lemma asked q r others b : parse b = POk q [] -> handle plain new_db q = Ret (new_db, Some r) ->
  exists s, Server.runs true new_db (first_sends b others) (asks q r) s /\ s_wrk s = WHas 0 0 r /\ s_crash s = false /\ s_rd s 0 = RIdle 1 /\ s_conn s 0 = mkC false true false (c_pc (s_conn s 0)) false /\ c_pc (s_conn s 0) 0 = Conn.PLoop /\
    c_pc (s_conn s 0) 3 = Conn.PIdle /\ forall j x, c_pc (s_conn s 0) j <> PTcp x.
Proof.
  intros Hp Hh. eexists. split.
  - unfold Server.runs, asks. simp. srv accept.
    srv read_call with (eapply (Conn.call _ 1); side). cont 0 (reset_r _ 1). cont 0 (r_obj _ 1).
    eapply exec_cons; [apply mv; [side|eapply read_obj; [side|simp; eapply (Conn.ret_ _ 1); side|exact Hp]]|simp].
    srv publish with (eapply Topic.publish; simp; side).
    srv eng_call with recv_call. rqct (r_open _ 1). rqt (range _ 0). rq (visit _ 0 0 "engine" 0). rqsend 0. rqc (s_pass _ 0 1). srv eng_got with recv_ret.
    eapply exec_cons; [apply mv; [side|eapply eng_handle; [side|exact Hh]]|simp].
    srv eng_reply with (eapply Topic.publish; simp; side).
    srv wrk_call with recv_call. rsct (r_open _ 1). rst (range _ 0). rs (visit _ 0 0 "server" 0). rssend 0. rsc (s_put _ 0). rsc (r_take _ 1). srv wrk_got with recv_ret.
    apply exec_start.
  - repeat split. intros j x. cbn. destruct j as [|[|j]]; discriminate.
Qed.
(* It is one that needs more bytes than [n] to answer. *)
Definition long_request (n : nat) : robj := RArr [Resp.RErr (repeat "x"%char n)].
Definition long_reply (n : nat) : robj := error_reply (bs "invalid command name, raw=" ++ encode (Resp.RErr (repeat "x"%char n))) Command.EInternal.
Lemma long_parses n : parse (encode (long_request n)) = POk (long_request n) [].
Proof.
  rewrite <- (app_nil_r (encode (long_request n))). apply parse_encode. constructor; [cbn; lia|]. constructor; [|constructor]. constructor.
  intros a b. split; intros E; assert (H : In LF (repeat "x"%char n)) by (rewrite E; apply in_app_iff; cbn; auto); apply repeat_spec in H; discriminate.
Qed.
Lemma long_handled n : handle plain new_db (long_request n) = Ret (new_db, Some (long_reply n)).
Proof. reflexivity. Qed.
Lemma err_length d : List.length d < List.length (encode (Resp.RErr d)).
Proof. cbn. rewrite app_length. cbn. lia. Qed.
Lemma long_is_long n : n < List.length (encode (long_reply n)).
Proof.
  unfold long_reply, error_reply. pose proof (err_length (repeat "x"%char n)) as H. rewrite repeat_length in H. eapply Nat.lt_trans; [exact H|].
  eapply Nat.le_lt_trans; [|apply err_length]. rewrite !app_length. lia.
Qed.

Lemma filled cl cap s f0 c i b : s_crash s = false -> s_rd s c <> RNone -> f0 c = no_flow -> c_pc (s_conn s c) i = PWriting b -> c_tcp (s_conn s c) = true -> cap < List.length b ->
  exists tr f, exec (FlowServer.step cl cap) (s, f0) tr (s, f) /\ (forall a, In a tr -> exists p, a = VFlow c (FTake i) \/ a = VFlow c (FPut i p)) /\
    f_lock (f c) = Some i /\ f_left (f c) <> [] /\ List.length (f_buf (f c)) = cap.
Proof.
  intros C RD F P T Lt.
  set (f1 := upd f0 c (mkF (Some i) [] b [] [])).
  assert (S1 : FlowServer.step cl cap (s, f0) (Some (VFlow c (FTake i))) (s, f1)).
  { apply net_move; [exact C|exact RD|]. rewrite F. apply take; [now left|exact T|reflexivity]. }
  destruct cap as [|cap'].
  - exists [VFlow c (FTake i)], f1. split; [now apply exec_one|]. split; [intros a [<-|[]]; exists []; now left|]. unfold f1. rewrite upd_eq. cbn. split; [reflexivity|]. split; [destruct b; [cbn in Lt; lia|discriminate]|reflexivity].
  - set (n := S cap') in *. set (f2 := upd f1 c (mkF (Some i) ([] ++ firstn n b) (skipn n b) ([] ++ firstn n b) [])).
    assert (L : List.length (firstn n b) = n) by (apply firstn_length_le; lia).
    assert (S2 : FlowServer.step cl n (s, f1) (Some (VFlow c (FPut i (firstn n b)))) (s, f2)).
    { apply net_move; [exact C|exact RD|]. unfold f1 at 1. rewrite upd_eq. apply (put n _ (mkF (Some i) [] b [] []) i (firstn n b) (skipn n b)); cbn [f_lock f_left f_buf].
      - reflexivity.
      - symmetry. apply firstn_skipn.
      - intros E. rewrite E in L. discriminate.
      - rewrite L. cbn. lia. }
    exists [VFlow c (FTake i); VFlow c (FPut i (firstn n b))], f2. split; [eapply exec_cons; [exact S1|]; now apply exec_one|]. split; [intros a [<-|[<-|[]]]; exists (firstn n b); [left|right]; reflexivity|].
    unfold f2. rewrite upd_eq. cbn [f_lock f_left f_buf app]. split; [reflexivity|]. split; [|exact L]. intros E. pose proof (skipn_length n b) as Q. rewrite E in Q. cbn in Q. lia.
Qed.
(* C97 is false.  Whatever the room [cap] for bytes on their way to a client, and whatever the
   other clients send: a client can ask something and take nothing of the answer, and as long as
   it takes nothing and its connection does not break, the response worker writes to nobody,
   whoever asks; it does not end if the server is stopped; and the connection is never closed. *)
Theorem C97_silenced_refuted : forall cap others, exists b tr s f, FlowServer.runs true cap new_db (first_sends b others) tr (s, f) /\
  forall cl tr' s' f', exec (FlowServer.step cl cap) (s, f) tr' (s', f') -> (forall p, ~ In (VFlow 0 (FGot p)) tr') -> (forall i p, ~ In (VFlow 0 (FBreak i p)) tr') ->
    (forall c i k r, ~ In (VServer (SWrite c i k r)) tr') /\ s_wrk s' <> WOver /\ c_tcp (s_conn s' 0) = true.
Proof.
  intros cap others. set (q := long_request cap). set (r := long_reply cap). exists (encode q).
  destruct (asked q r others (encode q) (long_parses cap) (long_handled cap)) as (s0 & R & W & C & RD & Cs & P0 & P3 & NT).
  assert (R' : FlowServer.runs true cap new_db (first_sends (encode q) others) (map VServer (asks q r)) (s0, fun _ => no_flow)).
  { apply lift; [exact R| |]; intros; cbn; intuition discriminate. }
  set (u0 := s_conn s0 0) in *.
  set (u1 := Conn.set_pc u0 3 (PChkW (encode r))). set (s1 := set_wrk (put_conn s0 0 u1) (WIn 0 3 0 r)).
  set (u2 := Conn.set_pc u1 3 (PResetW (encode r))). set (s2 := put_conn s1 0 u2).
  set (u3 := Conn.set_pc u2 3 (PWriting (encode r))). set (s3 := put_conn s2 0 u3).
  assert (NW : forall (u : Conn.state) i p f, (forall b, ~ wants u i b) -> calm u (Conn.set_pc u i p) f).
  { intros u i p f N. split; [|now left]. intros j b Wj. cbn. apply upd_ne. intros ->. exact (N b Wj). }
  assert (St1 : FlowServer.step true cap (s0, fun _ => no_flow) (Some (VServer (SWrite 0 3 0 r))) (s1, fun _ => no_flow)).
  { apply (srv true cap s0 _ (Some (SWrite 0 3 0 r))).
    - split; [exact C|]. apply wrk_write; [exact W|]. apply (Conn.call u0 3 (OWrite (encode r))); [now rewrite Cs|exact P3].
    - intros [|c]; [|apply calm_same]. apply (NW u0). intros b [X|(x & X & _)]; rewrite P3 in X; discriminate. }
  assert (St2 : FlowServer.step true cap (s1, fun _ => no_flow) None (s2, fun _ => no_flow)).
  { apply (srv true cap s1 _ None).
    - split; [exact C|]. apply (conn_free true s1 0 None); [cbn; rewrite RD; discriminate|exact I|]. change (s_conn s1 0) with u1.
      replace u2 with (Conn.set_pc u1 3 (if c_flag u1 then Conn.PRet (OWrite (encode r)) Conn.RErrClosed else PResetW (encode r))) by (unfold u2, u1; rewrite Cs; reflexivity).
      apply wr_chk; [unfold u1; rewrite Cs; reflexivity|reflexivity].
    - intros [|c]; [|apply calm_same]. apply (NW u1). intros b [X|(x & X & _)]; discriminate. }
  assert (St3 : FlowServer.step true cap (s2, fun _ => no_flow) None (s3, fun _ => no_flow)).
  { apply (srv true cap s2 _ None).
    - split; [exact C|]. apply (conn_free true s2 0 None); [cbn; rewrite RD; discriminate|exact I|]. change (s_conn s2 0) with u2. apply (reset_w u2 3 (encode r)); [unfold u2, u1; rewrite Cs; reflexivity|reflexivity|exact P0].
    - intros [|c]; [|apply calm_same]. apply (NW u2). intros b [X|(x & X & _)]; discriminate. }
  destruct (filled true cap s3 (fun _ => no_flow) 0 3 (encode r)) as (tr1 & f & E & Q & FL & FN & FB); [exact C|cbn; rewrite RD; discriminate|reflexivity|reflexivity|cbn; rewrite Cs; reflexivity|apply long_is_long|].
  assert (Rf : FlowServer.runs true cap new_db (first_sends (encode q) others) ((map VServer (asks q r) ++ [VServer (SWrite 0 3 0 r)]) ++ tr1) (s3, f)).
  { eapply exec_app; [|exact E]. eapply exec_tau; [|exact St3]. eapply exec_tau; [|exact St2]. eapply exec_act; [exact R'|exact St1]. }
  eexists _, s3, f. split; [exact Rf|]. intros cl tr' s' f' Ex N1 N2.
  destruct (server_inv _ _ _ _ _ _ _ Rf) as [_ K].
  assert (H : held cap (s3, f) 0 3 0 r).
  { split; [reflexivity|]. split; [exact FL|]. split; [exact (proj1 (K 0))|]. split; [eauto|]. split; [cbn [snd]; lia|]. intros j x. change (s_conn (fst (s3, f)) 0) with u3. cbn. unfold upd. destruct (Nat.eqb j 3); [discriminate|apply NT]. }
  destruct (held_forever cl cap _ _ _ _ _ H _ _ Ex) as ((W' & F' & L' & _) & B & _).
  { intros [e|i|i p|i p|p] Hin; cbn; try tauto; intros _; [exact (N2 _ _ Hin)|exact (N1 _ Hin)]. }
  cbn [fst snd] in *. split; [exact B|]. split; [congruence|]. unfold lock_ok in L'. rewrite F' in L'. exact (proj2 L').
Qed.
Print Assumptions C97_silenced_refuted.
(* What holds.  Every run of the server over such connections is one of Server.v (so what is proved
   of those holds here too); and what each client has taken, together with the bytes on their way,
   is what was written to it, in the order of the writes, none mixed with another. *)
Theorem C97_server : forall cl cap d input tr s f, FlowServer.runs cl cap d input tr (s, f) ->
  Server.runs cl d input (server_trace tr) s /\
  forall c, FlowServer.taken c tr ++ f_buf (f c) = flat_map out (Server.conn_trace c (server_trace tr)) ++ f_sent (f c) /\ List.length (f_buf (f c)) <= cap /\
    match f_lock (f c) with
    | Some i => exists b, wants (s_conn s c) i b /\ b = f_sent (f c) ++ f_left (f c)
    | None => f_sent (f c) = []
    end.
Proof.
  intros cl cap d input tr s f R. destruct (server_inv _ _ _ _ _ _ _ R) as [A K]. split; [exact A|]. intros c. destruct (K c) as [L (_ & B & Le)]. cbn [fst snd] in *. split; [exact B|]. split; [exact Le|].
  unfold lock_ok in L. destruct (f_lock (f c)); [destruct L; eauto|exact (proj1 L)].
Qed.
Print Assumptions C97_server.
(* When the server has nothing left to do and no buffer is full (for example because every client
   takes what comes), every array request it read is answered, as in C85 ... *)
Theorem C97_rest : forall cl cap h d rs input tr s f c i k l, run new_db h = Ret (d, rs) -> FlowServer.runs cl cap d input tr (s, f) -> FlowServer.rests cl cap (s, f) ->
  (forall c, List.length (f_buf (f c)) < cap) -> s_crash s = false -> s_stop s = XNone -> ~ blocked s ->
  Forall (fun x => env_ok (fst x)) (h ++ turns (server_trace tr)) -> (forall c i k q, In (SRead c i k q) (server_trace tr) -> requests_size (map snd (h ++ turns (server_trace tr)) ++ [q]) < 2 ^ 62)%Z ->
  In (SRead c i k (RArr l)) (server_trace tr) -> ~ dropped (server_trace tr) c k (RArr l) -> exists i' r, In (SWrite c i' k r) (server_trace tr).
Proof.
  intros cl cap h d rs input tr s f c i k l Hd R Z Rm C X B F S H N. destruct (server_inv _ _ _ _ _ _ _ R) as [A _].
  eapply (C85_rest cl h d rs input _ s c i k l Hd A); eauto. eapply server_rest; [exact R|exact Z|exact C|]. intros c' [_ Le]. specialize (Rm c'). lia.
Qed.
Print Assumptions C97_rest.
(* ... and a client that has emptied its buffer has got every byte that was written to it. *)
Theorem C97_delivered : forall cl cap d input tr s f c, FlowServer.runs cl cap d input tr (s, f) -> FlowServer.rests cl cap (s, f) -> s_crash s = false -> 0 < cap -> f_buf (f c) = [] ->
  FlowServer.taken c tr = flat_map out (Server.conn_trace c (server_trace tr)).
Proof. exact delivered. Qed.
Print Assumptions C97_delivered.
(* The server comes to rest: the steps of a run are bounded by what the clients send and take. *)
Theorem C97_bounded : forall cl cap d input n tr x, steps (FlowServer.step cl cap) (Server.init d input, fun _ => no_flow) n tr x ->
  n <= 150 + list_sum (map (fun c => 35 + 104 * List.length (input c) + cap + 2 * List.length (FlowServer.taken c tr)) (accepted (server_trace tr))).
Proof. exact flow_bound. Qed.
Print Assumptions C97_bounded.

(* And nothing is lost by such connections: what the server of Server.v can do, this one can do
   too, with any room at all, over clients that take what comes; only that a write that fails may
   show as an output of no bytes. *)
Theorem C97_all : forall cl cap d input tr0 s, 0 < cap -> Server.runs cl d input tr0 s ->
  exists tr f, FlowServer.runs cl cap d input tr (s, f) /\ (forall c, f_lock (f c) = None /\ f_buf (f c) = []) /\
    filter (fun e => match e with SConn _ (EOut _ []) => false | _ => true end) (server_trace tr) = filter (fun e => match e with SConn _ (EOut _ []) => false | _ => true end) tr0 /\
    (RestSpec.rests cl s -> FlowServer.rests cl cap (s, f)).
Proof.
  intros cl cap d input tr0 s P R. destruct (all_runs cl cap d input tr0 s P R) as (tr & f & A & Z & E). exists tr, f. split; [exact A|]. split; [exact Z|]. split; [exact E|]. intros Q. exact (rests_too _ _ _ _ _ _ _ R Q Z).
Qed.
Print Assumptions C97_all.
(* So the server that has answered a request (C85_ex) meets the hypotheses of C97_rest and
   C97_delivered: with room for one byte the client gets all of the answer. *)
Example C97_rest_ex : exists tr s f, FlowServer.runs true 1 new_db (one q1) tr (s, f) /\ FlowServer.rests true 1 (s, f) /\ (forall c, List.length (f_buf (f c)) < 1) /\
  s_crash s = false /\ s_stop s = XNone /\ ~ blocked s /\ Forall (fun x => env_ok (fst x)) ([] ++ turns (server_trace tr)) /\
  (forall c i k q, In (SRead c i k q) (server_trace tr) -> requests_size (map snd ([] ++ turns (server_trace tr)) ++ [q]) < 2 ^ 62)%Z /\
  (exists l, In (SRead 0 1 0 (RArr l)) (server_trace tr) /\ ~ dropped (server_trace tr) 0 0 (RArr l)) /\ FlowServer.taken 0 tr = encode RNullBulk.
Proof.
  destruct C85_ex as (s & R & Q & C & X & B & F & S & l & H & D). destruct (C97_all true 1 _ _ _ _ Nat.lt_0_1 R) as (tr & f & A & Z & E & Q').
  assert (T : forall e, (match e with SConn _ (EOut _ []) => false | _ => true end) = true -> In e (server_trace tr) <-> In e answered).
  { intros e Le. split; intros G.
    - assert (K : In e (filter (fun e => match e with SConn _ (EOut _ []) => false | _ => true end) (server_trace tr))) by (apply filter_In; auto). rewrite E in K. now apply filter_In in K.
    - assert (K : In e (filter (fun e => match e with SConn _ (EOut _ []) => false | _ => true end) answered)) by (apply filter_In; auto). rewrite <- E in K. now apply filter_In in K. }
  assert (U : turns (server_trace tr) = turns answered).
  { assert (V : forall t, turns t = turns (filter (fun e => match e with SConn _ (EOut _ []) => false | _ => true end) t)).
    { unfold turns, handled. induction t as [|e t IH]; [reflexivity|]. cbn [flat_map filter]. rewrite !map_app, IH. destruct e; cbn [flat_map]; rewrite ?map_app; try reflexivity. destruct l0 as [| |? []| | |]; reflexivity. }
    rewrite (V (server_trace tr)), (V answered), E. reflexivity. }
  assert (O : forall c, flat_map out (Server.conn_trace c (server_trace tr)) = flat_map out (Server.conn_trace c answered)).
  { assert (V : forall c t, flat_map out (Server.conn_trace c t) = flat_map out (Server.conn_trace c (filter (fun e => match e with SConn _ (EOut _ []) => false | _ => true end) t))).
    { intros c. unfold Server.conn_trace. induction t as [|e t IH]; [reflexivity|]. cbn [flat_map filter]. rewrite flat_map_app, IH. destruct e; cbn [flat_map]; rewrite ?flat_map_app; try reflexivity.
      destruct l0 as [| |? []| | |]; cbn [flat_map]; rewrite ?flat_map_app; try reflexivity. cbn. destruct (Nat.eqb _ _); reflexivity. }
    intros c. rewrite (V c (server_trace tr)), (V c answered), E. reflexivity. }
  exists tr, s, f. split; [exact A|]. split; [exact (Q' Q)|]. split; [intros c; rewrite (proj2 (Z c)); cbn; lia|]. rewrite U. repeat (split; [assumption|]). split; [|split].
  - intros c i k q G. apply T in G; [exact (S _ _ _ _ G)|reflexivity].
  - exists l. split; [now apply T|]. intros (j & [G|(r & G)]); apply D; exists j; [left|right; exists r]; now apply T.
  - rewrite (C97_delivered _ _ _ _ _ _ _ 0 A (Q' Q) C Nat.lt_0_1 (proj2 (Z 0))), O. reflexivity.
Qed.
Print Assumptions C97_rest_ex.

(* One connection.  Its runs are runs of Conn.v. *)
Theorem C97_conn : forall cap tr u f, Flow.runs cap tr (u, f) -> Conn.runs (Flow.conn_trace tr) u /\
  Flow.taken tr ++ f_buf f = flat_map out (Flow.conn_trace tr) ++ f_sent f /\ List.length (f_buf f) <= cap.
Proof. intros cap tr u f R. destruct (flow_inv _ _ _ _ R) as (A & _ & _ & B & C). auto. Qed.
Print Assumptions C97_conn.
(* A write that has the lock and bytes left when there is no room waits for the peer, and everything
   else that wants to write, the closing of the connection included, waits for it. *)
Theorem C97_waits : forall cap tr u f i, Flow.runs cap tr (u, f) -> f_lock f = Some i -> f_left f <> [] -> cap <= List.length (f_buf f) -> (forall j x, c_pc u j <> PTcp x) ->
  forall tr' u' f', exec (Flow.step cap) (u, f) tr' (u', f') -> (forall p, ~ In (FGot p) tr') -> (forall j p, ~ In (FBreak j p) tr') ->
    c_pc u' i = c_pc u i /\ c_tcp u' = true /\ f' = f /\ forall j p, ~ In (FConn (Conn.EOut j p)) tr'.
Proof.
  intros cap tr u f i R E Ne B N tr' u' f' Ex N1 N2. destruct (flow_inv _ _ _ _ R) as (_ & L & _).
  assert (S : FlowProofs.stuck cap u f) by (split; [eauto|split; [exact B|exact N]]).
  destruct (stuck_forever cap u f L S tr' u' f' Ex) as (F & L' & _ & P & O).
  { intros [e|j|j p|j p|p] Hin; cbn; try tauto; intros _; [exact (N2 _ _ Hin)|exact (N1 _ Hin)]. }
  unfold lock_ok in L'. rewrite E in L'. split; [now apply P|]. split; [apply L'|]. split; [exact F|exact O].
Qed.
Print Assumptions C97_waits.
(* So the expiry of a connection need not close it: the timer fires, the expiry worker wins, and the
   TCP connection stays open, and the write in progress, as long as the peer takes nothing. *)
Definition expires_in (cap : nat) : list Flow.event :=
  let b := repeat "x"%char (S cap) in
  FConn (Conn.ECall 1 (OWrite b)) :: FTake 1 :: match cap with 0 => [] | S _ => [FPut 1 (repeat "x"%char cap)] end ++ [FConn ETimer; FConn (EWin 0)].
Theorem C97_expiry_refuted : forall cap, exists u f, Flow.runs cap (expires_in cap) (u, f) /\
  forall tr' u' f', exec (Flow.step cap) (u, f) tr' (u', f') -> (forall p, ~ In (FGot p) tr') -> (forall j p, ~ In (FBreak j p) tr') ->
    c_tcp u' = true /\ forall b r, ~ In (FConn (Conn.ERet 1 (OWrite b) r)) tr'.
Proof.
  intros cap. set (b := repeat "x"%char (S cap)).
  assert (NW : forall (u : Conn.state) i p f, (forall b, ~ wants u i b) -> calm u (Conn.set_pc u i p) f).
  { intros u i p f N. split; [|now left]. intros j b' Wj. cbn. apply upd_ne. intros ->. exact (N b' Wj). }
  set (u1 := Conn.set_pc Conn.init 1 (PChkW b)). set (u2 := Conn.set_pc u1 1 (PResetW b)). set (u3 := Conn.set_pc u2 1 (PWriting b)).
  set (u4 := Conn.set_pc u3 0 (PCas false)). set (u5 := mkC true true false (upd (c_pc u4) 0 (PMsg false)) false).
  set (fin := match cap with 0 => mkF (Some 1) [] b [] [] | S _ => mkF (Some 1) (repeat "x"%char cap) ["x"%char] (repeat "x"%char cap) [] end).
  assert (E : Flow.runs cap (expires_in cap) (u5, fin)).
  { unfold Flow.runs, expires_in. fold b.
    eapply exec_cons; [apply (conn cap Conn.init no_flow (Some (Conn.ECall 1 (OWrite b))) u1); [now apply Conn.call|apply NW; intros b' [X|(x & X & _)]; discriminate]|].
    eapply exec_cons_tau; [apply (conn cap u1 no_flow None u2); [now apply (wr_chk u1 1 b)|apply NW; intros b' [X|(x & X & _)]; discriminate]|].
    eapply exec_cons_tau; [apply (conn cap u2 no_flow None u3); [now apply (reset_w u2 1 b)|apply NW; intros b' [X|(x & X & _)]; discriminate]|].
    eapply exec_cons; [apply (Flow.move cap u3 no_flow); [reflexivity|apply (take cap u3 no_flow 1 b); [now left|reflexivity|reflexivity]]|].
    assert (T : exec (Flow.step cap) (u3, fin) [FConn ETimer; FConn (EWin 0)] (u5, fin)).
    { eapply exec_cons; [apply (conn cap u3 fin (Some ETimer) u4); [now apply w_timer|apply NW; intros b' [X|(x & X & _)]; discriminate]|].
      eapply exec_cons; [apply (conn cap u4 fin (Some (EWin 0)) u5); [now apply (x_win u4 0 false)|]|apply exec_start].
      split; [|now left]. intros j b' Wj. unfold u5. cbn [c_pc]. apply upd_ne. intros ->. destruct Wj as [X|(x & X & _)]; discriminate. }
    destruct cap as [|n]; [exact T|]. eapply exec_cons; [apply (Flow.move (S n) u3 (mkF (Some 1) [] b [] [])); [reflexivity|]|exact T].
    apply (put (S n) u3 (mkF (Some 1) [] b [] []) 1 (repeat "x"%char (S n)) ["x"%char]); [reflexivity| |discriminate|cbn [f_buf List.length]; rewrite repeat_length; lia].
    cbn [f_left]. unfold b. change ["x"%char] with (repeat "x"%char 1). rewrite <- repeat_app. f_equal. lia. }
  exists u5, fin. split; [exact E|]. intros tr' u' f' Ex N1 N2.
  assert (Q : forall tr' u' f', exec (Flow.step cap) (u5, fin) tr' (u', f') -> (forall p, ~ In (FGot p) tr') -> (forall j p, ~ In (FBreak j p) tr') -> c_pc u' 1 = PWriting b /\ c_tcp u' = true).
  { clear tr' u' f' Ex N1 N2. intros tr' u' f' Ex N1 N2. assert (NT : forall j x, c_pc u5 j <> PTcp x) by (intros [|[|j]] x; discriminate).
    destruct (C97_waits cap _ u5 fin 1 E) with (tr' := tr') (u' := u') (f' := f') as (P & T & _); auto.
    - unfold fin. now destruct cap.
    - unfold fin, b. destruct cap; discriminate.
    - unfold fin. destruct cap; cbn [f_buf]; [cbn; lia|rewrite repeat_length; lia]. }
  split; [exact (proj2 (Q _ _ _ Ex N1 N2))|]. intros b' r Hin. apply in_split in Hin as (x & y & ->). destruct (exec_split _ _ _ _ _ _ Ex) as ([v g] & [v' g'] & E1 & St & _).
  destruct (Q _ _ _ E1) as [P _]; [intros p X; apply (N1 p), in_app_iff; auto|intros j p X; apply (N2 j p), in_app_iff; auto|].
  inversion St as [? ? l ? CS CM|? ? ? ? ? WS|? ? ? ? ? ? WS]; subst; [destruct l as [e|]; [|discriminate]; match goal with X : option_map _ _ = _ |- _ => injection X as -> end; inversion CS; congruence|inversion WS|inversion WS].
Qed.
Print Assumptions C97_expiry_refuted.
(* If the peer takes what comes, the write that has the lock can put all its bytes and end. *)
Theorem C97_finishes : forall cap tr u f i, Flow.runs cap tr (u, f) -> 0 < cap -> f_lock f = Some i ->
  exists tr' u' f', exec (Flow.step cap) (u, f) (tr' ++ [FConn (Conn.EOut i (f_sent f ++ f_left f))]) (u', f') /\ f_lock f' = None /\
    forall a, In a tr' -> exists p, a = FGot p \/ a = FPut i p.
Proof.
  intros cap tr u f i R P E. destruct (flow_inv _ _ _ _ R) as (Rc & _). destruct (i_alive _ _ (runs_inv _ _ Rc)) as [Cr _]. clear R Rc tr.
  remember (f_left f) as w eqn:W. revert f E W. induction w as [|z w IH]; intros f E W.
  - rewrite app_nil_r. exists []. eexists _, _. split; [apply exec_one; apply (end_ cap); [exact Cr|]; apply all_put; [exact E|now symmetry]|]. split; [reflexivity|]. intros a [].
  - assert (G : exists t f1, exec (Flow.step cap) (u, f) t (u, f1) /\ (forall a, In a t -> exists p, a = FGot p) /\ f_buf f1 = [] /\ f_lock f1 = f_lock f /\ f_sent f1 = f_sent f /\ f_left f1 = f_left f).
    { destruct (f_buf f) as [|y v] eqn:B; [exists [], f; split; [apply exec_start|]; split; [intros a []|auto]|].
      eexists [_], _. split; [apply exec_one; apply (Flow.move cap); [exact Cr|]; apply (got cap u f (y :: v) []); [now rewrite app_nil_r|discriminate]|]. split; [intros a [<-|[]]; eauto|auto]. }
    destruct G as (t & f1 & Ex & Ta & B & E1 & S1 & L1).
    set (f2 := mkF (Some i) (f_sent f1 ++ [z]) w (f_buf f1 ++ [z]) (f_got f1)).
    assert (M : Flow.step cap (u, f1) (Some (FPut i [z])) (u, f2)).
    { apply (Flow.move cap); [exact Cr|]. apply (put cap u f1 i [z] w); [congruence|rewrite L1, <- W; reflexivity|discriminate|rewrite B; cbn; lia]. }
    destruct (IH f2 eq_refl eq_refl) as (tr' & u' & f' & Ex' & Lk & Ta'). exists (t ++ [FPut i [z]] ++ tr'), u', f'. split.
    + rewrite <- !app_assoc. eapply exec_app; [exact Ex|]. cbn [app]. eapply exec_cons; [exact M|]. cbn [f_sent f2] in Ex'. rewrite S1, <- app_assoc in Ex'. exact Ex'.
    + split; [exact Lk|]. intros a H. apply in_app_iff in H as [H|[<-|H]]; [destruct (Ta _ H); eauto|eauto|exact (Ta' _ H)].
Qed.
Print Assumptions C97_finishes.
(* At rest, a connection has a write waiting for room, or its calls wait for what C95 says. *)
Theorem C97_conn_rest : forall cap tr u f, Flow.runs cap tr (u, f) -> flow_rests cap (u, f) ->
  ((exists i, f_lock f = Some i /\ f_left f <> []) /\ cap <= List.length (f_buf f)) \/
  ((forall i o, In (Conn.ECall i o) (Flow.conn_trace tr) -> (forall r, ~ In (Conn.ERet i o r) (Flow.conn_trace tr)) ->
     match o with Conn.OClose => False | OWrite _ => exists j, In (EWin j) (Flow.conn_trace tr) | ORead => c_pc u i = PReading \/ exists j, In (EWin j) (Flow.conn_trace tr) end) /\
   ((exists j, In (EWin j) (Flow.conn_trace tr)) -> c_tcp u = false)).
Proof.
  intros cap tr u f R Q. destruct (flow_rest _ _ _ _ R Q) as [(A & B & _)|H]; [left; auto|right]. destruct (flow_inv _ _ _ _ R) as (Rc & _). exact (conn_rest _ _ Rc H).
Qed.
Print Assumptions C97_conn_rest.

(* Its steps are bounded by those of Conn.v (see C95) and the bytes taken. *)
Theorem C97_conn_bounded : forall cap n tr u f, steps (Flow.step cap) (Conn.init, no_flow) n tr (u, f) ->
  exists m, steps Conn.step Conn.init m (Flow.conn_trace tr) u /\ n <= 2 * m + 1 + List.length (f_buf f) + 2 * List.length (Flow.taken tr).
Proof. intros cap n tr u f H. destruct (flow_steps _ _ _ _ H) as (m & A & B). exists m. split; [exact A|]. cbn [fst snd] in B. destruct (f_lock f); cbn in B; lia. Qed.
Print Assumptions C97_conn_bounded.

(* A reply that goes out in two pieces because there is room for two bytes only. *)
Definition two_pieces : list Flow.event :=
  [FConn (Conn.ECall 1 (OWrite (bs "abc"))); FTake 1; FPut 1 (bs "ab"); FGot (bs "ab"); FPut 1 (bs "c"); FConn (Conn.EOut 1 (bs "abc")); FConn (Conn.ERet 1 (OWrite (bs "abc")) ROk)].
Example C97_ex : exists s, Flow.runs 2 two_pieces s.
Proof.
  assert (NW : forall (u : Conn.state) i p f, (forall b, ~ wants u i b) -> calm u (Conn.set_pc u i p) f).
  { intros u i p f N. split; [|now left]. intros j b' Wj. cbn. apply upd_ne. intros ->. exact (N b' Wj). }
  eexists. unfold Flow.runs, two_pieces.
  eapply exec_cons; [eapply (conn 2 _ _ (Some _)); [now apply Conn.call|apply NW; intros b' [X|(x & X & _)]; discriminate]|].
  eapply exec_cons_tau; [eapply (conn 2 _ _ None); [now apply (wr_chk _ 1 (bs "abc"))|apply NW; intros b' [X|(x & X & _)]; discriminate]|].
  eapply exec_cons_tau; [eapply (conn 2 _ _ None); [now apply (reset_w _ 1 (bs "abc"))|apply NW; intros b' [X|(x & X & _)]; discriminate]|].
  eapply exec_cons; [eapply Flow.move; [reflexivity|apply (take 2 _ _ 1 (bs "abc")); [now left|reflexivity|reflexivity]]|].
  eapply exec_cons; [eapply Flow.move; [reflexivity|eapply (put 2 _ _ 1 (bs "ab")); [reflexivity|reflexivity|discriminate|cbn; lia]]|].
  eapply exec_cons; [eapply Flow.move; [reflexivity|eapply (got 2 _ _ (bs "ab")); [reflexivity|discriminate]]|].
  eapply exec_cons; [eapply Flow.move; [reflexivity|eapply (put 2 _ _ 1 (bs "c")); [reflexivity|reflexivity|discriminate|cbn; lia]]|].
  eapply exec_cons; [eapply end_; [reflexivity|exact (all_put _ (mkF (Some 1) (bs "abc") [] (bs "c") (bs "ab")) 1 eq_refl eq_refl)]|].
  eapply exec_cons; [eapply (conn 2 _ _ (Some _)); [now apply Conn.ret_|apply NW; intros b' [X|(x & X & _)]; discriminate]|]. apply exec_start.
Qed.
Print Assumptions C97_ex.
