(* Over clients that take at once what comes, the server of FlowServer.v can do all that the one of
   Server.v can. *)
From Coq Require Import List Arith Bool Ascii Lia.
From Verif Require Import Base Lts Conn ConnProofs ServerSpec Server ServerProofs RestSpec Flow FlowProofs FlowServer FlowServerProofs.
Import ListNotations.

(* An output of no bytes cannot be seen. *)
Definition loud (e : Server.event) : bool := match e with SConn _ (EOut _ []) => false | _ => true end.
Definition at_ease (f : nat -> flow) : Prop := forall c, f_lock (f c) = None /\ f_buf (f c) = [].
Lemma write_ends u l u' i b : Conn.step u l u' -> wants u i b -> c_pc u' i <> c_pc u i ->
  (exists p ok, l = Some (EOut i p) /\ u' = finish ok u i /\ prefix_of p b /\ (ok = true -> p = b) /\ (c_pc u i = PWriting b -> c_tcp u = true)) \/ (l = None /\ u' = finish false u i /\ c_pc u i = PWriting b).
Proof.
  intros St W N. assert (K : forall k p, (forall b', ~ wants u k b') -> upd (c_pc u) k p i = c_pc u i) by (intros k p Z; apply upd_ne; intros ->; exact (Z b W)).
  inversion St; subst; cbn [c_pc set_pc] in N; try (exfalso; apply N, K; intros b' [X|(y & X & _)]; congruence).
  - exfalso. apply N. rewrite !upd_ne; [reflexivity| |]; intros ->; destruct W as [X|(y & X & _)]; congruence.
  - destruct (Nat.eq_dec i i0) as [<-|D]; [|rewrite upd_ne in N by exact D; contradiction]. left. exists b0, true. unfold finish. rewrite H0. assert (b0 = b) as -> by (destruct W as [X|(y & X & _)]; congruence).
    repeat split; auto. exists []. now rewrite app_nil_r.
  - destruct (Nat.eq_dec i i0) as [<-|D]; [|rewrite upd_ne in N by exact D; contradiction]. left. exists p, false. unfold finish. rewrite H0. assert (b0 = b) as -> by (destruct W as [X|(y & X & _)]; congruence).
    repeat split; auto. discriminate.
  - destruct (Nat.eq_dec i i0) as [<-|D]; [|rewrite upd_ne in N by exact D; contradiction]. right. unfold finish. rewrite H0. assert (b0 = b) as -> by (destruct W as [X|(y & X & _)]; congruence). auto.
  - destruct (Nat.eq_dec i i0) as [<-|D]; [|rewrite upd_ne in N by exact D; contradiction]. left. exists p, false. unfold finish. rewrite H0. assert (b = close_message) as -> by (destruct W as [X|(y & _ & X)]; congruence).
    repeat split; auto; [discriminate|congruence].
  - exfalso. apply N. reflexivity.
Qed.
Lemma puts cl cap s c i : 0 < cap -> s_crash s = false -> s_rd s c <> RNone -> forall p q f, f_lock (f c) = Some i -> f_left (f c) = p ++ q -> f_buf (f c) = [] -> (forall c', c' <> c -> f_lock (f c') = None /\ f_buf (f c') = []) ->
  exists tr f', exec (FlowServer.step cl cap) (s, f) tr (s, f') /\ server_trace tr = [] /\ f_lock (f' c) = Some i /\ f_sent (f' c) = f_sent (f c) ++ p /\ f_left (f' c) = q /\ f_buf (f' c) = [] /\ forall c', c' <> c -> f_lock (f' c') = None /\ f_buf (f' c') = [].
Proof.
  intros P C RD. induction p as [|z p IH]; intros q f E L B O.
  - exists [], f. split; [apply exec_start|]. rewrite app_nil_r. auto 10.
  - set (w1 := mkF (Some i) (f_sent (f c) ++ [z]) (p ++ q) ([] ++ [z]) (f_got (f c))). set (w2 := mkF (Some i) (f_sent (f c) ++ [z]) (p ++ q) [] (f_got (f c) ++ [z])).
    assert (S1 : FlowServer.step cl cap (s, f) (Some (VFlow c (FPut i [z]))) (s, upd f c w1)).
    { apply net_move; [exact C|exact RD|]. replace w1 with (mkF (Some i) (f_sent (f c) ++ [z]) (p ++ q) (f_buf (f c) ++ [z]) (f_got (f c))) by (unfold w1; now rewrite B). apply (put cap _ _ i [z] (p ++ q) E L); [discriminate|rewrite B; cbn; lia]. }
    assert (S2 : FlowServer.step cl cap (s, upd f c w1) (Some (VFlow c (FGot [z]))) (s, upd (upd f c w1) c w2)).
    { apply net_move; [exact C|exact RD|]. rewrite upd_eq. apply (got cap _ w1 [z] []); [reflexivity|discriminate]. }
    destruct (IH q (upd (upd f c w1) c w2)) as (tr & f' & Ex & T & A1 & A2 & A3 & A4 & A5); [now rewrite upd_eq|now rewrite upd_eq|now rewrite upd_eq|intros c' D; rewrite !upd_ne by exact D; exact (O c' D)|].
    exists (VFlow c (FPut i [z]) :: VFlow c (FGot [z]) :: tr), f'. split; [eapply exec_cons; [exact S1|]; eapply exec_cons; [exact S2|exact Ex]|]. split; [exact T|]. split; [exact A1|].
    rewrite upd_eq in A2. cbn [f_sent w2] in A2. rewrite <- app_assoc in A2. auto 10.
Qed.
Lemma sim_write cl cap s f c i b p ok : 0 < cap -> s_crash s = false -> s_rd s c <> RNone -> at_ease f -> wants (s_conn s c) i b -> c_tcp (s_conn s c) = true -> prefix_of p b -> (ok = true -> p = b) ->
  exists tr f', exec (FlowServer.step cl cap) (s, f) tr (put_conn s c (finish ok (s_conn s c) i), f') /\ at_ease f' /\ server_trace tr = [SConn c (EOut i p)].
Proof.
  intros P C RD Z W T [q Hb] Hok. set (w0 := mkF (Some i) [] b (f_buf (f c)) (f_got (f c))).
  assert (S0 : FlowServer.step cl cap (s, f) (Some (VFlow c (FTake i))) (s, upd f c w0)) by (apply net_move; [exact C|exact RD|]; apply take; [exact W|exact T|apply Z]).
  destruct (puts cl cap s c i P C RD p q (upd f c w0)) as (tr & f' & Ex & Tr & A1 & A2 & A3 & A4 & A5); [now rewrite upd_eq|now rewrite upd_eq|rewrite upd_eq; apply Z|intros c' D; rewrite !upd_ne by exact D; apply Z|].
  rewrite upd_eq in A2. cbn [f_sent w0 app] in A2. set (w := mkF None [] [] (f_buf (f' c)) (f_got (f' c))).
  assert (En : ends (s_conn s c) (f' c) (Some (if ok then FConn (EOut i p) else FBreak i p)) (finish ok (s_conn s c) i) w).
  { rewrite <- A2. destruct ok; [apply all_put; [exact A1|]; rewrite A3|now apply broken]. rewrite (Hok eq_refl) in Hb. rewrite <- (app_nil_r b) in Hb at 1. now apply app_inv_head in Hb. }
  exists ((VFlow c (FTake i) :: tr) ++ [VFlow c (if ok then FConn (EOut i p) else FBreak i p)]), (upd f' c w). split; [|split].
  - eapply exec_act; [eapply exec_cons; [exact S0|exact Ex]|]. exact (net_end cl cap s f' c _ _ _ C RD En).
  - intros c'. dupd c c'; [split; [reflexivity|exact A4]|now apply A5].
  - rewrite server_snoc. unfold server_trace in *. cbn [flat_map on_server Flow.on_conn map app]. rewrite Tr. now destruct ok.
Qed.
Lemma conn_of_srv cl d input tr s c : Server.runs cl d input tr s -> Conn.runs (Server.conn_trace c tr) (s_conn s c).
Proof. intros R. exact (proj2 (proj2 (runs_parts _ _ _ _ _ R)) c). Qed.
Lemma sim_step cl cap d input tr0 s f l s' : 0 < cap -> Server.runs cl d input tr0 s -> at_ease f -> Server.step cl s l s' ->
  exists tr f', exec (FlowServer.step cl cap) (s, f) tr (s', f') /\ at_ease f' /\ filter loud (server_trace tr) = filter loud (match l with Some a => [a] | None => [] end).
Proof.
  intros P R Z St. pose proof St as [C M].
  assert (G : (forall c, calm (s_conn s c) (s_conn s' c) (f c)) -> exists tr f', exec (FlowServer.step cl cap) (s, f) tr (s', f') /\ at_ease f' /\ filter loud (server_trace tr) = filter loud (match l with Some a => [a] | None => [] end)).
  { intros K. pose proof (srv cl cap s f l s' St K) as S1. destruct l as [a|]; [exists [VServer a], f; split; [now apply exec_one|split; [exact Z|reflexivity]]|exists [], f; split; [now apply exec_one_tau|split; [exact Z|reflexivity]]]. }
  destruct (srv_calm _ _ _ _ M) as [K|(c & l' & t & RD & Sc & -> & ->)]; [exact (G (K f))|].
  destruct (conn_cases _ _ _ Sc) as [(W & T & _)|[(i & b & W & N)|(W & _)]].
  - apply G. intros c'. cbn [s_conn put_conn]. dupd c c'; [split; [exact W|now left]|apply calm_same].
  - destruct (write_ends _ _ _ _ _ Sc W N) as [(p & ok & -> & -> & Hp & Hok & T)|(-> & -> & Pw)].
    + destruct (sim_write cl cap s f c i b p ok P C RD Z W) as (tr & f' & Ex & Z' & Tr); [|exact Hp|exact Hok|].
      { destruct W as [W|(x & W & _)]; [exact (T W)|exact (msg_open _ _ _ _ (conn_of_srv _ _ _ _ _ c R) W)]. }
      exists tr, f'. split; [exact Ex|]. split; [exact Z'|]. now rewrite Tr.
    + destruct (c_tcp (s_conn s c)) eqn:T.
      * destruct (sim_write cl cap s f c i b [] false P C RD Z W T) as (tr & f' & Ex & Z' & Tr); [exists b; reflexivity|discriminate|]. exists tr, f'. split; [exact Ex|]. split; [exact Z'|]. now rewrite Tr.
      * exists [], (upd f c (f c)). split; [apply exec_one_tau; exact (net_end cl cap s f c None _ _ C RD (too_late _ _ i b Pw T))|]. split; [|reflexivity]. intros c'. dupd c c'; apply Z.
  - apply G. intros c'. cbn [s_conn put_conn]. dupd c c'; [split; [exact W|right; apply Z]|apply calm_same].
Qed.
Lemma server_app x y : server_trace (x ++ y) = server_trace x ++ server_trace y.
Proof. apply flat_map_app. Qed.
Theorem all_runs cl cap d input tr0 s : 0 < cap -> Server.runs cl d input tr0 s ->
  exists tr f, runs cl cap d input tr (s, f) /\ at_ease f /\ filter loud (server_trace tr) = filter loud tr0.
Proof.
  intros P R. induction R as [|tr s1 s2 R IH St|tr s1 a s2 R IH St].
  - exists [], (fun _ => no_flow). split; [constructor|]. split; [intros c; split; reflexivity|reflexivity].
  - destruct IH as (t & f & A & Z & E). destruct (sim_step _ _ _ _ _ _ _ _ _ P R Z St) as (t' & f' & A' & Z' & E'). exists (t ++ t'), f'. split; [eapply exec_app; eassumption|]. split; [exact Z'|].
    rewrite server_app, filter_app, E, E'. cbn. now rewrite app_nil_r.
  - destruct IH as (t & f & A & Z & E). destruct (sim_step _ _ _ _ _ _ _ _ _ P R Z St) as (t' & f' & A' & Z' & E'). exists (t ++ t'), f'. split; [eapply exec_app; eassumption|]. split; [exact Z'|].
    now rewrite server_app, !filter_app, E, E'.
Qed.
Lemma inside s c i p l : c_pc (s_conn s c) i <> PReading -> match l with Some (SConn _ (EOut _ _)) | None => True | _ => False end -> ~ outside s l (put_conn s c (Conn.set_pc (s_conn s c) i p)).
Proof.
  intros N L [[x ->]|[(c' & j & A & B)|[[-> _]|[[x ->]|[(j & e & A & B)|[(j & e & A & B)|[A B]]]]]]]; try contradiction; try (cbn in *; congruence).
  apply B. cbn [s_conn put_conn]. dupd c c'; [|exact A]. cbn [c_pc Conn.set_pc]. dupd i j; [contradiction|exact A].
Qed.
(* A server at rest over clients that have taken everything is at rest. *)
Theorem rests_too cl cap d input tr s f : Server.runs cl d input tr s -> RestSpec.rests cl s -> at_ease f -> rests cl cap (s, f).
Proof.
  intros R Q Z l y [St O]. inversion St as [? ? l0 s' SS CM|? ? c a w CR RD WS|? ? c l0 u w CR RD WS]; subst.
  - apply (Q l0 s'). split; [exact SS|]. destruct l0; exact O.
  - destruct (Z c) as [E B]. inversion WS; subst; [|congruence|exact (O I)].
    destruct (i_alive _ _ (runs_inv _ _ (conn_of_srv _ _ _ _ _ c R))) as [Cc _].
    destruct H as [W|(x & W & ->)].
    + apply (Q None (put_conn s c (Conn.set_pc (s_conn s c) i (Conn.PRet (OWrite b) Conn.RErr)))). split; [split; [exact CR|exact (conn_free cl s c None _ RD I (wr_fail _ _ _ Cc W))]|].
      apply inside; [congruence|exact I].
    + eapply (Q (Some (SConn c (EOut i [])))). split; [split; [exact CR|]|].
      * apply (conn_free cl s c (Some (EOut i []))); [exact RD|exact I|]. apply (x_msg _ i x []); [exact Cc|exact W|exists close_message; reflexivity].
      * apply inside; [congruence|exact I].
  - destruct (Z c) as [E B]. inversion WS; subst; try congruence.
    apply (Q None (put_conn s c (Conn.set_pc (s_conn s c) i (Conn.PRet (OWrite b) Conn.RErr)))). split; [split; [exact CR|apply (conn_free cl s c None); [exact RD|exact I|apply wr_fail; [exact (proj1 (i_alive _ _ (runs_inv _ _ (conn_of_srv _ _ _ _ _ c R))))|assumption]]]|apply inside; [congruence|exact I]].
Qed.
