(* Building concrete runs of the server, for examples and counterexamples. *)
From Coq Require Import List Arith Bool String.
From Verif Require Import Base Lts Resp Engine Db DataChannel Topic Conn Server.
Import ListNotations.
Local Open Scope nat_scope.
Local Open Scope string_scope.
Local Open Scope list_scope.

Section Steps.
  Context (cl : bool).
  Notation step := (Server.step cl).
  Definition next (r : res (db * option robj)) (d : db) : db := match r with Ret (d', _) => d' | _ => d end.
  Definition says (r : res (db * option robj)) : option (option robj) := match r with Ret (_, o) => Some o | _ => None end.
  Lemma handle_ s c k q e o : s_crash s = false -> s_eng s = EHas c k q -> says (handle e (s_db s) q) = Some o ->
    step s (Some (SHandle c k e q o)) (set_eng (set_db s (next (handle e (s_db s) q) (s_db s))) (match o with Some r => EReply c k r | None => EIdle end)).
  Proof.
    intros C E H. split; [exact C|]. apply eng_handle; [exact E|]. destruct (handle e (s_db s) q) as [[d' o']| |]; try discriminate. cbn in *. congruence.
  Qed.
  Definition rest (r : pres robj) (b : bytes) : bytes := match r with POk _ b' => b' | _ => b end.
  Definition first (r : pres robj) : option robj := match r with POk q _ => Some q | _ => None end.
  Lemma read_ s c k i t q : s_crash s = false -> s_rd s c = RIn k i -> Conn.step (s_conn s c) (Some (Conn.ERet i ORead ROk)) t -> first (parse (s_in s c)) = Some q ->
    step s (Some (SRead c i k q)) (put_rd (put_in (put_conn s c t) c (rest (parse (s_in s c)) [])) c (RPub k q)).
  Proof.
    intros C E St H. split; [exact C|]. eapply read_obj; [exact E|exact St|]. destruct (parse (s_in s c)) as [q' r| | |]; try discriminate. cbn in *. congruence.
  Qed.
  Lemma mv s l s' : s_crash s = false -> move cl s l s' -> step s l s'. Proof. now split. Qed.
  Lemma req_act s x t : s_crash s = false -> free (Some x) -> Topic.step (s_req s) (Some x) t -> step s (Some (SReq x)) (set_req s t).
  Proof. intros C F St. split; [exact C|]. exact (req_free cl s (Some x) t F St). Qed.
  Lemma req_tau s t : s_crash s = false -> Topic.step (s_req s) None t -> step s None (set_req s t).
  Proof. intros C St. split; [exact C|]. exact (req_free cl s None t I St). Qed.
  Lemma rsp_act s x t : s_crash s = false -> free (Some x) -> Topic.step (s_rsp s) (Some x) t -> step s (Some (SRsp x)) (set_rsp s t).
  Proof. intros C F St. split; [exact C|]. exact (rsp_free cl s (Some x) t F St). Qed.
  Lemma rsp_tau s t : s_crash s = false -> Topic.step (s_rsp s) None t -> step s None (set_rsp s t).
  Proof. intros C St. split; [exact C|]. exact (rsp_free cl s None t I St). Qed.
  Lemma conn_act s c x t : s_crash s = false -> s_rd s c <> RNone -> free_conn (Some x) -> Conn.step (s_conn s c) (Some x) t -> step s (Some (SConn c x)) (put_conn s c t).
  Proof. intros C N F St. split; [exact C|]. exact (conn_free cl s c (Some x) t N F St). Qed.
  Lemma conn_tau s c t : s_crash s = false -> s_rd s c <> RNone -> Conn.step (s_conn s c) None t -> step s None (put_conn s c t).
  Proof. intros C N St. split; [exact C|]. exact (conn_free cl s c None t N I St). Qed.
End Steps.
Lemma gcall_ {A} (s : Topic.state A) g c i e d : g_pc (t_g s g) = GSend -> p_event (t_pub s (g_pub (t_g s g))) = Some e -> g_chan (t_g s g) = c -> sid g = i ->
  DataChannel.step (t_ch s c) (Some (DataChannel.ECall i (OSend e))) d -> Topic.step s (Some (TChan c (DataChannel.ECall i (OSend e)))) (put_g (put_ch s c d) g GWait).
Proof. intros H1 H2 <- <-. now apply g_call. Qed.
Lemma gret_ {A} (s : Topic.state A) g c i e r d : g_pc (t_g s g) = GWait -> g_chan (t_g s g) = c -> sid g = i ->
  DataChannel.step (t_ch s c) (Some (DataChannel.ERet i (OSend e) r)) d -> Topic.step s (Some (TChan c (DataChannel.ERet i (OSend e) r))) (put_g (put_ch s c d) g (after r)).
Proof. intros H1 <- <-. now apply g_ret. Qed.
Lemma result_ {A} (s : Topic.state A) p k : p_phase (t_pub s p) = DResult -> p_count (t_pub s p) = k -> Topic.step s (Some (TResult p k)) (put_pub s p (set_phase (t_pub s p) DClose)).
Proof. intros H <-. now apply result. Qed.
Lemma chan_ {A} (s : Topic.state A) c a d : c < t_next s -> theirs (Some a) -> DataChannel.step (t_ch s c) (Some a) d -> Topic.step s (Some (TChan c a)) (put_ch s c d).
Proof. intros. now apply (chan s c (Some a)). Qed.
Lemma chan_tau_ {A} (s : Topic.state A) c d : c < t_next s -> DataChannel.step (t_ch s c) None d -> Topic.step s None (put_ch s c d).
Proof. intros. now apply (chan s c None). Qed.

Arguments upd {A} f i x j / .
Ltac simp := repeat progress (cbv beta iota zeta delta [set_req set_rsp put_conn put_in put_rd set_db set_eng set_wrk set_stop crash s_req s_rsp s_conn s_in s_rd s_db s_eng s_wrk s_reqs s_rsps s_stop s_crash init subscribed
  set_phase set_count set_wg set_keys set_remove put_pub put_g put_ch t_subs t_next t_ch t_pub t_g g_pc g_pub g_name g_chan after
  p_phase p_event p_seen p_must p_visited p_wg p_count p_keys p_got p_remove no_pub
  DataChannel.set_pc d_cap d_buf d_flag d_closed d_pc d_crash DataChannel.init
  Conn.set_pc Conn.start won lost c_flag c_tcp c_chan c_pc c_crash Conn.init];
  cbn [upd Nat.eqb map fst snd sid Nat.mul Nat.add app List.length pred drop filter negb String.eqb Ascii.eqb Bool.eqb]).
Ltac side := solve [reflexivity | discriminate | cbn; auto 6 with arith | split; [reflexivity|auto] | vm_compute; reflexivity | let H := fresh in intros H; cbn in H; intuition discriminate].
(* One step: on a label, or silent. *)
Tactic Notation "say" tactic(t) := eapply exec_cons; [t|simp].
Tactic Notation "hush" tactic(t) := eapply exec_cons_tau; [t|simp].
Tactic Notation "srv" uconstr(C) := say (apply mv; [side|eapply C; simp; side]).
Tactic Notation "srv" uconstr(C) "with" tactic(t) := say (apply mv; [side|eapply C; simp; first [side|t]]).
Tactic Notation "con" constr(c) uconstr(K) := say (eapply (conn_act _ _ c); [side|side|side|simp; eapply K; simp; side]).
Tactic Notation "cont" constr(c) uconstr(K) := hush (eapply (conn_tau _ _ c); [side|side|simp; eapply K; simp; side]).
Tactic Notation "rq" uconstr(K) := say (eapply req_act; [side|side|simp; eapply K; simp; side]).
Tactic Notation "rqt" uconstr(K) := hush (eapply req_tau; [side|simp; eapply K; simp; side]).
Tactic Notation "rqc" uconstr(K) := say (eapply req_act; [side|side|simp; eapply chan_; [simp; side|side|simp; eapply K; simp; side]]).
Tactic Notation "rqct" uconstr(K) := hush (eapply req_tau; [side|simp; eapply (chan_tau_ _ 0); [simp; side|simp; eapply K; simp; side]]).
Tactic Notation "rqsend" constr(g) := say (eapply req_act; [side|side|simp; eapply (gcall_ _ g); [simp; side|simp; side|simp; side|reflexivity|simp; eapply c_send; simp; side]]).
Tactic Notation "rqsent" constr(g) := say (eapply req_act; [side|side|simp; eapply (gret_ _ g); [simp; side|simp; side|reflexivity|simp; eapply c_ret; simp; side]]).
Tactic Notation "rs" uconstr(K) := say (eapply rsp_act; [side|side|simp; eapply K; simp; side]).
Tactic Notation "rst" uconstr(K) := hush (eapply rsp_tau; [side|simp; eapply K; simp; side]).
Tactic Notation "rsc" uconstr(K) := say (eapply rsp_act; [side|side|simp; eapply chan_; [simp; side|side|simp; eapply K; simp; side]]).
Tactic Notation "rsct" uconstr(K) := hush (eapply rsp_tau; [side|simp; eapply (chan_tau_ _ 0); [simp; side|simp; eapply K; simp; side]]).
Tactic Notation "rssend" constr(g) := say (eapply rsp_act; [side|side|simp; eapply (gcall_ _ g); [simp; side|simp; side|simp; side|reflexivity|simp; eapply c_send; simp; side]]).
Tactic Notation "rssent" constr(g) := say (eapply rsp_act; [side|side|simp; eapply (gret_ _ g); [simp; side|simp; side|reflexivity|simp; eapply c_ret; simp; side]]).
(* A Receive, called and answered, from the server's side. *)
Ltac recv_call := eapply chan_; [simp; side|side|simp; eapply c_recv; simp; side].
Ltac recv_ret := eapply chan_; [simp; side|side|simp; eapply c_ret; simp; side].
