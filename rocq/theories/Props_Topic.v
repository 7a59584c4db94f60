(* C41, C42: topics and the event bus, over every schedule. *)
From Coq Require Import List Arith Bool String.
From Verif Require Import Lts Counted DataChannel Topic TopicProofs RWLock RWLockProofs RWLockRest EventBus EventBusSpec EventBusProofs.
From stdpp Require Import gmap strings.
Import ListNotations.
Local Open Scope string_scope.
Local Open Scope list_scope.

(* C41: each subscriber's channel accepts at most one copy of a publication, ... *)
Theorem C41_at_most_one_copy : forall (A : Type) tr (s : Topic.state A) p c,
  Topic.runs tr s -> (List.length (copies p c tr) <= 1)%nat.
Proof. exact (fun A tr s p c => one_copy tr s p c). Qed.
Print Assumptions C41_at_most_one_copy.
(* ... the result is the number of channels that accepted one, ... *)
Theorem C41_result_counts : forall (A : Type) pre p k post (s : Topic.state A),
  Topic.runs (pre ++ TResult p k :: post) s ->
  exists cs, List.NoDup cs /\ List.length cs = k /\ forall c, In c cs <-> copies p c pre <> [].
Proof. exact (fun A pre p k post s => result_counts pre p k post s). Qed.
Print Assumptions C41_result_counts.
(* ... a channel accepts only published events, each for the publication that visited it, ... *)
Theorem C41_only_published : forall (A : Type) tr (s : Topic.state A) c i e,
  Topic.runs tr s -> In (i, e) (puts (chan_trace c tr)) ->
  exists p g n, i = sid g /\ In (TVisit p g n c) tr /\ In (TPublish p e) tr.
Proof. exact (fun A tr s c i e => put_visit tr s c i e). Qed.
Print Assumptions C41_only_published.
(* ... and whoever was subscribed before, and is not removed, has been offered the event, with
   the answer in, when the result is given. *)
Theorem C41_offered : forall (A : Type) pre p k post (s : Topic.state A) n c cap e,
  Topic.runs (pre ++ TResult p k :: post) s -> before pre (TSubscribe n c cap) (TPublish p e) -> (forall q, ~ In (TDelete q n) pre) ->
  exists g c' cap' r, In (TVisit p g n c') pre /\ In (TSubscribe n c' cap') pre /\ In (TChan c' (DataChannel.ERet (sid g) (OSend e) r)) pre.
Proof. exact (fun A pre p k post s n c cap e => offered pre p k post s n c cap e). Qed.
Print Assumptions C41_offered.
Theorem C41_no_crash : forall (A : Type) tr (s : Topic.state A), Topic.runs tr s -> ~ In TPanic tr.
Proof. exact (fun A tr s => no_panic tr s). Qed.
Print Assumptions C41_no_crash.
(* The bus, under any concurrency: each call finds the topic, or answers no such topic, as the
   NewTopic and RemoveTopic calls before it say; each call takes effect once, between call and
   return; calls never clash. *)
Theorem C41_missing_topic : forall tr s, bus_runs ∅ tr s -> bus_all_right (accesses tr).
Proof. exact bus_answers. Qed.
Print Assumptions C41_missing_topic.
Theorem C41_bus_returns : forall tr s i o r, bus_runs ∅ tr s -> In (RWLock.ERet i o r) tr ->
  List.filter (about i) tr = [RWLock.ECall i o; EDo i o r; RWLock.ERet i o r].
Proof. exact (fun tr s i o r => returned _ _ _ modifiers_lock _ tr s i o r). Qed.
Print Assumptions C41_bus_returns.
Theorem C41_bus_safe : forall tr s, bus_runs ∅ tr s -> ~ In ECrash tr.
Proof. exact (fun tr s => no_crash _ _ _ modifiers_lock _ tr s). Qed.
Print Assumptions C41_bus_safe.
(* Every call of the bus ends, after at most seven steps each (what a Publish does under the lock counted as one). *)
Theorem C41_bus_rest : forall tr s i o, bus_runs ∅ tr s -> at_rest (RWLock.step EventBus.writes EventBus.mutates EventBus.perform) is_call s ->
  In (RWLock.ECall i o) tr -> exists r, In (RWLock.ERet i o r) tr.
Proof. exact (fun tr s i o => rest _ _ _ modifiers_lock _ tr s i o). Qed.
Print Assumptions C41_bus_rest.
Theorem C41_bus_bound : forall n tr s, steps (RWLock.step EventBus.writes EventBus.mutates EventBus.perform) (RWLock.init ∅) n tr s -> n <= 7 * List.length (called tr).
Proof. exact (fun n tr s => bound _ _ _ modifiers_lock _ n tr s). Qed.
Print Assumptions C41_bus_bound.
(* Whoever has not called the bus can, from every state all calls can return, and Publish, Subscribe and
   ExistTopic do not wait for each other. *)
Theorem C41_bus_accepts : forall tr s i o, bus_runs ∅ tr s -> ~ In i (called tr) -> exists s', RWLock.step EventBus.writes EventBus.mutates EventBus.perform s (Some (RWLock.ECall i o)) s'.
Proof. exact (fun tr s i o => accepts _ _ _ modifiers_lock _ tr s i o). Qed.
Print Assumptions C41_bus_accepts.
Theorem C41_bus_finish : forall tr s, bus_runs ∅ tr s -> exists tr' s', exec (RWLock.step EventBus.writes EventBus.mutates EventBus.perform) s tr' s' /\
  List.Forall (fun a => ~ is_call a) tr' /\ forall i o, In (RWLock.ECall i o) tr -> exists r, In (RWLock.ERet i o r) (tr ++ tr').
Proof. exact (fun tr s => finish _ _ _ modifiers_lock _ tr s). Qed.
Print Assumptions C41_bus_finish.
Theorem C41_bus_overlap : forall l, List.NoDup (map fst l) -> (forall i o, In (i, o) l -> match o with BPublish _ | BSubscribe _ | BExist _ => True | _ => False end) ->
  exists tr s, bus_runs ∅ tr s /\ forall i o, In (i, o) l -> w_pc s i = RWLock.PBusy o.
Proof. intros l ND H. apply overlap; [exact ND|]. intros i o Hi. apply H in Hi. destruct o; cbn in *; tauto. Qed.
Print Assumptions C41_bus_overlap.
Example C41_bus_finish_ex : List.NoDup (map fst [(0, BPublish "t"); (1, BExist "t")]) /\ exists s, bus_runs ∅ [RWLock.ECall 0 (BNew "t"); RWLock.ECall 1 (BNew "t")] s.
Proof.
  split; [repeat constructor; cbn; intuition discriminate|]. eexists. eapply exec_cons; [apply RWLock.call; reflexivity|]. eapply exec_cons; [apply RWLock.call; reflexivity|]. apply exec_start.
Qed.

Tactic Notation "tau" uconstr(c) := eapply exec_cons_tau; [eapply c; try reflexivity; try discriminate; auto | ].
Tactic Notation "act" uconstr(c) := eapply exec_cons; [eapply c; try reflexivity; try discriminate; auto | ].
Lemma g_call_eq {A} (s : Topic.state A) g c i e d : g_pc (t_g s g) = GSend -> p_event (t_pub s (g_pub (t_g s g))) = Some e -> g_chan (t_g s g) = c -> sid g = i ->
  DataChannel.step (t_ch s c) (Some (DataChannel.ECall i (OSend e))) d -> Topic.step s (Some (TChan c (DataChannel.ECall i (OSend e)))) (put_g (put_ch s c d) g GWait).
Proof. intros H1 H2 <- <-. now apply g_call. Qed.
Lemma g_ret_eq {A} (s : Topic.state A) g c i e r d : g_pc (t_g s g) = GWait -> g_chan (t_g s g) = c -> sid g = i ->
  DataChannel.step (t_ch s c) (Some (DataChannel.ERet i (OSend e) r)) d -> Topic.step s (Some (TChan c (DataChannel.ERet i (OSend e) r))) (put_g (put_ch s c d) g (after r)).
Proof. intros H1 <- <-. now apply g_ret. Qed.
(* For concrete runs: what a state holds at the indices in use. *)
Definition holds {A} (s : Topic.state A) subs next c0 c1 p0 p1 g0 g1 : Prop :=
  t_subs s = subs /\ t_next s = next /\ t_ch s 0 = c0 /\ t_ch s 1 = c1 /\ t_pub s 0 = p0 /\ t_pub s 1 = p1 /\ t_g s 0 = g0 /\ t_g s 1 = g1.
Lemma subscribe_eq {A} (s : Topic.state A) name c cap : t_next s = c -> Topic.step s (Some (TSubscribe name c cap))
  (mkT ((name, c) :: without name (t_subs s)) (S c) (upd (t_ch s) c (DataChannel.init cap)) (fun p => note_store name c (t_pub s p)) (t_g s)).
Proof. intros <-. apply subscribe. Qed.
Lemma result_eq {A} (s : Topic.state A) p k : p_phase (t_pub s p) = DResult -> p_count (t_pub s p) = k -> Topic.step s (Some (TResult p k)) (put_pub s p (set_phase (t_pub s p) DClose)).
Proof. intros H <-. now apply result. Qed.
Lemma chan_eq {A} (s : Topic.state A) c a d : c < t_next s -> theirs (Some a) -> DataChannel.step (t_ch s c) (Some a) d -> Topic.step s (Some (TChan c a)) (put_ch s c d).
Proof. intros. now apply (chan s c (Some a)). Qed.
Lemma chan_tau {A} (s : Topic.state A) c d : c < t_next s -> DataChannel.step (t_ch s c) None d -> Topic.step s None (put_ch s c d).
Proof. intros. now apply (chan s c None). Qed.
Ltac norm := repeat (progress (cbn; repeat match goal with E : _ = _ |- _ => rewrite E end)).
Ltac side := first [reflexivity | discriminate | cbn; solve [auto 6 with arith] | split; [reflexivity|auto] | let H := fresh in intros H; cbn in H; solve [intuition discriminate]].
Ltac leave X := match type of X with Topic.step _ _ ?s1 =>
  let V' := fresh "V" in let s2 := fresh "s" in let Es := fresh "Es" in
  eassert (V' : holds s1 _ _ _ _ _ _ _ _) by (unfold holds; repeat match goal with |- _ /\ _ => split end; norm; reflexivity);
  clear - V'; revert V'; generalize s1; intros s2 V'; destruct V' as (? & ? & ? & ? & ? & ? & ? & ?) end.
Ltac on_label tac := match goal with |- exists s', exec _ ?s (?a :: ?tr) s' =>
  let X := fresh "X" in eassert (X : Topic.step s (Some a) _) by tac;
  match type of X with Topic.step _ _ ?s1 => let Z := fresh "Z" in cut (exists s', exec (@Topic.step nat) s1 tr s'); [intros [z Z]; exists z; eapply exec_cons; [exact X|exact Z]|] end; leave X end.
Ltac on_tau tac := match goal with |- exists s', exec _ ?s ?tr s' =>
  let X := fresh "X" in eassert (X : Topic.step s None _) by tac;
  match type of X with Topic.step _ _ ?s1 => let Z := fresh "Z" in cut (exists s', exec (@Topic.step nat) s1 tr s'); [intros [z Z]; exists z; eapply exec_cons_tau; [exact X|exact Z]|] end; leave X end.
Tactic Notation "does" uconstr(C) := on_label ltac:(eapply C; norm; side).
Tactic Notation "tacit" uconstr(C) := on_tau ltac:(eapply C; norm; side).
Tactic Notation "ch" uconstr(K) := on_label ltac:(eapply chan_eq; [norm; side|side|norm; eapply K; norm; side]).
Tactic Notation "chtau" constr(c) uconstr(K) := on_tau ltac:(eapply (chan_tau _ c); [norm; side|norm; eapply K; norm; side]).
Tactic Notation "gcall" constr(g) := on_label ltac:(eapply (g_call_eq _ g); [norm; side|norm; side|norm; side|reflexivity|norm; eapply c_send; norm; side]).
Tactic Notation "gret" constr(g) := on_label ltac:(eapply (g_ret_eq _ g); [norm; side|norm; side|reflexivity|norm; eapply c_ret; norm; side]).
Ltac start := match goal with |- exists s', Topic.runs ?tr s' => 
  let V := fresh "V" in let s0 := fresh "s" in
  eassert (V : holds (@Topic.init nat) _ _ _ _ _ _ _ _) by (unfold holds; repeat match goal with |- _ /\ _ => split end; cbn; reflexivity);
  unfold Topic.runs; revert V; generalize (@Topic.init nat); intros s0 V; destruct V as (? & ? & ? & ? & ? & ? & ? & ?) end.
Ltac stop := eexists; apply exec_start.

(* Two subscribers: one takes the event into its buffer, the other's send expires: result 1. *)
Example C41_ex : exists s, Topic.runs (A:=nat)
  [TSubscribe "a" 0 5; TSubscribe "b" 1 0; TPublish 0 7; TVisit 0 0 "b" 1; TVisit 0 1 "a" 0;
   TChan 0 (DataChannel.ECall 2 (OSend 7)); TChan 1 (DataChannel.ECall 0 (OSend 7)); TChan 0 (EPut 2 7);
   TChan 0 (DataChannel.ERet 2 (OSend 7) RSuccess); TChan 1 (DataChannel.ERet 0 (OSend 7) RExpired); TResult 0 1] s.
Proof.
  start. does (subscribe_eq _ "a"). does (subscribe_eq _ "b"). does publish. tacit (range _ 0). does (visit _ 0 0 "b" 1). does (visit _ 0 1 "a" 0). gcall 1. gcall 0. ch (s_put _ 2).
  gret 1. chtau 1 (s_expired _ 0). gret 0. tacit (g_add _ 1). tacit (g_done _ 0). tacit (g_done _ 1). tacit (range_end _ 0). tacit (wait_over _ 0). does (result_eq _ 0). stop.
Qed.
Example C41_bus_ex : exists s, bus_runs ∅
  [RWLock.ECall 0 (BPublish "t"); EDo 0 (BPublish "t") RNoSuchTopic; RWLock.ECall 1 (BNew "t"); RWLock.ERet 0 (BPublish "t") RNoSuchTopic;
   EDo 1 (BNew "t") (RBool true); RWLock.ECall 2 (BPublish "t"); RWLock.ERet 1 (BNew "t") (RBool true); EDo 2 (BPublish "t") RTopic] s.
Proof.
  eexists. unfold bus_runs, RWLock.runs. act (RWLock.call _ _ _ _ 0). tau (RWLock.rlock _ _ _ _ 0). tau (RWLock.begin _ _ _ _ 0). act (end_eq _ _ _ _ 0).
  act (RWLock.call _ _ _ _ 1). tau (RWLock.runlock _ _ _ _ 0). act (RWLock.ret _ _ _ _ 0). tau (RWLock.pend _ _ _ _ 1). tau (RWLock.lock _ _ _ _ 1). tau (RWLock.begin _ _ _ _ 1). act (end_eq _ _ _ _ 1).
  act (RWLock.call _ _ _ _ 2). tau (RWLock.unlock _ _ _ _ 1). act (RWLock.ret _ _ _ _ 1). tau (RWLock.rlock _ _ _ _ 2). tau (RWLock.begin _ _ _ _ 2). act (end_eq _ _ _ _ 2). apply exec_start.
Qed.

(* C42 is false: the second subscription of a (channel 1) is never closed, yet the cleanup for
   the first one removes it, and the next publication reaches nobody. *)
Definition lost : list (Topic.event nat) :=
  [TSubscribe "a" 0 0; TChan 0 (DataChannel.ECall 1 OClose); TChan 0 (DataChannel.ERet 1 OClose RUnit);
   TPublish 0 7; TVisit 0 0 "a" 0; TChan 0 (DataChannel.ECall 0 (OSend 7)); TChan 0 (DataChannel.ERet 0 (OSend 7) RClosed); TResult 0 0;
   TSubscribe "a" 1 0; TDelete 0 "a"; TPublish 1 8; TResult 1 0].
Theorem C42_live_subscription_refuted : exists s, Topic.runs lost s /\
  before lost (TSubscribe "a" 1 0) (TPublish 1 8) /\ (forall j, ~ In (TChan 1 (DataChannel.ECall j OClose)) lost) /\
  In (TResult 1 0) lost /\ (forall g n c, ~ In (TVisit 1 g n c) lost).
Proof.
  assert (R : exists s, Topic.runs lost s).
  { unfold lost. start. does subscribe_eq. ch c_close. chtau 0 (x_first _ 1). chtau 0 (x_close _ 1). ch c_ret.
    does publish. tacit (range _ 0). does (visit _ 0 0 "a" 0). tacit (range_end _ 0). gcall 0. chtau 0 (s_closed _ 0). gret 0.
    tacit (g_report _ 0). tacit (g_done _ 0). tacit (collect _ 0). tacit (wait_over _ 0). does (result_eq _ 0). tacit (close_ch _ 0). tacit (spawn _ 0).
    does subscribe_eq. does (Topic.remove _ 0). does publish. tacit (range _ 1). tacit (range_end _ 1). tacit (wait_over _ 1). does (result_eq _ 1). stop. }
  destruct R as [s R]. exists s. split; [exact R|]. split; [|split; [|split]].
  - exists (firstn 8 lost), [TDelete 0 "a"], [TResult 1 0]. reflexivity.
  - intros j H. cbn in H. repeat destruct H as [H|H]; try discriminate; contradiction.
  - cbn. auto 20.
  - intros g n c H. cbn in H. repeat destruct H as [H|H]; try discriminate; contradiction.
Qed.
Print Assumptions C42_live_subscription_refuted.
(* What holds: a name is only removed if some channel subscribed under it was closed, ... *)
Theorem C42_removed_was_closed_partial : forall (A : Type) tr (s : Topic.state A) p n, Topic.runs tr s -> In (TDelete p n) tr ->
  exists c cap j, In (TSubscribe n c cap) tr /\ In (TChan c (DataChannel.ECall j OClose)) tr.
Proof. exact (fun A tr s p n => deleted_closed tr s p n). Qed.
Print Assumptions C42_removed_was_closed_partial.
(* ... so a subscriber whose name never had a closed channel is offered every later event. *)
Theorem C42_never_closed_stays_partial : forall (A : Type) pre p k post (s : Topic.state A) n c cap e,
  Topic.runs (pre ++ TResult p k :: post) s -> before pre (TSubscribe n c cap) (TPublish p e) ->
  (forall c' cap' j, In (TSubscribe n c' cap') pre -> ~ In (TChan c' (DataChannel.ECall j OClose)) pre) ->
  exists g c' cap' r, In (TVisit p g n c') pre /\ In (TSubscribe n c' cap') pre /\ In (TChan c' (DataChannel.ERet (sid g) (OSend e) r)) pre.
Proof. exact (fun A pre p k post s n c cap e => never_closed_offered pre p k post s n c cap e). Qed.
Print Assumptions C42_never_closed_stays_partial.
