(* What a crash of the server comes from. *)
From Coq Require Import List Arith Bool String Lia.
From Verif Require Import ProcessProofs.
From Verif Require Import Base Lts Resp RespSpec RespProofs Engine Db DataChannel DataChannelProofs Topic TopicProofs Conn ConnProofs ServerSpec Server ServerProofs StopProofs ProgressProofs.
Import ListNotations.
Local Open Scope nat_scope.

Lemma rsp_open cl d input tr s : runs cl d input tr s -> open_topic (s_rsp s).
Proof.
  intros R. destruct (runs_parts _ _ _ _ _ R) as (_ & T2 & _). destruct (req_lone _ _ _ _ _ R) as [_ L2].
  apply (is_open (rsp_trace tr) _ "server" 100); [exact T2|exact L2|apply in_rsp; auto|]. intros j0 Hj. apply in_rsp in Hj as [Hj|Hj]; [discriminate|]. exact (proj2 (no_close_calls _ _ _ _ _ R 0 j0) Hj).
Qed.
Lemma req_open cl d input tr s : runs cl d input tr s -> open_topic (s_req s).
Proof.
  intros R. destruct (runs_parts _ _ _ _ _ R) as (T1 & _ & _). destruct (req_lone _ _ _ _ _ R) as [L1 _].
  apply (is_open (req_trace tr) _ "engine" 0); [exact T1|exact L1|apply in_req; auto|]. intros j0 Hj. apply in_req in Hj as [Hj|Hj]; [discriminate|]. exact (proj1 (no_close_calls _ _ _ _ _ R 0 j0) Hj).
Qed.
Lemma wrk_not_closed cl d input tr s j t : runs cl d input tr s -> s_wrk s = WWait j -> ~ Topic.step (s_rsp s) (Some (TChan 0 (DataChannel.ERet j ORecv DataChannel.RErrClosed))) t.
Proof.
  intros R W St. pose proof (rsp_open _ _ _ _ _ R) as O. destruct (runs_parts _ _ _ _ _ R) as (_ & T0 & _). destruct (wrk_at _ _ _ _ _ _ R W) as [Hc Hr].
  destruct (receiving (rsp_trace tr) _ j T0 O) as (_ & Pc).
  { apply in_rsp. auto. } { intros r Hq. apply in_rsp in Hq as [Hq|Hq]; [discriminate|]. exact (Hr _ Hq). }
  assert (exists x, DataChannel.step (t_ch (s_rsp s) 0) (Some (DataChannel.ERet j ORecv DataChannel.RErrClosed)) x) as (x & Dx).
  { inversion St; subst; eauto. destruct l; [|discriminate]. cbn in *. match goal with Q : Some _ = Some _ |- _ => inversion Q; subst end. eauto. }
  inversion Dx; subst. destruct Pc as [Pc|[Pc|[m Pc]]]; congruence.
Qed.

Definition cause cl s : Prop :=
  (exists c, parse (s_in s c) = PPanic) \/ (exists c k q e, s_eng s = EHas c k q /\ handle e (s_db s) q = Panic) \/ (cl = false /\ s_stop s = XShut).
Lemma crash_step cl d input tr s l s' : runs cl d input tr s -> s_crash s = false -> move cl s l s' -> s_crash s' = true -> cause cl s'.
Proof.
  intros R C0 M C. unfold cause. moves M; unf; try (rewrite C0 in C; discriminate C).
  - left. eauto.
  - right. left. eauto 6.
  - exfalso. exact (wrk_not_closed _ _ _ _ _ _ _ R P St).
  - right. right. auto.
Qed.
Theorem crash_cause cl d input tr s : runs cl d input tr s -> s_crash s = true ->
  (exists c b, objects (input c) (map snd (reads c tr)) b /\ parse b = PPanic) \/
  (exists c i k q e d', In (SRead c i k q) tr /\ in_turn d (map hturn (handled tr)) d' /\ handle e d' q = Panic) \/
  (cl = false /\ exists p, In (SReq (TPublish p QGone)) tr).
Proof.
  intros R C. assert (Z : cause cl s).
  { pose proof R as R0. unfold runs in R0. inversion R0 as [E1 E2|tr' s1 s2 R1 [C1 M] E1 E2|tr' s1 a s2 R1 [C1 M] E1 E2]; subst; [discriminate|eapply crash_step; eassumption..]. }
  destruct Z as [(c & Z)|[(c & k & q & e & E & Z)|[-> Z]]].
  - left. exists c, (s_in s c). split; [exact (proj1 (runs_reads _ _ _ _ _ R c))|exact Z].
  - right. left. destruct (has_read _ _ _ _ _ _ _ _ R E) as [i Hi]. exists c, i, k, q, e, (s_db s). split; [exact Hi|]. split; [exact (runs_turn _ _ _ _ _ R)|exact Z].
  - right. right. split; [reflexivity|]. apply (stop_begun _ _ _ _ _ R). congruence.
Qed.
