(* The order in which a stop does its work. *)
From Coq Require Import List Arith Bool String Lia.
From Verif Require Import Base Lts Resp Engine Db DataChannel Topic TopicProofs Conn Server ServerProofs Persist Process ProcessProofs.
Import ListNotations.
Local Open Scope nat_scope.
Local Open Scope list_scope.

Section OneTopic.
  Context {A : Type}.
  Implicit Types (s : Topic.state A) (tr : list (Topic.event A)).
  Definition told (f : phase) : bool := match f with DClose | DSpawn | DRemove => true | _ => false end.
  Lemma told_result tr s : Topic.runs tr s -> forall p, told (p_phase (t_pub s p)) = true <-> exists n, In (TResult p n) tr.
  Proof.
    revert tr s. apply (TopicProofs.runs_ind' (fun tr s => forall p, told (p_phase (t_pub s p)) = true <-> exists n, In (TResult p n) tr)).
    - intros p. cbn. split; [discriminate|intros [n []]].
    - intros tr s l s' _ I St p0. specialize (I p0).
      assert (Fr : told (p_phase (t_pub s' p0)) = told (p_phase (t_pub s p0)) -> (forall n, l <> Some (TResult p0 n)) -> told (p_phase (t_pub s' p0)) = true <-> exists n, In (TResult p0 n) (TopicProofs.ext tr l)).
      { intros -> N. rewrite I. split; intros [n Hn]; exists n; [now apply TopicProofs.ext_in|]. apply TopicProofs.ext_inv in Hn as [Hn|Hn]; [exact Hn|]. destruct (N _ Hn). }
      destruct St as [s name cap|s c l d Lt Th D|s p e Ph|s p Ph|s p g name c Ph Hs Hv Hg|s p Ph Hm|s p Ph Wg|s p Ph|s p Ph|s p Ph|s p name r Ph Hr|s g e d Pg Ev D|s g e r d Pg D|s g Pg|s g Pg Gt N1 N2|s g Pg X|s g b Pg|s p name Gt];
        cbn [put_pub put_g put_ch t_subs t_next t_ch t_pub t_g] in *; try (apply Fr; [reflexivity|discriminate]).
      + apply Fr; [now rewrite phase_store|discriminate].
      + apply Fr; [reflexivity|destruct l; discriminate].
      + apply Fr; [|discriminate]. destruct (upd_case (t_pub s) p p0 (mkP DStart (Some e) [] [] [] 0 0 [] None [])) as [[-> ->]|[_ ->]]; [now rewrite Ph|reflexivity].
      + apply Fr; [|discriminate]. match goal with |- context [upd (t_pub s) p ?x p0] => destruct (upd_case (t_pub s) p p0 x) as [[-> ->]|[_ ->]]; [now rewrite Ph|reflexivity] end.
      + apply Fr; [|discriminate]. match goal with |- context [upd (t_pub s) p ?x p0] => destruct (upd_case (t_pub s) p p0 x) as [[-> ->]|[_ ->]]; [now rewrite Ph|reflexivity] end.
      + apply Fr; [|discriminate]. match goal with |- context [upd (t_pub s) p ?x p0] => destruct (upd_case (t_pub s) p p0 x) as [[-> ->]|[_ ->]]; [now rewrite Ph|reflexivity] end.
      + apply Fr; [|discriminate]. match goal with |- context [upd (t_pub s) p ?x p0] => destruct (upd_case (t_pub s) p p0 x) as [[-> ->]|[_ ->]]; [now rewrite Ph|reflexivity] end.
      + match goal with |- context [upd (t_pub s) p ?x p0] => destruct (upd_case (t_pub s) p p0 x) as [[-> E]|[N E]] end.
        * rewrite E. cbn. split; [intros _; eexists; apply in_snoc; right; reflexivity|reflexivity].
        * apply Fr; [now rewrite E|]. intros n X. inversion X. congruence.
      + apply Fr; [|discriminate]. match goal with |- context [upd (t_pub s) p ?x p0] => destruct (upd_case (t_pub s) p p0 x) as [[-> ->]|[_ ->]]; [now rewrite Ph|reflexivity] end.
      + apply Fr; [|discriminate]. match goal with |- context [upd (t_pub s) p ?x p0] => destruct (upd_case (t_pub s) p p0 x) as [[-> ->]|[_ ->]]; [now rewrite Ph|reflexivity] end.
      + apply Fr; [|discriminate]. match goal with |- context [upd ?f p ?x p0] => destruct (upd_case f p p0 x) as [[-> ->]|[_ ->]]; [now rewrite Ph|now rewrite phase_delete] end.
      + apply Fr; [|discriminate]. match goal with |- context [upd (t_pub s) ?p ?x p0] => destruct (upd_case (t_pub s) p p0 x) as [[-> ->]|[_ ->]]; reflexivity end.
      + apply Fr; [|discriminate]. match goal with |- context [upd (t_pub s) ?p ?x p0] => destruct (upd_case (t_pub s) p p0 x) as [[-> ->]|[_ ->]]; reflexivity end.
      + apply Fr; [|discriminate]. match goal with |- context [upd (t_pub s) ?p ?x p0] => destruct (upd_case (t_pub s) p p0 x) as [[-> ->]|[_ ->]]; reflexivity end.
      + apply Fr; [|discriminate]. match goal with |- context [upd (t_pub s) ?p ?x p0] => destruct (upd_case (t_pub s) p p0 x) as [[-> ->]|[_ ->]]; reflexivity end.
  Qed.
  Lemma published_first tr s p e t : Topic.runs tr s -> Topic.step s (Some (TPublish p e)) t -> forall n, ~ In (TResult p n) tr.
  Proof.
    intros R St n Hn. assert (K : told (p_phase (t_pub s p)) = true) by (apply (told_result _ _ R); eauto).
    inversion St; subst; [destruct l; discriminate|]. match goal with Q : p_phase _ = DNone |- _ => rewrite Q in K end. discriminate.
  Qed.
End OneTopic.

Lemma result_after cl d input tr s : Server.runs cl d input tr s ->
  (forall p e n, In (SReq (TPublish p e)) tr -> In (SReq (TResult p n)) tr -> before tr (SReq (TPublish p e)) (SReq (TResult p n))) /\
  (forall p e n, In (SRsp (TPublish p e)) tr -> In (SRsp (TResult p n)) tr -> before tr (SRsp (TPublish p e)) (SRsp (TResult p n))).
Proof.
  revert tr s. apply (ServerProofs.runs_ind' cl d input (fun tr s => (forall p e n, In (SReq (TPublish p e)) tr -> In (SReq (TResult p n)) tr -> before tr (SReq (TPublish p e)) (SReq (TResult p n))) /\
    (forall p e n, In (SRsp (TPublish p e)) tr -> In (SRsp (TResult p n)) tr -> before tr (SRsp (TPublish p e)) (SRsp (TResult p n))))); [easy|].
  intros tr s l s' R [I1 I2] M. destruct (runs_parts _ _ _ _ _ R) as (T1 & T2 & _).
  destruct l as [a|]; [|auto]. cbn [ServerProofs.ext]. split; intros p0 e0 n0 X Y; apply before_snoc.
  - apply in_snoc in X as [X|X]; apply in_snoc in Y as [Y|Y]; auto; try congruence. subst a. exfalso.
    assert (exists t, Topic.step (s_req s) (Some (TPublish p0 e0)) t) as (t & St) by (inversion M; subst; eauto; destruct l; try discriminate; cbn in *; match goal with Q : Some _ = Some _ |- _ => inversion Q; subst end; eauto).
    apply (published_first _ _ _ _ _ T1 St n0). apply in_req. now right.
  - apply in_snoc in X as [X|X]; apply in_snoc in Y as [Y|Y]; auto; try congruence. subst a. exfalso.
    assert (exists t, Topic.step (s_rsp s) (Some (TPublish p0 e0)) t) as (t & St) by (inversion M; subst; eauto; destruct l; try discriminate; cbn in *; match goal with Q : Some _ = Some _ |- _ => inversion Q; subst end; eauto).
    apply (published_first _ _ _ _ _ T2 St n0). apply in_rsp. now right.
Qed.

Definition phase1 (tr : list Server.event) p : Prop := In (SReq (TPublish p QGone)) tr.
Definition phase2 (tr : list Server.event) p' : Prop := exists p n, before tr (SReq (TPublish p QGone)) (SReq (TResult p n)) /\ before tr (SReq (TResult p n)) (SRsp (TPublish p' PGone)).
Definition phase3 (tr : list Server.event) : Prop := exists p' n', phase2 tr p' /\ before tr (SRsp (TPublish p' PGone)) (SRsp (TResult p' n')).
Definition stage_ok (tr : list Server.event) (x : Server.stopper) : Prop :=
  match x with XNone => True | XReq p => phase1 tr p | XRsp p => phase2 tr p | XShut | XFlushed | XDone => phase3 tr end.
Lemma before_ext tr l a b : before tr a b -> before (ServerProofs.ext tr l) a b.
Proof. intros B. destruct l; [|exact B]. apply before_snoc. now left. Qed.
Lemma stage_ext tr l x : stage_ok tr x -> stage_ok (ServerProofs.ext tr l) x.
Proof.
  destruct x as [|p|p| | |]; cbn; auto.
  - intros P. now apply ServerProofs.ext_in.
  - intros (q & n & B1 & B2). exists q, n. split; now apply before_ext.
  - intros (p' & n' & (q & n & B1 & B2) & B3). exists p', n'. split; [exists q, n; split|]; now apply before_ext.
  - intros (p' & n' & (q & n & B1 & B2) & B3). exists p', n'. split; [exists q, n; split|]; now apply before_ext.
  - intros (p' & n' & (q & n & B1 & B2) & B3). exists p', n'. split; [exists q, n; split|]; now apply before_ext.
Qed.
Lemma stages cl d input tr s : Server.runs cl d input tr s -> stage_ok tr (s_stop s).
Proof.
  revert tr s. apply (ServerProofs.runs_ind' cl d input (fun tr s => stage_ok tr (s_stop s))); [exact I|]. intros tr s l s' R I M.
  destruct (runs_parts _ _ _ _ _ R) as (T1 & T2 & _). destruct (result_after _ _ _ _ _ R) as [B1 B2].
  destruct M; cbn [put_rd put_in put_conn set_req set_rsp set_db set_eng set_wrk set_stop crash s_stop] in *; try (apply stage_ext; exact I).
  - cbn. apply in_snoc. now right.
  - rewrite H in I. cbn in I |- *. assert (exists n, In (TResult p n) (req_trace tr)) as [n Hn] by (apply (told_result _ _ T1); unfold distributed in H0; destruct (p_phase (t_pub (s_req s) p)); easy).
    apply in_req in Hn as [Hn|Hn]; [discriminate|]. exists p, n. split; [apply before_snoc; left; now apply B1|apply before_snoc; right; auto].
  - rewrite H in I. cbn in I |- *. assert (exists n, In (TResult p n) (rsp_trace tr)) as [n Hn] by (apply (told_result _ _ T2); unfold distributed in H0; destruct (p_phase (t_pub (s_rsp s) p)); easy).
    apply in_rsp in Hn as [Hn|Hn]; [discriminate|]. exists p, n. split; [exact I|]. apply B2; [|exact Hn]. destruct I as (q & m & _ & B). now apply before_in in B as [_ B].
  - rewrite H in I. exact I.
  - rewrite H in I. exact I.
Qed.
Lemma served_before tr a b : before (served tr) a b -> before tr (XSrv a) (XSrv b).
Proof.
  assert (Sp : forall tr x (a : Server.event) y, served tr = x ++ a :: y -> exists x' y', tr = x' ++ XSrv a :: y' /\ served x' = x /\ served y' = y).
  { clear. induction tr as [|e tr IH]; intros x a y H; [destruct x; discriminate|].
    destruct e as [b| | | |]; cbn in H; try (destruct (IH _ _ _ H) as (x' & y' & -> & <- & <-); eexists (_ :: x'), y'; auto; fail).
    destruct x as [|c x]; cbn in H; inversion H; subst; [exists [], tr; auto|]. destruct (IH _ _ _ H2) as (x' & y' & -> & <- & <-). exists (XSrv c :: x'), y'. auto. }
  intros (x & y & z & H). destruct (Sp _ _ _ _ H) as (x' & y' & -> & _ & H'). destruct (Sp _ _ _ _ H') as (y1 & y2 & -> & _ & _). exists x', y1, y2. reflexivity.
Qed.
(* The requests' channel is given up and the result awaited, then the replies' channel, then the
   listener; the process ends after that. *)
Theorem exit_order cl d input f tr x : Process.runs cl d input f tr x -> In XExit tr -> exists p n p' n',
  before tr (XSrv (SReq (TPublish p QGone))) (XSrv (SReq (TResult p n))) /\ before tr (XSrv (SReq (TResult p n))) (XSrv (SRsp (TPublish p' PGone))) /\
  before tr (XSrv (SRsp (TPublish p' PGone))) (XSrv (SRsp (TResult p' n'))) /\ before tr (XSrv (SRsp (TResult p' n'))) XExit.
Proof.
  intros R H. apply in_split in H as (y & z & ->). destruct (exec_split _ _ _ _ _ _ R) as (s1 & s2 & R1 & St & _).
  inversion St; subst; try (destruct l; discriminate). pose proof (accepts_shut _ _ _ _ _ _ R1 eq_refl) as S. cbn in S. pose proof (stages _ _ _ _ _ (served_runs _ _ _ _ _ _ R1)) as G. cbn [x_srv] in G.
  assert (phase3 (served y)) as (q' & n' & (q & n & B1 & B2) & B3) by (unfold shut in S; destruct (s_stop s); try (now destruct S); exact G).
  assert (App : forall a b, before (served y) a b -> before (y ++ XExit :: z) (XSrv a) (XSrv b)).
  { intros a0 b0 B. apply served_before in B as (u & v & w & ->). exists u, v, (w ++ XExit :: z). now rewrite <- !app_assoc, app_comm_cons, <- app_assoc. }
  exists q, n, q', n'. split; [now apply App|]. split; [now apply App|]. split; [now apply App|].
  apply before_in in B3 as [_ B3]. apply served_in in B3. apply in_split in B3 as (u & v & ->). exists u, v, z. now rewrite <- app_assoc.
Qed.
