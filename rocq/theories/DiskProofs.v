(* A log file whose writes fail. *)
From Coq Require Import List Bool Arith Lia String ZArith.
From Verif Require Import Base Lts Resp Command Db Engine Log Persist PersistSpec PersistProofs Recovery Server Process ProcessProofs.
Import ListNotations.
Local Open Scope nat_scope.

(* Once a write has failed, nothing is written and every attempt fails. *)
Theorem sticky p l : forall ws, p_err p = true -> p_dead p = false -> steps p l ws = (p, repeat false (List.length l)).
Proof.
  induction l as [|o l IH]; intros ws E D; [reflexivity|]. cbn [steps Persist.step List.length repeat]. unfold Persist.step. rewrite D.
  destruct o as [d|]; [rewrite write_err by exact E|rewrite flush_err by exact E]; rewrite (IH ws E D), E; reflexivity.
Qed.
Definition kind (w : wout) : Prop := match w with WDie _ => False | _ => True end.
Lemma next_kind ws : Forall kind ws -> kind (fst (next_out ws)) /\ Forall kind (snd (next_out ws)).
Proof. destruct 1; cbn; auto. Qed.
Lemma file_kind f d w : kind w -> snd (file_write f d w) = false.
Proof. now destruct w. Qed.
Lemma flush_kind p ws : Forall kind ws -> p_dead p = false -> p_dead (fst (flush p ws)) = false /\ Forall kind (snd (flush p ws)).
Proof.
  intros K D. unfold flush. destruct (p_err p); [auto|]. destruct (p_buf p) as [|c b]; [auto|]. destruct (next_kind _ K) as [K1 K2]. destruct (next_out ws) as [w ws']. cbn in K1, K2.
  pose proof (file_kind (p_file p) (c :: b) w K1) as F. destruct (file_write _ _ w) as [[[f n] e] dd]. cbn in *. auto.
Qed.
Lemma fresh_kind p d ws : Forall kind ws -> p_dead p = false -> p_dead (fst (write_fresh p d ws)) = false /\ Forall kind (snd (write_fresh p d ws)).
Proof.
  intros K D. unfold write_fresh. destruct (List.length d <=? buf_size); [auto|]. destruct (next_kind _ K) as [K1 K2]. destruct (next_out ws) as [w ws']. cbn in K1, K2.
  pose proof (file_kind (p_file p) d w K1) as F. destruct (file_write _ _ w) as [[[f n] e] dd]. cbn in *. auto.
Qed.
Lemma write_kind p d ws : Forall kind ws -> p_dead p = false -> p_dead (fst (write p d ws)) = false /\ Forall kind (snd (write p d ws)).
Proof.
  intros K D. unfold write. destruct (p_err p); [auto|]. destruct (_ <=? _); [auto|]. destruct (p_buf p) as [|c b]; [now apply fresh_kind|].
  match goal with |- context [flush ?q ws] => pose proof (flush_kind q ws K D) as F; destruct (flush q ws) as [p1 ws1] end. cbn in F. destruct F as [F1 F2].
  destruct (p_err p1); [auto|]. now apply fresh_kind.
Qed.
(* An error of the file does not end the process. *)
Theorem alive l : forall p ws p' oks, Forall kind ws -> p_dead p = false -> steps p l ws = (p', oks) -> p_dead p' = false.
Proof.
  induction l as [|o l IH]; intros p ws p' oks K D E; cbn [steps] in E; [congruence|]. unfold Persist.step in E. rewrite D in E.
  assert (Z : p_dead (fst (match o with PWrite d => write p d ws | PFlush => flush p ws end)) = false /\ Forall kind (snd (match o with PWrite d => write p d ws | PFlush => flush p ws end)))
    by (destruct o; [now apply write_kind|now apply flush_kind]).
  destruct (match o with PWrite d => write p d ws | PFlush => flush p ws end) as [p1 ws1]. cbn in Z. destruct Z as [Z1 Z2].
  destruct (steps p1 l ws1) as [p2 oks2] eqn:E2. injection E as <- _. exact (IH _ _ _ _ Z2 Z1 E2).
Qed.

(* A disk that takes nothing. *)
Lemma full_flush p ws : p_file (fst (flush p (WFail 0 :: ws))) = p_file p.
Proof. unfold flush. destruct (p_err p); [reflexivity|]. destruct (p_buf p); [reflexivity|]. cbn. apply app_nil_r. Qed.
Lemma full_write p d : p_file (fst (write p d [WFail 0])) = p_file p.
Proof.
  unfold write. destruct (p_err p); [reflexivity|]. destruct (_ <=? _); [reflexivity|]. destruct (p_buf p) as [|c b].
  - unfold write_fresh. destruct (_ <=? _); [reflexivity|]. cbn. apply app_nil_r.
  - unfold flush. cbn [p_err p_buf p_file next_out file_write firstn app p_dead]. cbn. apply app_nil_r.
Qed.
Definition full clean d input f tr s : Prop := exists tr' x, Process.runs clean d input f tr' x /\ served tr' = tr /\ x_srv x = s /\ x_spawned x = false /\ x_pend x = [] /\ x_gone x = false /\ p_file (x_file x) = f /\ p_dead (x_file x) = false.
Lemma served_app tr tr' : served (tr ++ tr') = served tr ++ served tr'.
Proof. apply flat_map_app. Qed.
Definition stamp0 : stamp := mkStamp [] 0%Z [].
Lemma full_step clean d input f tr s l s' : full clean d input f tr s -> Server.step clean s l s' -> full clean d input f (tr ++ match l with Some a => [a] | None => [] end) s'.
Proof.
  intros (tr' & x & R & T & S & B & P & G & F & D) St. destruct x as [sx bx px fx ax gx]. cbn in *. subst sx bx px gx.
  assert (H : handles l \/ ~ handles l) by (destruct l as [[]|]; cbn; auto). destruct H as [H|H].
  - (* its record is made, given to the file and refused *)
    assert (E : exists c k q, s_eng s = EHas c k q) by (destruct St as [_ M]; destruct l as [[]|]; try contradiction; inversion M; subst; eauto; match goal with X : option_map _ ?z = _ |- _ => destruct z; discriminate end).
    destruct E as (c & k & q & E). pose proof (proj1 St) as C.
    assert (M : exists tr1 f1, exec (Process.step clean) (mkX s false [] fx ax false) tr1 (mkX s true [] f1 ax false) /\ served tr1 = [] /\ p_file f1 = p_file fx /\ p_dead f1 = false).
    { destruct (log_of stamp0 q) as [v|] eqn:V.
      - destruct (pack_log v) as [b|] eqn:K.
        + assert (K1 : Forall kind [WFail 0]) by (constructor; [exact I|constructor]).
          pose proof (write_kind fx b _ K1 D) as [W _]. pose proof (full_write fx b) as Y. destruct (write fx b [WFail 0]) as [f1 ws1] eqn:X. cbn in W, Y.
          exists [XSpawn c k q v; XLog v], f1. split; [|auto]. eapply exec_cons; [eapply spawn; eauto|]. eapply exec_cons; [|apply exec_start].
          pose proof (logs clean s true [] v [] fx ax b [WFail 0] f1 ws1 C K X) as Z. rewrite W in Z. exact Z.
        + exists [XSpawn c k q v], fx. split; [|auto]. eapply exec_cons; [eapply spawn; eauto|]. eapply exec_cons_tau; [|apply exec_start]. exact (drops clean s true [] v [] fx ax C K).
      - exists [], fx. split; [|auto]. eapply exec_cons_tau; [eapply spawn_none; eauto|]. apply exec_start. }
    destruct M as (tr1 & f1 & X & V & Y & W). pose proof (exec_app _ _ _ _ _ _ R X) as R1.
    pose proof (srv_handle clean s l s' [] f1 ax St H) as X2.
    destruct l as [a|]; [|contradiction]. exists ((tr' ++ tr1) ++ [XSrv a]), (mkX s' false [] f1 ax false). split; [eapply exec_act; [exact R1|exact X2]|].
    rewrite !served_app, V, T, app_nil_r. cbn. repeat split; auto; congruence.
  - assert (Q : (s_stop s = XShut /\ s_stop s' = XFlushed) \/ ~ (s_stop s = XShut /\ s_stop s' = XFlushed)) by (destruct (s_stop s), (s_stop s'); intuition discriminate).
    destruct Q as [[Q1 Q2]|Q].
    + assert (L : l = None) by (destruct St as [_ M]; inversion M; subst; try reflexivity; cbn in *; congruence). subst l.
      assert (K1 : Forall kind [WFail 0]) by (constructor; [exact I|constructor]).
      pose proof (flush_kind fx _ K1 D) as [W _]. pose proof (full_flush fx []) as Y. destruct (flush fx [WFail 0]) as [f1 ws1] eqn:X. cbn in W, Y.
      pose proof (stops clean s s' false [] fx ax [WFail 0] f1 ws1 St Q1 Q2 X) as Z. rewrite W in Z.
      exists (tr' ++ [XFlush]), (mkX s' false [] f1 ax false). split; [eapply exec_act; [exact R|exact Z]|]. rewrite served_app, T. cbn. repeat split; auto; congruence.
    + pose proof (srv clean s l s' false [] fx ax St H Q) as Z. destruct l as [a|]; cbn in Z.
      * exists (tr' ++ [XSrv a]), (mkX s' false [] fx ax false). split; [eapply exec_act; [exact R|exact Z]|]. rewrite served_app, T. cbn. auto 10.
      * exists tr', (mkX s' false [] fx ax false). split; [eapply exec_tau; [exact R|exact Z]|]. rewrite app_nil_r. cbn. auto 10.
Qed.
Theorem unharmed clean d input f tr s : Server.runs clean d input tr s -> full clean d input f tr s.
Proof.
  intros R. unfold Server.runs in R. induction R as [|tr s1 s2 R IH St|tr s1 a s2 R IH St].
  - exists [], (start d input f). split; [apply exec_start|]. cbn. auto 10.
  - pose proof (full_step _ _ _ _ _ _ _ _ IH St) as X. cbn in X. now rewrite app_nil_r in X.
  - exact (full_step _ _ _ _ _ _ _ _ IH St).
Qed.
(* The file of a process after an error. *)
Theorem never_again clean x tr x' : p_err (x_file x) = true -> exec (Process.step clean) x tr x' -> p_file (x_file x') = p_file (x_file x).
Proof.
  intros E R. enough (x_file x' = x_file x) by congruence.
  induction R as [|tr s1 s2 R IH St|tr s1 a s2 R IH St]; [reflexivity| |]; rewrite <- IH; rewrite <- IH in E; inversion St; subst; cbn [x_file] in *; try reflexivity;
    match goal with H : write _ _ _ = _ |- _ => rewrite write_err in H by congruence | H : flush _ _ = _ |- _ => rewrite flush_err in H by congruence end; congruence.
Qed.
