(* C85: when the server has no step of its own left, everything is answered. *)
From Coq Require Import List Arith Bool String Lia.
From Verif Require Import Base Lts Resp RespSpec RespProofs Engine Db DataChannel DataChannelProofs Topic TopicProofs Conn ConnProofs ServerSpec Server ServerProofs StopProofs ProgressProofs BoundSpec BoundProofs RestSpec.
Import ListNotations.
Local Open Scope nat_scope.
Local Open Scope list_scope.

(* ---- who is in a Send waits for it ---- *)
Section Paired.
  Context {A : Type} (n0 : string).
  Definition sending (p : DataChannel.pc A) : Prop := match p with DataChannel.PSend _ | DataChannel.PRet (OSend _) _ => True | _ => False end.
  Definition paired (t : Topic.state A) : Prop := forall i, sending (d_pc (t_ch t 0) i) -> exists g, i = sid g /\ g_pc (t_g t g) = GWait.
  Lemma chan_sending (d d' : DataChannel.state A) l : DataChannel.step d l d' -> forall i, sending (d_pc d' i) -> sending (d_pc d i) \/ exists e, l = Some (DataChannel.ECall i (OSend e)).
  Proof.
    intros St i. destruct St; cbn [DataChannel.set_pc d_pc]; try (match goal with |- context [upd (d_pc ?s0) ?k ?x ?i0] => destruct (upd_case (d_pc s0) k i0 x) as [[-> ->]|[_ ->]] end); auto;
      try (rewrite H0; cbn; auto; fail); cbn [sending]; try contradiction; eauto.
    destruct (upd_case (upd (d_pc s) i0 (DataChannel.PRet (OSend e) DataChannel.RSuccess)) j i (DataChannel.PRet ORecv (REvent e))) as [[-> ->]|[_ ->]]; [cbn; contradiction|].
    destruct (upd_case (d_pc s) i0 i (DataChannel.PRet (OSend e) DataChannel.RSuccess)) as [[-> ->]|[_ ->]]; [rewrite H0; cbn; auto|auto].
  Qed.
  Lemma paired_step t l t' : lean n0 t -> tame l -> paired t -> Topic.step t l t' -> paired t'.
  Proof.
    intros (N & _ & _ & _ & G) T P St.
    assert (forall g f q, g_pc (t_g t g) <> GWait -> forall i, (exists g', i = sid g' /\ g_pc (t_g t g') = GWait) -> exists g', i = sid g' /\ g_pc (upd (t_g t) g (mkG f q (g_name (t_g t g)) (g_chan (t_g t g))) g') = GWait) as K.
    { intros g f q X i (g' & -> & W). exists g'. split; [reflexivity|]. rewrite upd_ne by congruence. exact W. }
    destruct St; try contradiction; intros i; cbn [put_pub put_g put_ch t_subs t_next t_ch t_pub t_g]; try apply P.
    - assert (c = 0) as -> by lia. rewrite upd_eq. intros S. destruct (chan_sending _ _ _ H1 i S) as [S'|(e & ->)]; [apply P, S'|]. destruct H0 as [_ [X|X]]; discriminate.
    - intros S. destruct (P i S) as (g' & -> & W). exists g'. split; [reflexivity|]. rewrite upd_ne by congruence. exact W.
    - destruct (G g) as [X|[_ X]]; [congruence|]. rewrite X in *. rewrite upd_eq. intros S. destruct (chan_sending _ _ _ H1 i S) as [S'|(e' & E)].
      + destruct (P i S') as (g' & -> & W). exists g'. split; [reflexivity|]. rewrite upd_ne by congruence. exact W.
      + inversion E; subst. exists g. split; [reflexivity|]. rewrite upd_eq. reflexivity.
    - destruct (G g) as [X|[_ X]]; [congruence|]. rewrite X in *. rewrite upd_eq. intros S. destruct (chan_sending _ _ _ H0 i S) as [S'|(e' & E)]; [|discriminate].
      destruct (P i S') as (g' & -> & W). exists g'. split; [reflexivity|]. destruct (Nat.eq_dec g' g) as [->|Ng]; [|rewrite upd_ne by exact Ng; exact W].
      exfalso. inversion H0; subst. cbn in S. rewrite upd_eq in S. exact S.
    - intros S. apply K; [congruence|apply P, S].
    - intros S. apply K; [congruence|apply P, S].
    - intros S. apply K; [congruence|apply P, S].
  Qed.
End Paired.
Lemma runs_leans cl d input tr s : runs cl d input tr s -> leans s.
Proof. intros R. destruct (runs_steps _ _ _ _ _ R) as [n H]. exact (proj1 (bounded _ _ _ _ _ _ H)). Qed.
Lemma runs_paired cl d input tr s : runs cl d input tr s -> paired (s_req s) /\ paired (s_rsp s).
Proof.
  revert tr s. apply runs_ind'; [split; intros i S; cbn in S; contradiction|].
  intros tr s l s' R [P1 P2] M. destruct (runs_leans _ _ _ _ _ R) as (L1 & L2 & _). moves M; unf; try (split; assumption).
  all: split; try assumption; try (eapply paired_step; [eassumption| |eassumption|eassumption]; first [exact I|apply free_tame; assumption]).
Qed.
(* and can return from it *)
Lemma can_return {A} n (t : Topic.state A) i e r : lean n t -> paired t -> d_pc (t_ch t 0) i = DataChannel.PRet (OSend e) r ->
  exists t', Topic.step t (Some (TChan 0 (DataChannel.ERet i (OSend e) r))) t' /\ forall j, d_pc (t_ch t' 0) j = if Nat.eqb j i then DataChannel.PDone else d_pc (t_ch t 0) j.
Proof.
  intros (_ & _ & (_ & _ & K & _) & _ & G) P H. destruct (P i) as (g & -> & W); [rewrite H; exact I|]. destruct (G g) as [X|[_ X]]; [congruence|].
  pose proof (DataChannel.c_ret _ _ _ _ K H) as St. pose proof (Topic.g_ret t g e r) as S. rewrite X in S. eexists. split; [apply (S _ W St)|]. intros j. cbn -[sid]. reflexivity.
Qed.

Section Rest.
  Context (cl : bool) (d0 : db) (input : nat -> bytes) (e0 : env).
  Implicit Types (s : state) (tr : list event).
  Lemma keeps_live {A} (t t' : Topic.state A) : keeps t t' -> ~ expires t t'.
  Proof. intros K (i & e & P & Q). apply K in Q. congruence. Qed.
  Lemma gstep_own s l s' : gstep cl s l s' -> own cl s l s'.
  Proof.
    intros (St & C & X & U & (Q1 & Q2 & Q3 & Q4) & K1 & K2). split; [exact St|].
    intros [(c & E)|[(c & i & P & Q)|[(E & _)|[(c & E)|[E|[E|[_ E]]]]]]]; [exact (Q1 _ E)|exact (Q (Q4 _ _ P))|exact (Q3 E)|exact (Q2 _ E)|exact (keeps_live _ _ K1 E)|exact (keeps_live _ _ K2 E)|exact (E X)].
  Qed.
  Lemma rest_stays s tr s' : rests cl s -> exec (gstep cl) s tr s' -> tr = [] /\ s' = s.
  Proof.
    intros R E. induction E as [|tr s1 s2 E [-> ->] St|tr s1 a s2 E [-> ->] St]; [auto| |]; exfalso; apply gstep_own in St; exact (R _ _ St).
  Qed.
  Lemma rest_runs tr s : runs cl d0 input tr s -> rests cl s -> s_crash s = false -> s_stop s = XNone ->
    (forall i e, d_pc (t_ch (s_req s) 0) i <> DataChannel.PRet (OSend e) RExpired) /\ (forall i e, d_pc (t_ch (s_rsp s) 0) i <> DataChannel.PRet (OSend e) RExpired).
  Proof.
    intros R Z C X. destruct (runs_leans _ _ _ _ _ R) as (L1 & L2 & _). destruct (runs_paired _ _ _ _ _ R) as [P1 P2]. split; intros i e H.
    - destruct (can_return _ _ _ _ _ L1 P1 H) as (t' & St & E). apply (Z (Some (SReq (TChan 0 (DataChannel.ERet i (OSend e) RExpired)))) (set_req s t')). split.
      + split; [exact C|]. exact (req_free cl s (Some (TChan 0 (DataChannel.ERet i (OSend e) RExpired))) t' I St).
      + intros [(c & Y)|[(c & j & P & Q)|[(Y & _)|[(c & Y)|[(j & e' & P & Q)|[(j & e' & P & Q)|[_ Y]]]]]]]; try discriminate; unf; try contradiction; try congruence.
        rewrite E in Q. destruct (Nat.eqb j i); [discriminate|congruence].
    - destruct (can_return _ _ _ _ _ L2 P2 H) as (t' & St & E). apply (Z (Some (SRsp (TChan 0 (DataChannel.ERet i (OSend e) RExpired)))) (set_rsp s t')). split.
      + split; [exact C|]. exact (rsp_free cl s (Some (TChan 0 (DataChannel.ERet i (OSend e) RExpired))) t' I St).
      + intros [(c & Y)|[(c & j & P & Q)|[(Y & _)|[(c & Y)|[(j & e' & P & Q)|[(j & e' & P & Q)|[_ Y]]]]]]]; try discriminate; unf; try contradiction; try congruence.
        rewrite E in Q. destruct (Nat.eqb j i); [discriminate|congruence].
  Qed.
  Theorem rested tr s c i k q : runs cl d0 input tr s -> rests cl s -> s_crash s = false -> s_stop s = XNone -> unblocked s -> In (SRead c i k (RArr q)) tr ->
    (forall j, ~ In (SReq (TChan 0 (DataChannel.ERet j (OSend (QRequest c k (RArr q))) RExpired))) tr) ->
    (forall j r, ~ In (SRsp (TChan 0 (DataChannel.ERet j (OSend (PReply c k r)) RExpired))) tr) -> (exists i' r, In (SWrite c i' k r) tr) \/ exists c' k' q', s_eng s = EHas c' k' q' /\ handle e0 (s_db s) q' = NoFuel.
  Proof.
    intros R Z C X U H N1 N2. destruct (rest_runs _ _ R Z C X) as [E1 E2].
    destruct (progress cl d0 input e0 tr s c i k q) as (tr' & s' & E & Y); [split; auto|exact U|exact H|split; auto|split; auto|].
    destruct (rest_stays _ _ _ Z E) as [-> ->]. rewrite app_nil_r in Y. destruct Y as [(c' & k' & q' & Eg & St)|Y]; [|left; exact Y].
    destruct (handle e0 (s_db s) q') as [[d' o]| |] eqn:Hd; [exfalso; exact (St _ _ eq_refl)| |right; exists c', k', q'; auto]. exfalso.
    apply (Z (Some SCrash) (crash s)). split; [split; [exact C|exact (eng_panic cl s c' k' q' e0 Eg Hd)]|].
    intros [(? & Y)|[(? & j & P & Q)|[(_ & Y)|[(? & Y)|[(j & e' & P & Q)|[(j & e' & P & Q)|[_ Y]]]]]]]; try discriminate; unf; try contradiction; try congruence.
  Qed.
End Rest.

(* ---- every way of going on that has no end is a way that something from outside enters ---- *)
Lemma steps_app {S L : Type} (R : S -> option L -> S -> Prop) s n tr s1 m tr' s2 : steps R s n tr s1 -> steps R s1 m tr' s2 -> steps R s (n + m) (tr ++ tr') s2.
Proof.
  intros H1 H2. induction H2 as [|m tr' s2 s3 H IH St|m tr' s2 a s3 H IH St]; [now rewrite Nat.add_0_r, app_nil_r| |]; rewrite Nat.add_succ_r.
  - exact (steps_tau _ _ _ _ _ _ IH St).
  - rewrite app_assoc. exact (steps_act _ _ _ _ _ _ _ IH St).
Qed.
Lemma own_steps cl s n tr s' : steps (own cl) s n tr s' -> steps (step cl) s n tr s' /\ accepted tr = [].
Proof.
  induction 1 as [|n tr s1 s2 H [IH A] [St O]|n tr s1 a s2 H [IH A] [St O]]; [split; [constructor|reflexivity]|split; [exact (steps_tau _ _ _ _ _ _ IH St)|exact A]|].
  split; [exact (steps_act _ _ _ _ _ _ _ IH St)|]. rewrite accepted_snoc, A. destruct a; try reflexivity. exfalso. apply O. left. eauto.
Qed.
Theorem own_bound cl d input tr s n tr' s' : runs cl d input tr s -> steps (own cl) s n tr' s' -> n <= 75 + list_sum (map (fun c => 17 + 52 * List.length (input c)) (accepted tr)).
Proof.
  intros R H. destruct (runs_steps _ _ _ _ _ R) as [m Hm]. destruct (own_steps _ _ _ _ _ H) as [H' A].
  destruct (input_bound _ _ _ _ _ _ (steps_app _ _ _ _ _ _ _ _ Hm H')) as [_ B]. unfold accepted in *. rewrite flat_map_app, A, app_nil_r in B. lia.
Qed.

(* ---- a way to see that a server is at rest ---- *)
Definition quiet_topic {A} (t : Topic.state A) : Prop := t_next t = 1 /\ d_buf (t_ch t 0) = [] /\
  (forall p, (p_phase (t_pub t p) = DNone \/ p_phase (t_pub t p) = DRemove) /\ p_remove (t_pub t p) = [] /\ p_got (t_pub t p) = None) /\
  (forall g, g_pc (t_g t g) = GNone \/ exists b, g_pc (t_g t g) = GOver b) /\
  (forall i, d_pc (t_ch t 0) i = DataChannel.PIdle \/ d_pc (t_ch t 0) i = DataChannel.PDone \/ d_pc (t_ch t 0) i = PRecv).
Lemma quiet_stays {A} (t : Topic.state A) l t' : quiet_topic t -> free l -> ~ Topic.step t l t'.
Proof.
  intros (N & B & P & G & C) F St. destruct St; try contradiction;
    try (destruct (P p) as ([X|X] & Y & Z); congruence); try (destruct (G g) as [X|[? X]]; congruence).
  assert (c = 0) as -> by lia. destruct l as [[i o|i o r|i e|i e|i j e|]|]; inversion H1; subst; try (destruct (C i) as [X|[X|X]]; congruence); try (destruct (C i0) as [X|[X|X]]; congruence); cbn in F; try contradiction.
  destruct H0 as [_ [X|X]]; discriminate.
Qed.
Definition quiet_conn (t : Conn.state) : Prop := c_chan t = false /\ forall i, c_pc t i = Conn.PIdle \/ c_pc t i = Conn.PDone \/ c_pc t i = PReading \/ (i = 0 /\ c_pc t i = Conn.PLoop).
Lemma quiet_conn_step t l t' : quiet_conn t -> free_conn l -> Conn.step t l t' -> l = Some Conn.ETimer \/ exists i, c_pc t i = PReading /\ c_pc t' i <> PReading.
Proof.
  intros (N & C) F St. destruct St; try contradiction; auto; try (destruct (C i) as [X|[X|[X|[-> X]]]]; congruence); try congruence; right; exists i; (split; [assumption|]); cbn; try (rewrite upd_eq; discriminate).
  rewrite upd_ne by congruence. rewrite upd_eq. discriminate.
Qed.
Theorem quiet_rests cl s : s_stop s = XNone -> quiet_topic (s_req s) -> quiet_topic (s_rsp s) -> (forall c, quiet_conn (s_conn s c)) ->
  (exists j, s_eng s = EWait j) -> (exists j, s_wrk s = WWait j) -> (forall c, s_rd s c = RNone \/ s_rd s c = ROver \/ exists k i, s_rd s c = RIn k i) -> rests cl s.
Proof.
  intros Xs Qu1 Qu2 Qu3 [j1 E] [j2 W] R l s' [[K M] O].
  assert (forall c i o r t, ~ Conn.step (s_conn s c) (Some (Conn.ERet i o r)) t) as NC.
  { intros c i o r t St. inversion St; subst. destruct (Qu3 c) as [_ Z]. destruct (Z i) as [Y|[Y|[Y|[_ Y]]]]; congruence. }
  assert (forall {A} (t : Topic.state A) i r t', quiet_topic t -> ~ Topic.step t (Some (TChan 0 (DataChannel.ERet i ORecv r))) t') as NT.
  { intros A t i r t' (_ & _ & _ & G & C) St. inversion St; subst. destruct l0 as [l0|]; [|discriminate]. match goal with Z : option_map _ _ = _ |- _ => cbn in Z; inversion Z; subst end.
    match goal with Z : DataChannel.step _ _ _ |- _ => inversion Z; subst end. destruct (C i) as [Y|[Y|Y]]; congruence. }
  moves M; try congruence; try (eapply NC; eassumption); try (eapply NT; [|eassumption]; assumption); try (destruct (R c) as [Y|[Y|(? & ? & Y)]]; congruence).
  - apply O. left. eauto.
  - apply O. right. right. left. split; [reflexivity|]. intros. congruence.
  - apply O. do 6 right. unf. split; [exact Xs|discriminate].
  - exact (quiet_stays _ _ _ Qu1 F St).
  - exact (quiet_stays _ _ _ Qu2 F St).
  - destruct (quiet_conn_step _ _ _ (Qu3 c) F St) as [->|(i & Y & Z)]; apply O; [do 3 right; left; eauto|]. right. left. exists c, i. split; [exact Y|]. unf. rewrite upd_eq. exact Z.
Qed.
