(* C98: what is there when the server has nothing to do. *)
From Coq Require Import List Arith Bool String Lia.
From Verif Require Import Base Lts Resp RespSpec RespProofs Engine Db DataChannel DataChannelProofs Topic TopicProofs WaitTopic Conn ConnProofs WaitConn ServerSpec Server ServerProofs StopProofs ProgressProofs BoundSpec BoundProofs RestSpec RestProofs IdleSpec.
Import ListNotations.
Local Open Scope nat_scope.
Local Open Scope list_scope.

(* ---- a topic ---- *)
Section Topic.
  Context {A : Type} (n0 : string).
  Implicit Types (t : Topic.state A).
  (* it has no step of its own but that a send expires *)
  Definition settled t : Prop := forall l t', Topic.step t l t' -> free l -> keeps t t' -> False.
  Lemma keeps_same t t' : t_ch t' = t_ch t -> keeps t t'.
  Proof. intros E i e. now rewrite E. Qed.
  Lemma chan_settled t l d : settled t -> t_next t = 1 -> DataChannel.step (t_ch t 0) l d -> (match l with Some (DataChannel.ECall _ _) | Some (DataChannel.ERet _ _ _) => False | _ => True end) ->
    (forall i e, d_pc d i = DataChannel.PRet (OSend e) RExpired -> d_pc (t_ch t 0) i = DataChannel.PRet (OSend e) RExpired) -> False.
  Proof.
    intros Q N St L K. assert (N' : 0 < t_next t) by lia. assert (T : theirs l) by (destruct l as [[]|]; auto; contradiction).
    assert (F : free (option_map (TChan 0) l)) by (destruct l as [[]|]; first [exact I|contradiction]).
    apply (Q _ _ (Topic.chan t 0 l d N' T St) F). intros i e. cbn [put_ch t_ch]. rewrite upd_eq. apply K.
  Qed.
  Lemma settled_pcs t j : lean n0 t -> paired t -> settled t -> d_pc (t_ch t 0) j = PRecv -> d_buf (t_ch t 0) = [] ->
    forall i, match d_pc (t_ch t 0) i with DataChannel.PIdle | DataChannel.PDone | PRecv => True | DataChannel.PRet ORecv _ | DataChannel.PRet DataChannel.OClose _ => True | _ => False end.
  Proof.
    intros L P Q J B i. pose proof L as (N & _ & (F & Cl & K & Op) & _ & G). destruct (d_pc (t_ch t 0) i) as [|e| | | | |o r|] eqn:E; try exact I.
    - destruct (Nat.eq_dec (d_cap (t_ch t 0)) 0) as [Z|Z].
      + apply (chan_settled t _ _ Q N (DataChannel.s_pass _ i j e K E J Z) I). intros i' e'. cbn [DataChannel.set_pc d_pc].
        destruct (upd_case (upd (d_pc (t_ch t 0)) i (DataChannel.PRet (OSend e) RSuccess)) j i' (DataChannel.PRet ORecv (REvent e))) as [[-> ->]|[_ ->]]; [discriminate|].
        destruct (upd_case (d_pc (t_ch t 0)) i i' (DataChannel.PRet (OSend e) RSuccess)) as [[-> ->]|[_ ->]]; [discriminate|auto].
      + apply (chan_settled t _ _ Q N (DataChannel.s_put _ i e K E ltac:(rewrite B; cbn; lia)) I). intros i' e'. cbn [d_pc].
        destruct (upd_case (d_pc (t_ch t 0)) i i' (DataChannel.PRet (OSend e) RSuccess)) as [[-> ->]|[_ ->]]; [discriminate|auto].
    - apply (chan_settled t _ _ Q N (DataChannel.r_open _ i K E F) I). intros i' e'. cbn [DataChannel.set_pc d_pc]. destruct (upd_case (d_pc (t_ch t 0)) i i' (PRecv : DataChannel.pc A)) as [[-> ->]|[_ ->]]; [discriminate|auto].
    - specialize (Op i). rewrite E in Op. exact Op.
    - specialize (Op i). rewrite E in Op. exact Op.
    - destruct o as [e| |]; auto. destruct (can_return n0 t i e r L P E) as (t' & St & Z). apply (Q _ _ St I). intros i' e' X. rewrite Z in X. destruct (Nat.eqb i' i); [discriminate|exact X].
  Qed.
  Lemma settled_gors tr t j : Topic.runs tr t -> lean n0 t -> paired t -> settled t -> d_pc (t_ch t 0) j = PRecv -> d_buf (t_ch t 0) = [] -> forall g, g_pc (t_g t g) = GNone \/ exists b, g_pc (t_g t g) = GOver b.
  Proof.
    intros R L P Q J B g. pose proof L as (N & _ & (F & Cl & K & Op) & _ & G). pose proof (settled_pcs t j L P Q J B) as Pc.
    destruct (g_pc (t_g t g)) as [| | | | |b|b] eqn:E; eauto; exfalso.
    - destruct (send_idle _ _ g R E) as [I0 C0]. destruct (published_event _ _ R (g_pub (t_g t g))) as [e' E'].
      { intros Z. assert (Y := visit_late _ _ _ _ _ _ R (gor_visit _ _ g R ltac:(congruence))). rewrite Z in Y. discriminate. }
      apply (Q _ _ (g_call t g e' _ E E' (DataChannel.c_send _ (sid g) e' C0 I0)) I). destruct (G g) as [X|[_ X]]; [congruence|]. intros i e. cbn [put_g put_ch t_ch]. rewrite X, upd_eq. cbn [DataChannel.set_pc d_pc].
      destruct (upd_case (d_pc (t_ch t 0)) (sid g) i (PSend e')) as [[-> ->]|[_ ->]]; [discriminate|auto].
    - pose proof (runs_gors _ _ R g) as Gs. apply gstage_inv in Gs. rewrite E in Gs. destruct Gs as [e' Gs].
      assert (Sb : TopicProofs.sub tr (g_name (t_g t g)) (g_chan (t_g t g))) by (apply (n_gor _ _ (runs_names _ _ R)); congruence).
      pose proof (n_less _ _ (runs_names _ _ R) _ _ Sb) as Ln. destruct (proj1 (runs_chans _ _ R) _ Ln) as [cap D].
      assert (Hc : In (DataChannel.ECall (sid g) (OSend e')) (chan_trace (g_chan (t_g t g)) tr)) by (apply ct_in, (in_gproj g); rewrite Gs; cbn; auto).
      destruct (G g) as [X|[_ X]]; [congruence|]. specialize (Pc (sid g)).
      destruct (DataChannelProofs.called_stage _ _ _ _ _ D Hc) as [Y|[r Y]].
      + intros r Y. apply ct_in in Y. assert (Z : In (TChan (g_chan (t_g t g)) (DataChannel.ERet (sid g) (OSend e') r)) (gproj g tr)) by (apply in_gproj; split; [exact Y|cbn; apply Nat.eqb_refl]). rewrite Gs in Z. cbn in Z. intuition discriminate.
      + rewrite X in Y. rewrite Y in Pc. exact Pc.
      + rewrite X in Y. rewrite Y in Pc. exact Pc.
    - apply (Q _ _ (g_add t g E) I). now apply keeps_same.
    - destruct (G g) as [X|[X _]]; congruence.
    - apply (Q _ _ (g_done t g b E) I). now apply keeps_same.
  Qed.
  Lemma settled_pubs tr t j : Topic.runs tr t -> lean n0 t -> paired t -> settled t -> d_pc (t_ch t 0) j = PRecv -> d_buf (t_ch t 0) = [] -> forall p, p_phase (t_pub t p) = DNone \/ p_phase (t_pub t p) = DRemove.
  Proof.
    intros R L P Q J B p. pose proof (settled_gors tr t j R L P Q J B) as G. destruct (p_phase (t_pub t p)) eqn:E; auto; exfalso.
    - apply (Q _ _ (range t p E) I). now apply keeps_same.
    - destruct (p_must (t_pub t p)) as [|n m] eqn:M; [apply (Q _ _ (range_end t p E M) I); now apply keeps_same|]. destruct (runs_due _ _ R p E n) as [[c C] V]; [rewrite M; now left|].
      destruct (fresh_gor _ _ R) as [g Gn]. apply (Q _ _ (visit t p g n c E C V Gn) I). now apply keeps_same.
    - assert (W : p_wg (t_pub t p) = 0).
      { rewrite (proj1 (runs_counts _ _ R p)). unfold tally. rewrite (filter_ext _ (fun _ => false)); [induction (gors p tr); auto|]. intros g. destruct (G g) as [Z|[b Z]]; now rewrite Z. }
      apply (Q _ _ (wait_over t p E W) I). now apply keeps_same.
    - apply (Q _ _ (result t p E) I). now apply keeps_same.
    - apply (Q _ _ (close_ch t p E) I). now apply keeps_same.
    - apply (Q _ _ (spawn t p E) I). now apply keeps_same.
  Qed.
End Topic.

(* ---- whose calls the calls of a connection are ---- *)
Definition tag (p : Conn.pc) : option Conn.op :=
  match p with
  | PResetR | PReading => Some ORead
  | PChkW b | PResetW b | PWriting b => Some (OWrite b)
  | Conn.PCas true | PMsg true | PTcp true | PChan true => Some Conn.OClose
  | Conn.PRet o _ => Some o
  | _ => None
  end.
Lemma tag_step t l t' : Conn.step t l t' -> forall j o, tag (c_pc t' j) = Some o -> (tag (c_pc t j) = Some o /\ forall r, l <> Some (Conn.ERet j o r)) \/ l = Some (Conn.ECall j o).
Proof.
  intros St j o. destruct St; cbn [c_pc Conn.set_pc];
    try match goal with |- context [upd (upd (c_pc ?s0) ?k ?x) ?k2 ?x2 j] => destruct (upd_case (upd (c_pc s0) k x) k2 j x2) as [[-> ->]|[_ ->]]; [discriminate|] end;
    try match goal with |- context [upd (c_pc ?s0) ?k ?x j] => destruct (upd_case (c_pc s0) k j x) as [[-> ->]|[? ->]] end;
    try (intros E; left; split; [exact E|congruence]);
    try match goal with P : c_pc _ _ = _ |- _ => rewrite P end; cbn [tag]; unfold won, lost; try discriminate.
  - destruct o0; cbn; intros [= <-]; auto.
  - intros E. left. split; [exact E|discriminate].
  - intros E. left. split; [exact E|discriminate].
  - intros E. left. split; [exact E|discriminate].
  - intros E. left. split; [exact E|discriminate].
  - intros E. left. split; [exact E|discriminate].
  - destruct (c_flag s); discriminate.
  - destruct (c_flag s); intros E; left; (split; [exact E|discriminate]).
  - intros E. left. split; [exact E|discriminate].
  - intros E. left. split; [exact E|discriminate].
  - intros E. left. split; [exact E|discriminate].
  - destruct x; intros E; left; (split; [exact E|discriminate]).
  - destruct x; intros E; left; (split; [exact E|discriminate]).
  - destruct x; intros E; left; (split; [exact E|discriminate]).
  - destruct x; intros E; left; (split; [exact E|discriminate]).
  - destruct x; intros E; left; (split; [exact E|discriminate]).
Qed.
Lemma tag_stays t l t' : Conn.step t l t' -> forall j o, tag (c_pc t j) = Some o -> (forall r, l <> Some (Conn.ERet j o r)) -> tag (c_pc t' j) = Some o.
Proof.
  intros St j o. destruct St; cbn [c_pc Conn.set_pc];
    try match goal with Pj : c_pc ?s0 ?k2 = Conn.PIdle |- context [upd (upd (c_pc ?s0) ?k ?x) ?k2 ?x2 j] => destruct (upd_case (upd (c_pc s0) k x) k2 j x2) as [[-> ->]|[_ ->]]; [rewrite Pj; discriminate|] end;
    try match goal with |- context [upd (c_pc ?s0) ?k ?x j] => destruct (upd_case (c_pc s0) k j x) as [[-> ->]|[? ->]] end; auto;
    try match goal with P : c_pc _ _ = _ |- _ => rewrite P end; cbn [tag]; unfold won, lost; try discriminate; auto.
  - intros [= ->] N. exfalso. exact (N _ eq_refl).
  - destruct (c_flag s); auto.
  - destruct x; auto; discriminate.
  - destruct x; auto; discriminate.
Qed.
Definition owned (s : state) : Prop := forall c i o, tag (c_pc (s_conn s c) i) = Some o ->
  match o with
  | ORead => exists k, s_rd s c = RIn k i
  | OWrite b => exists k r, s_wrk s = WIn c i k r /\ b = encode r
  | Conn.OClose => False
  end.
Lemma reader_dec (r : reader) : r = RNone \/ r <> RNone.
Proof. destruct r; auto; right; discriminate. Qed.
Section Idle.
  Context (cl : bool) (d0 : db) (input : nat -> bytes) (e0 : env).
  Implicit Types (s : state) (tr : list event).
  Lemma req_settled s : rests cl s -> s_crash s = false -> settled (s_req s).
  Proof.
    intros Z C l t St F K. apply (Z (option_map SReq l) (set_req s t)). split; [split; [exact C|exact (req_free cl s l t F St)]|].
    intros [(c & Y)|[(c & j & P & Q)|[(Y & _)|[(c & Y)|[Y|[(j & e & P & Q)|[Y W]]]]]]]; unf; try (destruct l; discriminate); try contradiction; try congruence. exact (keeps_live _ _ K Y).
  Qed.
  Lemma rsp_settled s : rests cl s -> s_crash s = false -> settled (s_rsp s).
  Proof.
    intros Z C l t St F K. apply (Z (option_map SRsp l) (set_rsp s t)). split; [split; [exact C|exact (rsp_free cl s l t F St)]|].
    intros [(c & Y)|[(c & j & P & Q)|[(Y & _)|[(c & Y)|[(j & e & P & Q)|[Y|[Y W]]]]]]]; unf; try (destruct l; discriminate); try contradiction; try congruence. exact (keeps_live _ _ K Y).
  Qed.
  Lemma runs_owned tr s : runs cl d0 input tr s -> owned s.
  Proof.
    revert tr s. apply runs_ind'; [intros c [|i] o; discriminate|]. intros tr s l s' R IH M c0 i0 o0. specialize (IH c0 i0 o0).
    moves M; unf; try exact IH.
    1,5,6: intros Tg; specialize (IH Tg); destruct o0; auto; destruct IH as [k0 IH]; exists k0; rewrite upd_ne by congruence; exact IH.
    4,5,6: intros Tg; specialize (IH Tg); destruct o0; auto; destruct IH as (k0 & r0 & IH & _); congruence.
    all: destruct (Nat.eq_dec c0 c) as [->|N]; [rewrite !upd_eq; intros Tg; destruct (tag_step _ _ _ St _ _ Tg) as [[Tg' L]|L]|rewrite ?upd_ne by exact N; intros Tg; specialize (IH Tg)].
    - specialize (IH Tg'). destruct o0; auto. destruct IH; congruence.
    - injection L as <- <-. eauto.
    - exact IH.
    - specialize (IH Tg'). destruct o0; auto. destruct IH as [k0 IH]. rewrite P in IH. injection IH as <- <-. exfalso. eapply L. reflexivity.
    - discriminate.
    - exact IH.
    - specialize (IH Tg'). destruct o0; auto. destruct IH as [k0 IH]. rewrite P in IH. injection IH as <- <-. exfalso. eapply L. reflexivity.
    - discriminate.
    - exact IH.
    - specialize (IH Tg'). destruct o0; auto. destruct IH as (k0 & r0 & IH & _). congruence.
    - injection L as <- <-. eauto.
    - destruct o0; auto. destruct IH as (k0 & r0 & IH & _). congruence.
    - specialize (IH Tg'). destruct o0; auto. destruct IH as (k0 & r0 & IH & ->). rewrite P in IH. injection IH as <- <- <-. exfalso. eapply L. reflexivity.
    - discriminate.
    - destruct o0; auto. destruct IH as (k0 & r0 & IH & _). rewrite P in IH. injection IH as <- _ _ _. congruence.
    - exact (IH Tg').
    - subst. contradiction.
    - exact IH.
  Qed.
  Lemma reads_in tr s : runs cl d0 input tr s -> forall c k i, s_rd s c = RIn k i -> tag (c_pc (s_conn s c) i) = Some ORead.
  Proof.
    revert tr s. apply (runs_ind' cl d0 input (fun _ s => forall c k i, s_rd s c = RIn k i -> tag (c_pc (s_conn s c) i) = Some ORead)); [discriminate|]. intros tr s l s' R IH M c0 k0 i0. specialize (IH c0 k0 i0).
    moves M; unf; try exact IH.
    all: destruct (Nat.eq_dec c0 c) as [->|N]; [rewrite ?upd_eq; try discriminate|rewrite ?upd_ne by exact N; exact IH].
    - intros [= <- <-]. inversion St; subst. cbn. rewrite upd_eq. reflexivity.
    - intros E. apply (tag_stays _ _ _ St); [exact (IH E)|discriminate].
    - intros E. apply (tag_stays _ _ _ St); [exact (IH E)|discriminate].
    - intros E. apply (tag_stays _ _ _ St); [exact (IH E)|]. intros r0 ->. contradiction.
  Qed.
  Lemma conn_still s c l t i p : rests cl s -> s_crash s = false -> s_rd s c <> RNone -> Conn.step (s_conn s c) l t -> free_conn l -> l <> Some Conn.ETimer ->
    c_pc (s_conn s c) i <> PReading -> c_pc t = upd (c_pc (s_conn s c)) i p -> False.
  Proof.
    intros Z C N St F NT Nr E. apply (Z (option_map (SConn c) l) (put_conn s c t)). split; [split; [exact C|exact (conn_free cl s c l t N F St)]|].
    intros [(c' & Y)|[(c' & j & P & Q)|[(Y & _)|[(c' & Y)|[(j & e & P & Q)|[(j & e & P & Q)|[Y W]]]]]]]; unf; try (destruct l; discriminate); try contradiction; try congruence.
    - destruct (Nat.eq_dec c' c) as [->|Nc]; [|rewrite upd_ne in Q by exact Nc; contradiction]. rewrite upd_eq, E in Q. destruct (Nat.eq_dec j i) as [->|Nj]; [contradiction|]. rewrite upd_ne in Q by exact Nj. contradiction.
    - destruct l as [l|]; [|discriminate]. cbn in Y. injection Y as <- ->. contradiction.
  Qed.
  Lemma conn_pcs tr s c : runs cl d0 input tr s -> rests cl s -> s_crash s = false -> s_rd s c <> RNone -> (exists j, s_wrk s = WWait j) -> forall i,
    match c_pc (s_conn s c) i with
    | Conn.PIdle | Conn.PDone | PReading => True
    | Conn.PLoop => c_chan (s_conn s c) = false
    | PResetR => c_pc (s_conn s c) 0 <> Conn.PLoop
    | Conn.PRet ORead ROk => forall q r, parse (s_in s c) <> POk q r
    | _ => False
    end.
  Proof.
    intros R Z C N [jw W] i. destruct (runs_parts _ _ _ _ _ R) as (_ & _ & PC). specialize (PC c). pose proof (ConnProofs.runs_inv _ _ PC) as Iv. destruct (ConnProofs.i_alive _ _ Iv) as [K _].
    pose proof (runs_owned _ _ R c i) as O. assert (S0 : forall l t p, Conn.step (s_conn s c) l t -> free_conn l -> l <> Some Conn.ETimer -> c_pc (s_conn s c) i <> PReading -> c_pc t = upd (c_pc (s_conn s c)) i p -> False) by (intros; eapply conn_still; eassumption).
    destruct (c_pc (s_conn s c) i) as [| | |b| |b|b| |x|x|x|x|o r|] eqn:P; try exact I; cbn [tag] in O; try (destruct (O _ eq_refl) as (? & ? & ? & _); congruence); try (destruct x; [destruct (O _ eq_refl)|]).
    - pose proof (only_worker _ _ PC i P) as ->. destruct (c_chan (s_conn s c)) eqn:D; [|reflexivity]. exfalso. eapply S0; [exact (w_closed _ K P D)|exact I|discriminate|discriminate|reflexivity].
    - intros L. eapply S0; [exact (reset_r _ i K P L)|exact I|discriminate|discriminate|reflexivity].
    - eapply S0; [exact (r_chk _ i K P)|exact I|discriminate|discriminate|reflexivity].
    - destruct (c_flag (s_conn s c)) eqn:F.
      + eapply S0; [exact (x_lose _ i _ K P F)|exact I|discriminate|discriminate|reflexivity].
      + eapply S0; [exact (x_win _ i _ K P F)|exact I|discriminate|discriminate|reflexivity].
    - assert (Y : prefix_of [] close_message) by (exists close_message; reflexivity). eapply S0; [exact (x_msg _ i _ [] K P Y)|exact I|discriminate|discriminate|reflexivity].
    - eapply S0; [exact (x_tcp _ i _ K P)|exact I|discriminate|discriminate|reflexivity].
    - destruct (c_chan (s_conn s c)) eqn:D; [exact (proj2 (proj2 (proj2 (proj2 (i_chan _ _ Iv D)) i _)) P)|]. eapply S0; [exact (x_chan _ i _ K P D)|exact I|discriminate|discriminate|reflexivity].
    - destruct o as [|b|]; [|destruct (O _ eq_refl) as (? & ? & ? & _); congruence|exact (O _ eq_refl)]. destruct (O _ eq_refl) as [k Rd]. pose proof (Conn.ret_ _ i _ r K P) as St.
      assert (Q : forall l s', move cl s l s' -> s_conn s' = upd (s_conn s) c (Conn.set_pc (s_conn s c) i Conn.PDone) -> s_req s' = s_req s -> s_rsp s' = s_rsp s -> s_stop s' = s_stop s ->
        (forall c0, l <> Some (SConn c0 Conn.ETimer)) -> l <> Some SCrash -> (forall c0, l <> Some (SAccept c0)) -> False).
      { intros l s' M E1 E2 E3 E4 L1 L2 L3. apply (Z l s'). split; [exact (conj C M)|].
        intros [(c' & Y)|[(c' & j & P' & Q)|[(Y & _)|[(c' & Y)|[(j & e & P' & Q)|[(j & e & P' & Q)|[Y X]]]]]]]; try congruence.
        rewrite E1 in Q. destruct (Nat.eq_dec c' c) as [->|Nc]; [|rewrite upd_ne in Q by exact Nc; contradiction]. rewrite upd_eq in Q. cbn in Q. destruct (Nat.eq_dec j i) as [->|Nj]; [congruence|]. rewrite upd_ne in Q by exact Nj. contradiction. }
      destruct r.
      + intros q r E. apply (Q _ _ (read_obj cl s c k i _ q r Rd St E)); first [reflexivity|discriminate].
      + apply (Q _ _ (read_err cl s c k i _ Conn.RErrClosed Rd ltac:(discriminate) St)); first [reflexivity|discriminate].
      + apply (Q _ _ (read_err cl s c k i _ Conn.RErr Rd ltac:(discriminate) St)); first [reflexivity|discriminate].
  Qed.
  Lemma gstep_rests s l s' : rests cl s -> gstep cl s l s' -> False.
  Proof. intros Z G. exact (Z _ _ (gstep_own _ _ _ _ G)). Qed.
  Lemma won_conn tr c : closed_by_us tr c <-> winner (conn_trace c tr).
  Proof.
    split; intros [i H]; exists i.
    - apply in_conn. auto.
    - apply in_conn in H as [H|[(? & ? & ? & H & _)|(? & ? & ? & H & _)]]; [exact H|discriminate|discriminate].
  Qed.
  Theorem at_idle tr s : runs cl d0 input tr s -> rests cl s -> s_crash s = false -> s_stop s = XNone -> unblocked s ->
    (forall c k q, s_eng s = EHas c k q -> handle e0 (s_db s) q <> NoFuel) ->
    (forall x, here s x -> idles tr s x) /\ d_buf (t_ch (s_req s) 0) = [] /\ d_buf (t_ch (s_rsp s) 0) = [].
  Proof.
    intros R Z C X U NF. assert (G : good cl d0 input tr s) by (split; auto).
    destruct (drain cl d0 input tr s G U) as (tr1 & s1 & E1 & _ & Rd). destruct (rest_stays _ _ _ _ Z E1) as [-> ->]. destruct Rd as (Bp & jw & W & Pw).
    destruct (listen cl d0 input e0 tr s G) as (tr2 & s2 & E2 & Ls). destruct (rest_stays _ _ _ _ Z E2) as [-> ->].
    destruct Ls as [(c' & k' & q' & Eg & St)|[_ (je & Eg & Pe)]].
    { exfalso. destruct (handle e0 (s_db s) q') as [[d' o]| |] eqn:Hd; [exact (St _ _ eq_refl)| |exact (NF _ _ _ Eg Hd)].
      apply (Z (Some SCrash) (crash s)). split; [split; [exact C|exact (eng_panic cl s c' k' q' e0 Eg Hd)]|].
      intros [(? & Y)|[(? & j & P & Q)|[(_ & Y)|[(? & Y)|[(j & e' & P & Q)|[(j & e' & P & Q)|[_ Y]]]]]]]; try discriminate; unf; try contradiction; try congruence. }
    assert (Bq : d_buf (t_ch (s_req s) 0) = []).
    { destruct (runs_parts _ _ _ _ _ R) as (T & _ & _). destruct (runs_chans _ _ T) as [Ch _]. destruct (req_cap _ _ _ _ _ R) as [L Zc]. destruct (Ch 0 L) as (cap & D). destruct (DataChannelProofs.fifo _ _ _ D) as [_ F].
      destruct (DataChannelProofs.i_cap _ _ _ (DataChannelProofs.runs_inv _ _ _ D)) as [E _]. rewrite <- E, Zc in F. destruct (d_buf (t_ch (s_req s) 0)); [reflexivity|cbn in F; lia]. }
    split; [|split; assumption].
    destruct (runs_parts _ _ _ _ _ R) as (T1 & T2 & PC). destruct (runs_leans _ _ _ _ _ R) as (L1 & L2 & L3). destruct (runs_paired _ _ _ _ _ R) as [P1 P2].
    pose proof (req_settled _ Z C) as Q1. pose proof (rsp_settled _ Z C) as Q2. destruct (before_stop _ _ _ _ _ R X) as (Zr & _ & _).
    intros [| |c|c|c i|p|p|g|g] H; cbn [here idles] in *.
    - eauto.
    - eauto.
    - destruct H as [H1 H2]. pose proof (conn_pcs tr s c R Z C H1 (ex_intro _ _ W)) as Pc. destruct (s_rd s c) as [|k|k i|k q|] eqn:E; try congruence.
      + exfalso. destruct (conn_finite _ _ (PC c)) as [n Fn]. destruct (ConnProofs.i_alive _ _ (ConnProofs.runs_inv _ _ (PC c))) as [Al _].
        pose proof (read_call cl s c k n _ E (Conn.call _ n ORead Al (Fn n (le_n n)))) as M. eapply Z. split; [exact (conj C M)|].
        intros [(? & Y)|[(c' & j & P & Q)|[(Y & _)|[(? & Y)|[(j & e' & P & Q)|[(j & e' & P & Q)|[_ Y]]]]]]]; try discriminate; unf; try contradiction; try congruence.
        destruct (Nat.eq_dec c' c) as [->|Nc]; [|rewrite upd_ne in Q by exact Nc; contradiction]. rewrite upd_eq in Q. cbn in Q. pose proof (Fn n (le_n n)). destruct (Nat.eq_dec j n) as [->|Nj]; [congruence|]. rewrite upd_ne in Q by exact Nj. contradiction.
      + exists k, i. split; [reflexivity|]. pose proof (reads_in _ _ R _ _ _ E) as Tg. specialize (Pc i) as Pi. destruct (c_pc (s_conn s c) i) as [| | |b| |b|b| |x|x|x|x|o r|] eqn:P; try discriminate; try contradiction; auto.
        * right. left. split; [reflexivity|]. apply won_conn. pose proof (worker_gone _ _ (PC c)) as Wg. specialize (Pc 0). destruct (c_pc (s_conn s c) 0) as [| | | | | | | |[]|[]|[]|[]| |]; tauto.
        * destruct o as [|b|]; try contradiction. destruct r; try contradiction. auto.
      + exfalso. destruct (fresh _ _ T1) as (p & _ & _ & Fp & _). pose proof (Server.publish cl s c k q p _ E ltac:(unfold unlocked; now rewrite X) Zr (Topic.publish _ p (QRequest c k q) Fp)) as M.
        eapply Z. split; [exact (conj C M)|].
        intros [(? & Y)|[(c' & j & P & Q)|[(Y & _)|[(? & Y)|[(j & e' & P & Q)|[(j & e' & P & Q)|[_ Y]]]]]]]; try discriminate; unf; try contradiction; try congruence; cbn in *; try congruence; try contradiction.
    - destruct H as [H1 H2]. pose proof (conn_pcs tr s c R Z C H1 (ex_intro _ _ W)) as Pc. pose proof (worker_gone _ _ (PC c)) as Wg. specialize (Pc 0) as P0.
      destruct (c_pc (s_conn s c) 0) as [| | | | | | | |[]|[]|[]|[]| |] eqn:P; try contradiction; try (now destruct H2). split; [reflexivity|]. rewrite won_conn. intros Wn.
      apply (i_flag _ _ (ConnProofs.runs_inv _ _ (PC c))) in Wn. destruct (flag_chan _ _ (PC c) Wn) as [D|(i & x & D)]; [congruence|]. specialize (Pc i). destruct D as [D|[D|D]]; rewrite D in Pc; contradiction.
    - destruct H as [H1 H2]. destruct (reader_dec (s_rd s c)) as [N|N].
      + rewrite (L3 c N) in H2. destruct i as [|i]; [now apply H1|exact H2].
      + pose proof (conn_pcs tr s c R Z C N (ex_intro _ _ W) i) as Pc. destruct (c_pc (s_conn s c) i) as [| | | | | | | |[]|[]|[]|[]| |]; contradiction.
    - apply H. destruct (proj1 (proj2 (proj2 (proj2 L1))) p) as (_ & Lg & Lr & _). split; [exact (settled_pubs _ _ _ _ T1 L1 P1 Q1 Pe Bq p)|auto].
    - apply H. destruct (proj1 (proj2 (proj2 (proj2 L2))) p) as (_ & Lg & Lr & _). split; [exact (settled_pubs _ _ _ _ T2 L2 P2 Q2 Pw Bp p)|auto].
    - destruct H as [H1 H2]. destruct (settled_gors _ _ _ _ T1 L1 P1 Q1 Pe Bq g) as [Y|[b Y]]; [contradiction|exact (H2 _ Y)].
    - destruct H as [H1 H2]. destruct (settled_gors _ _ _ _ T2 L2 P2 Q2 Pw Bp g) as [Y|[b Y]]; [contradiction|exact (H2 _ Y)].
  Qed.
End Idle.
Lemma here_accepted cl d0 input tr s x : runs cl d0 input tr s -> here s x -> idles tr s x -> In x (lasting (accepted tr)).
Proof.
  intros R H Q. destruct (reads_bound _ _ _ _ _ R) as (_ & A & _). unfold lasting.
  assert (K : forall c, s_rd s c <> RNone -> In c (accepted tr)) by (intros c N; destruct (in_dec Nat.eq_dec c (accepted tr)) as [Y|Y]; [exact Y|]; apply A in Y; contradiction).
  destruct x as [| |c|c|c i|p|p|g|g]; cbn [here idles] in *; try contradiction; cbn [In]; auto; right; right; apply in_flat_map; exists c; cbn [In]; destruct H as [H _]; auto.
Qed.
Lemma idle_closed cl d0 input tr s c : runs cl d0 input tr s -> rests cl s -> s_crash s = false -> (exists j, s_wrk s = WWait j) -> closed_by_us tr c -> c_tcp (s_conn s c) = false.
Proof.
  intros R Z C W Wn. destruct (runs_parts _ _ _ _ _ R) as (_ & _ & PC). specialize (PC c). apply won_conn in Wn. pose proof (ConnProofs.runs_inv _ _ PC) as Iv. apply (i_flag _ _ Iv) in Wn.
  destruct (reader_dec (s_rd s c)) as [N|N]; [destruct (runs_leans _ _ _ _ _ R) as (_ & _ & L); rewrite (L c N) in Wn; discriminate|].
  destruct (flag_chan _ _ PC Wn) as [D|(i & x & D)]; [exact (proj1 (i_chan _ _ Iv D))|]. pose proof (conn_pcs cl d0 input tr s c R Z C N W i) as Pc. destruct D as [D|[D|D]]; rewrite D in Pc; contradiction.
Qed.
(* ---- a reader that is left behind ---- *)
Definition left_behind (s : state) (c : nat) : Prop := exists k i, s_rd s c = RIn k i /\ c_pc (s_conn s c) i = PResetR /\ c_pc (s_conn s c) 0 = Conn.PDone.
Lemma behind_conn t l t' i : Conn.step t l t' -> c_pc t i = PResetR -> c_pc t 0 = Conn.PDone -> c_pc t' i = PResetR /\ c_pc t' 0 = Conn.PDone.
Proof.
  intros St P0 P1. assert (Z : forall j, c_pc t j <> PResetR -> c_pc t j <> Conn.PDone -> forall p, upd (c_pc t) j p i = PResetR /\ upd (c_pc t) j p 0 = Conn.PDone).
  { intros j N1 N2 p. split; rewrite upd_ne; congruence. }
  destruct St; cbn [c_pc Conn.set_pc]; try congruence; try (apply Z; congruence).
  - split; rewrite !upd_ne; congruence.
  - split; assumption.
Qed.
Lemma behind_step cl s l s' c0 : left_behind s c0 -> step cl s l s' -> left_behind s' c0.
Proof.
  intros (k0 & i0 & E & P0 & P1) [K M]. assert (Qc : forall c t l0, Conn.step (s_conn s c) l0 t -> c_pc (upd (s_conn s) c t c0) i0 = PResetR /\ c_pc (upd (s_conn s) c t c0) 0 = Conn.PDone).
  { intros c1 t1 l1 St. destruct (Nat.eq_dec c0 c1) as [->|N]; [rewrite upd_eq; exact (behind_conn _ _ _ _ St P0 P1)|rewrite upd_ne by exact N; auto]. }
  moves M; unfold left_behind; unf; try (exists k0, i0; auto; fail); try (exists k0, i0; rewrite upd_ne by congruence; auto; fail); try (exists k0, i0; split; [first [exact E|rewrite upd_ne by congruence; exact E]|eapply Qc; eassumption]; fail).
  - destruct (Nat.eq_dec c c0) as [->|N]; [|exists k0, i0; split; [rewrite upd_ne by congruence; exact E|eapply Qc; eassumption]]. exfalso. rewrite P in E. injection E as -> ->. inversion St; congruence.
  - destruct (Nat.eq_dec c c0) as [->|N]; [|exists k0, i0; split; [rewrite upd_ne by congruence; exact E|eapply Qc; eassumption]]. exfalso. rewrite P in E. injection E as -> ->. inversion St; congruence.
Qed.
Lemma behind_exec cl s tr s' c : left_behind s c -> exec (step cl) s tr s' -> left_behind s' c.
Proof. intros B E. induction E as [|tr s1 s2 E IH St|tr s1 a s2 E IH St]; [exact B|exact (behind_step _ _ _ _ _ IH St)|exact (behind_step _ _ _ _ _ IH St)]. Qed.
(* A reader that is over has had an error. *)
Lemma over_ret cl d0 input tr s c0 : runs cl d0 input tr s -> s_rd s c0 = ROver -> exists i x, In (SConn c0 (Conn.ERet i ORead x)) tr.
Proof.
  revert tr s. apply (runs_ind' cl d0 input (fun tr s => s_rd s c0 = ROver -> exists i x, In (SConn c0 (Conn.ERet i ORead x)) tr)); [discriminate|]. intros tr s l s' R IH M E.
  assert (Z : s_rd s c0 = ROver -> exists i x, In (SConn c0 (Conn.ERet i ORead x)) (ext tr l)) by (intros Y; destruct (IH Y) as (i0 & x0 & H0); exists i0, x0; now apply ext_in).
  clear IH. moves M; unf; try exact (Z E); destruct (Nat.eq_dec c0 c) as [->|Nc]; rewrite ?upd_eq in E; rewrite ?(fun f x => upd_ne f c c0 x Nc) in E; try discriminate; auto.
  cbn. exists i, x. apply in_snoc. auto.
Qed.
