(* Invariants of the whole path of a request. *)
From Coq Require Import List Arith Bool String Lia.
From Verif Require Import Base Lts Resp RespSpec RespProofs Engine Db DataChannel DataChannelProofs Topic TopicProofs Conn ConnProofs ServerSpec Server.
Import ListNotations.
Local Open Scope nat_scope.

(* ---- facts about one topic ---- *)
Section OneTopic.
  Context {A : Type}.
  Implicit Types (tr : list (Topic.event A)) (s : Topic.state A).

  Lemma got_published tr s c j e : Topic.runs tr s -> In (TChan c (DataChannel.ERet j ORecv (REvent e))) tr -> exists p, In (TPublish p e) tr.
  Proof.
    intros R H. destruct (TopicProofs.chan_runs _ _ _ _ R H) as (cap & D). apply TopicProofs.ct_in in H.
    destruct (received_sent _ _ _ _ _ D H) as (i & Hi & _). apply TopicProofs.ct_in in Hi.
    destruct (TopicProofs.send_from _ _ R _ _ _ Hi) as (p & g & n & _ & _ & P). eauto.
  Qed.
  Lemma got_once tr s c j j' e : Topic.runs tr s -> (forall p p', In (TPublish p e) tr -> In (TPublish p' e) tr -> p = p') ->
    In (TChan c (DataChannel.ERet j ORecv (REvent e))) tr -> In (TChan c (DataChannel.ERet j' ORecv (REvent e))) tr -> j = j'.
  Proof.
    intros R U H H'. destruct (TopicProofs.chan_runs _ _ _ _ R H) as (cap & D). apply TopicProofs.ct_in in H. apply TopicProofs.ct_in in H'.
    destruct (received_sent _ _ _ _ _ D H) as (i & Hi & _). pose proof Hi as Hi'. apply TopicProofs.ct_in in Hi'.
    destruct (TopicProofs.send_from _ _ R _ _ _ Hi') as (p & g & n & E1 & V1 & P1).
    refine (received_once _ _ _ i _ _ _ D _ H H'). intros k Hk. apply TopicProofs.ct_in in Hk.
    destruct (TopicProofs.send_from _ _ R _ _ _ Hk) as (p2 & g2 & n2 & E2 & V2 & P2).
    rewrite (U _ _ P2 P1) in V2. rewrite (TopicProofs.visit_once _ _ _ _ _ _ _ _ R V2 V1) in E2. congruence.
  Qed.
End OneTopic.
Lemma ret_twice {A} tr (s : Topic.state A) c j o r s' o' r' : Topic.runs tr s -> Topic.step s (Some (TChan c (DataChannel.ERet j o r))) s' ->
  ~ In (TChan c (DataChannel.ERet j o' r')) tr.
Proof.
  intros R St H. destruct (TopicProofs.chan_runs _ _ _ _ R H) as (cap & D). apply TopicProofs.ct_in in H.
  destruct (DataChannelProofs.returned _ _ _ _ _ _ D H) as [E _].
  assert (exists d, DataChannel.step (t_ch s c) (Some (DataChannel.ERet j o r)) d) as (d & X).
  { inversion St; subst; eauto. destruct l; [|discriminate]. cbn in *. match goal with Q : Some _ = Some _ |- _ => inversion Q; subst end. eauto. }
  inversion X; subst. rewrite E in *. discriminate.
Qed.

(* Bytes on a connection: of a Write, or of the closing message. *)
Lemma out_of tr s i p : Conn.runs tr s -> In (Conn.EOut i p) tr -> (exists b, In (Conn.ECall i (OWrite b)) tr /\ prefix_of p b) \/ prefix_of p close_message.
Proof.
  intros R. revert i p. unfold Conn.runs in R. induction R as [|tr s1 s2 H IH St|tr s1 a s2 H IH St]; [easy|exact IH|].
  intros i p Hi. apply in_snoc in Hi as [Hi| <-].
  { destruct (IH _ _ Hi) as [(b & X & Y)|X]; [left; exists b; split; auto; apply in_snoc; auto|auto]. }
  pose proof (i_stage _ _ (ConnProofs.runs_inv _ _ H) i) as Q. inversion St; subst.
  - match goal with P : c_pc _ i = _ |- _ => rewrite P in Q end. cbn in Q. left. exists p. split; [|exists []; symmetry; apply app_nil_r].
    apply in_snoc. left. apply (in_about i). rewrite Q. now left.
  - match goal with P : c_pc _ i = _ |- _ => rewrite P in Q end. cbn in Q. left. exists b. split; [|assumption].
    apply in_snoc. left. apply (in_about i). rewrite Q. now left.
  - now right.
Qed.

(* ---- runs of the server ---- *)
Definition ext (tr : list event) (l : option event) : list event := match l with None => tr | Some a => tr ++ [a] end.
Lemma ext_in tr l a : In a tr -> In a (ext tr l).
Proof. destruct l; cbn; auto. intros. apply in_snoc. auto. Qed.
Lemma ext_inv tr l a : In a (ext tr l) -> In a tr \/ l = Some a.
Proof. destruct l; cbn; auto. intros H. apply in_snoc in H as [H| ->]; auto. Qed.
Lemma flat_ext {B} (f : event -> list B) tr l : flat_map f (ext tr l) = flat_map f tr ++ match l with Some a => f a | None => [] end.
Proof. destruct l; cbn; [|now rewrite app_nil_r]. rewrite flat_map_app. cbn. now rewrite app_nil_r. Qed.
Lemma runs_ind' cl d input (I : list event -> state -> Prop) : I [] (init d input) -> (forall tr s l s', runs cl d input tr s -> I tr s -> move cl s l s' -> I (ext tr l) s') ->
  forall tr s, runs cl d input tr s -> I tr s.
Proof.
  intros H0 Hs tr s H. unfold runs in H. induction H as [|tr s1 s2 H IH St|tr s1 a s2 H IH St]; [exact H0| |].
  - exact (Hs tr s1 None s2 H IH (proj2 St)).
  - exact (Hs tr s1 (Some a) s2 H IH (proj2 St)).
Qed.
Lemma runs_next cl d input tr s l s' : runs cl d input tr s -> s_crash s = false -> move cl s l s' -> runs cl d input (ext tr l) s'.
Proof. intros H C M. destruct l; cbn; [eapply exec_act|eapply exec_tau]; [exact H|now split|exact H|now split]. Qed.

Ltac moves M := destruct M as [s c P|s c k i t P St|s c k i t q r P St Q|s c k i t x P Hx St|s c k i P P' Q|s c k q p t P U T St|s c k q P U T
  |s j t P X St|s P X|s j m t P St|s j t P St|s c k q e d' o P Hd|s c k q e P Hd|s c k r p t P U T St|s c k r P U T
  |s j t P X St|s P X|s j m t P St|s j t P St|s c k r i t P St|s c i k r x t P St
  |s p t P St|s p p' t P Q St|s p P Q|s P Q|s P|s P Q|s l t F St|s l t F St|s c l t P F St].
Ltac unf := cbn [set_req set_rsp put_conn put_in put_rd set_db set_eng set_wrk set_stop crash s_req s_rsp s_conn s_in s_rd s_db s_eng s_wrk s_reqs s_rsps s_stop s_crash] in *.

Definition parts tr s := Topic.runs (req_trace tr) (s_req s) /\ Topic.runs (rsp_trace tr) (s_rsp s) /\ forall c, Conn.runs (conn_trace c tr) (s_conn s c).
Lemma parts_req {B} (n : string) (f : event -> list (Topic.event B)) k tr l (s t : Topic.state B) x : Topic.runs (TSubscribe n 0 k :: flat_map f tr) s -> Topic.step s x t ->
  match l with Some a => f a | None => [] end = match x with Some a => [a] | None => [] end -> Topic.runs (TSubscribe n 0 k :: flat_map f (ext tr l)) t.
Proof.
  intros R St E. rewrite flat_ext, E, app_comm_cons. destruct x; [exact (exec_act _ _ _ _ _ _ R St)|]. rewrite app_nil_r. exact (exec_tau _ _ _ _ _ R St).
Qed.
Lemma parts_same {B} (n : string) (f : event -> list (Topic.event B)) k tr l (s : Topic.state B) : Topic.runs (TSubscribe n 0 k :: flat_map f tr) s ->
  match l with Some a => f a | None => [] end = [] -> Topic.runs (TSubscribe n 0 k :: flat_map f (ext tr l)) s.
Proof. intros R E. now rewrite flat_ext, E, app_nil_r. Qed.
Lemma conn_req c tr l (s t : Conn.state) x : Conn.runs (conn_trace c tr) s -> Conn.step s x t ->
  match l with Some a => on_conn c a | None => [] end = match x with Some a => [a] | None => [] end -> Conn.runs (conn_trace c (ext tr l)) t.
Proof.
  unfold conn_trace. intros R St E. rewrite flat_ext, E. destruct x; [exact (exec_act _ _ _ _ _ _ R St)|]. rewrite app_nil_r. exact (exec_tau _ _ _ _ _ R St).
Qed.
Lemma conn_same c tr l (s : Conn.state) : Conn.runs (conn_trace c tr) s -> match l with Some a => on_conn c a | None => [] end = [] -> Conn.runs (conn_trace c (ext tr l)) s.
Proof. unfold conn_trace. intros R E. now rewrite flat_ext, E, app_nil_r. Qed.
Lemma eqb_ne i j : j <> i -> Nat.eqb i j = false.
Proof. intros H. apply Nat.eqb_neq. congruence. Qed.
Ltac dupd i j := destruct (Nat.eq_dec j i) as [->|?]; [rewrite ?(upd_eq _ i) in *|rewrite ?(upd_ne _ i j) in * by assumption].

Lemma runs_parts cl d input tr s : runs cl d input tr s -> parts tr s.
Proof.
  apply runs_ind'.
  - split; [|split]; [| |intros c; constructor]; apply exec_one; cbn.
    + exact (Topic.subscribe Topic.init "engine" 0).
    + exact (Topic.subscribe Topic.init "server" 100).
  - clear. intros tr s l s' _ (R & W & C) M. unfold parts. moves M; unf; (split; [|split; [|intros c'; try (dupd c c')]]); unfold req_trace, rsp_trace in *.
    all: try (apply parts_same; [eassumption|reflexivity]); try (eapply parts_req; [eassumption|eassumption|reflexivity]).
    all: try (apply conn_same; [apply C|cbn; rewrite ?eqb_ne by assumption; reflexivity]).
    all: try (eapply conn_req; [apply C|eassumption|cbn; rewrite ?Nat.eqb_refl; reflexivity]).
    all: match goal with _ : free ?l |- _ => destruct l | _ : free_conn ?l |- _ => destruct l end; try (apply parts_same; [eassumption|reflexivity]); try (eapply parts_req; [eassumption|eassumption|reflexivity]).
    all: try (apply conn_same; [apply C|cbn; rewrite ?eqb_ne by assumption; reflexivity]).
    all: try (eapply conn_req; [apply C|eassumption|cbn; rewrite ?Nat.eqb_refl; reflexivity]).
Qed.

(* ---- reading ---- *)
Lemma reads_in c tr k q : In (k, q) (reads c tr) <-> exists i, In (SRead c i k q) tr.
Proof.
  unfold reads. rewrite in_flat_map. split.
  - intros (a & Ha & X). destruct a; try easy. cbn in X. destruct (Nat.eqb_spec c0 c); [|easy]. destruct X as [X|[]]. inversion X; subst. eauto.
  - intros (i & H). exists (SRead c i k q). split; [exact H|]. cbn. rewrite Nat.eqb_refl. now left.
Qed.
Definition count_ok c tr (r : reader) : Prop := match r with
  | RNone => reads c tr = [] | RIdle k | RIn k _ => List.length (reads c tr) = k
  | RPub k q => List.length (reads c tr) = S k /\ In (k, q) (reads c tr) | ROver => True end.
Definition reads_ok input tr s := forall c, objects (input c) (map snd (reads c tr)) (s_in s c) /\ map fst (reads c tr) = seq 0 (List.length (reads c tr)) /\ count_ok c tr (s_rd s c).
Lemma reads_ext c tr l : reads c (ext tr l) = reads c tr ++ match l with Some a => read_of c a | None => [] end.
Proof. apply flat_ext. Qed.
Lemma count_same c tr l r : match l with Some a => read_of c a | None => [] end = [] -> count_ok c tr r -> count_ok c (ext tr l) r.
Proof. intros E. unfold count_ok. now rewrite reads_ext, E, app_nil_r. Qed.
Lemma reads_frame input tr s l s' : reads_ok input tr s -> (forall c i k q, l <> Some (SRead c i k q)) -> s_in s' = s_in s ->
  (forall c, count_ok c tr (s_rd s c) -> count_ok c tr (s_rd s' c)) -> reads_ok input (ext tr l) s'.
Proof.
  intros I N E F c. assert (match l with Some a => read_of c a | None => [] end = []) as X.
  { destruct l as [a|]; [|reflexivity]. destruct a; try reflexivity. exfalso. eapply N. reflexivity. }
  rewrite reads_ext, X, app_nil_r, E. destruct (I c) as (A & B & D). split; [|split]; auto. apply count_same; auto.
Qed.
Lemma runs_reads cl d input tr s : runs cl d input tr s -> reads_ok input tr s.
Proof.
  revert tr s. apply runs_ind'.
  - intros c. split; [constructor|split; reflexivity].
  - intros tr s l s' _ I M. moves M;
      try (apply (reads_frame _ _ _ _ _ I); [first [easy|now destruct l]|reflexivity|intros c'; unf; try (dupd c c'); try tauto]).
    + rewrite P. cbn. now intros ->.
    + now rewrite P.
    + intros c'. unf. rewrite reads_ext. cbn [read_of]. dupd c c'.
      * rewrite Nat.eqb_refl. destruct (I c) as (A & B & D). rewrite P in D. cbn in D. rewrite !map_app, app_length, Nat.add_1_r, seq_S. cbn [map snd fst List.length Nat.add]. split; [|split].
        -- econstructor; eassumption.
        -- now rewrite B, D.
        -- cbn [count_ok]. rewrite reads_ext. cbn [read_of]. rewrite Nat.eqb_refl, app_length, D, in_app_iff. cbn. split; [lia|auto].
      * rewrite eqb_ne by assumption. rewrite app_nil_r. destruct (I c') as (A & B & D). split; [|split]; auto. apply count_same; auto. cbn. now rewrite eqb_ne.
    + now rewrite P.
    + rewrite P. cbn. tauto.
    + rewrite P. cbn. tauto.
Qed.

(* ---- publishing requests ---- *)
Definition gone_by (r : reader) k : Prop := match r with RNone => False | RIdle k' | RIn k' _ | RPub k' _ => k < k' | ROver => True end.
Definition pubs_ok tr s := (forall p c k q, In (SReq (TPublish p (QRequest c k q))) tr -> In (k, q) (reads c tr) /\ gone_by (s_rd s c) k) /\
  (forall p p' c k q q', In (SReq (TPublish p (QRequest c k q))) tr -> In (SReq (TPublish p' (QRequest c k q'))) tr -> p = p' /\ q = q').
Lemma pubs_frame tr s l s' : pubs_ok tr s -> (forall p c k q, l <> Some (SReq (TPublish p (QRequest c k q)))) ->
  (forall c k, gone_by (s_rd s c) k -> gone_by (s_rd s' c) k) -> pubs_ok (ext tr l) s'.
Proof.
  intros [A B] N F. split.
  - intros p c k q H. apply ext_inv in H as [H|H]; [|exfalso; eapply N; exact H]. destruct (A _ _ _ _ H) as [X Y]. split; [|auto]. rewrite reads_ext. apply in_app_iff. auto.
  - intros p p' c k q q' H H'. apply ext_inv in H as [H|H]; [|exfalso; eapply N; exact H]. apply ext_inv in H' as [H'|H']; [|exfalso; eapply N; exact H']. eauto.
Qed.
Lemma runs_pubs cl d input tr s : runs cl d input tr s -> pubs_ok tr s.
Proof.
  revert tr s. apply runs_ind'.
  - split; intros; easy.
  - intros tr s l s' H I M. pose proof (runs_reads _ _ _ _ _ H) as RO. moves M;
      try (apply (pubs_frame _ _ _ _ I); [first [easy|intros ? ? ? ? X; destruct l as [[]|]; easy]|intros c' k'; unf; try (dupd c c'); try tauto]).
    + rewrite P. cbn. tauto.
    + now rewrite P.
    + now rewrite P.
    + easy.
    + destruct I as [A B]. split.
      * intros p' c' k' q' X. apply ext_inv in X as [X|X].
        -- destruct (A _ _ _ _ X) as [Y Z]. split; [rewrite reads_ext; apply in_app_iff; auto|]. unf. dupd c c'; [|assumption]. rewrite P in Z. cbn in Z |- *. lia.
        -- inversion X; subst. unf. rewrite upd_eq. destruct (RO c') as (_ & _ & D). rewrite P in D. destruct D as [_ D]. split; [rewrite reads_ext; apply in_app_iff; auto|cbn; lia].
      * intros p1 p2 c' k' q1 q2 X Y. apply ext_inv in X as [X|X]; apply ext_inv in Y as [Y|Y].
        -- eauto.
        -- inversion Y; subst. destruct (A _ _ _ _ X) as [_ Z]. rewrite P in Z. cbn in Z. lia.
        -- inversion X; subst. destruct (A _ _ _ _ Y) as [_ Z]. rewrite P in Z. cbn in Z. lia.
        -- inversion X; inversion Y; subst. inversion H6; subst. auto.
    + rewrite P. cbn. lia.
Qed.

(* ---- the engine ---- *)
Definition got_of (a : event) : list (nat * nat * robj) :=
  match a with SReq (TChan 0 (DataChannel.ERet _ ORecv (REvent (QRequest c k q)))) => [(c, k, q)] | _ => [] end.
Definition got (tr : list event) := flat_map got_of tr.
Definition hkey (x : nat * nat * env * robj * option robj) : nat * nat * robj := match x with (c, k, _, q, _) => (c, k, q) end.
Definition hturn (x : nat * nat * env * robj * option robj) : env * robj * option robj := match x with (_, _, e, q, o) => (e, q, o) end.
Definition held (e : engine) : list (nat * nat * robj) := match e with EHas c k q => [(c, k, q)] | _ => [] end.
Definition at_ {B} (f : event -> list B) (l : option event) : list B := match l with Some a => f a | None => [] end.
Lemma flat_at {B} (f : event -> list B) tr l : flat_map f (ext tr l) = flat_map f tr ++ at_ f l.
Proof. apply flat_ext. Qed.
Lemma free_got {A} (l : Topic.event A) c j r : free (Some l) -> l <> TChan c (DataChannel.ERet j ORecv r).
Proof. intros F ->. exact F. Qed.
Lemma eng_step cl s l s' tr : move cl s l s' -> got tr = map hkey (handled tr) ++ held (s_eng s) -> got (ext tr l) = map hkey (handled (ext tr l)) ++ held (s_eng s').
Proof.
  intros M I. unfold got, handled in *. rewrite !flat_at, map_app, I. moves M; unf; cbn [at_ got_of handled_of option_map]; rewrite ?P; cbn [held]; rewrite ?app_nil_r; try reflexivity.
  - destruct m; cbn; now rewrite ?app_nil_r.
  - destruct o; cbn; now rewrite ?app_nil_r.
  - destruct l as [l|]; cbn; rewrite ?app_nil_r; [|reflexivity]. destruct l as [| | |[|c] [|? [] []| | | |]| | |]; cbn; rewrite ?app_nil_r; try reflexivity. now destruct F.
  - destruct l; cbn; now rewrite ?app_nil_r.
  - destruct l; cbn; now rewrite ?app_nil_r.
Qed.
Lemma runs_eng cl d input tr s : runs cl d input tr s -> got tr = map hkey (handled tr) ++ held (s_eng s).
Proof. revert tr s. apply runs_ind'; [reflexivity|]. intros tr s l s' _ I M. eapply eng_step; eassumption. Qed.
Lemma runs_turn cl d input tr s : runs cl d input tr s -> in_turn d (map hturn (handled tr)) (s_db s).
Proof.
  revert tr s. apply runs_ind'; [constructor|]. intros tr s l s' _ I M. unfold handled in *. rewrite flat_at, map_app.
  moves M; unf; cbn [at_ handled_of option_map map]; rewrite ?app_nil_r; try exact I.
  - econstructor; eassumption.
  - destruct l; cbn; now rewrite ?app_nil_r.
  - destruct l; cbn; now rewrite ?app_nil_r.
  - destruct l; cbn; now rewrite ?app_nil_r.
Qed.
Lemma got_in tr c k q : In (c, k, q) (got tr) <-> exists j, In (SReq (TChan 0 (DataChannel.ERet j ORecv (REvent (QRequest c k q))))) tr.
Proof.
  unfold got. rewrite in_flat_map. split.
  - intros (a & Ha & X). destruct a as [|[| | |[|] [|? [] [| | |[]| |]| | | |]| | |]| | | | | |]; try easy. cbn in X. destruct X as [X|[]]. inversion X; subst. eauto.
  - intros (j & H). eexists. split; [exact H|]. now left.
Qed.
Lemma in_req tr l : In l (req_trace tr) <-> (l = TSubscribe "engine" 0 0 \/ In (SReq l) tr).
Proof.
  unfold req_trace. cbn [In]. rewrite in_flat_map. split; [intros [H|(a & Ha & X)]|intros [H|H]].
  - auto.
  - destruct a; try easy. destruct X as [->|[]]. auto.
  - auto.
  - right. exists (SReq l). split; [exact H|now left].
Qed.
Lemma in_rsp tr l : In l (rsp_trace tr) <-> (l = TSubscribe "server" 0 100 \/ In (SRsp l) tr).
Proof.
  unfold rsp_trace. cbn [In]. rewrite in_flat_map. split; [intros [H|(a & Ha & X)]|intros [H|H]].
  - auto.
  - destruct a; try easy. destruct X as [->|[]]. auto.
  - auto.
  - right. exists (SRsp l). split; [exact H|now left].
Qed.
Lemma got_pub cl d input tr s c k q : runs cl d input tr s -> In (c, k, q) (got tr) -> exists p, In (SReq (TPublish p (QRequest c k q))) tr.
Proof.
  intros R H. apply got_in in H as (j & H). destruct (runs_parts _ _ _ _ _ R) as (T & _ & _).
  destruct (got_published _ _ 0 j (QRequest c k q) T) as (p & P); [apply in_req; eauto|]. apply in_req in P as [P|P]; [discriminate|eauto].
Qed.
Lemma got_nodup cl d input tr s : runs cl d input tr s -> NoDup (map fst (got tr)).
Proof.
  intros R. pose proof R as R0. revert tr s R R0. apply (runs_ind' cl d input (fun tr s => runs cl d input tr s -> NoDup (map fst (got tr)))); [constructor|].
  intros tr s l s' R I M R'. specialize (I R). unfold got in *. rewrite flat_at, map_app.
  assert (at_ got_of l = [] \/ exists j c k q, l = Some (SReq (TChan 0 (DataChannel.ERet j ORecv (REvent (QRequest c k q)))))) as [->|(j & c & k & q & ->)].
  { destruct l as [a|]; [|auto]. destruct a as [|[| | |[|] [|? [] [| | |[]| |]| | | |]| | |]| | | | | |]; auto. right. eauto 10. }
  - now rewrite app_nil_r.
  - cbn. apply TopicProofs.nodup_snoc; [exact I|]. intros H. apply in_map_iff in H as ([[c' k'] q'] & E & H). cbn in E. inversion E; subst.
    assert (In (c, k, q) (got (ext tr (Some (SReq (TChan 0 (DataChannel.ERet j ORecv (REvent (QRequest c k q))))))))) as G by (unfold got; rewrite flat_at; apply in_app_iff; right; now left).
    assert (In (c, k, q') (got (ext tr (Some (SReq (TChan 0 (DataChannel.ERet j ORecv (REvent (QRequest c k q))))))))) as G' by (unfold got; rewrite flat_at; apply in_app_iff; now left).
    destruct (got_pub _ _ _ _ _ _ _ _ R' G) as (p & Hp). destruct (got_pub _ _ _ _ _ _ _ _ R' G') as (p' & Hp').
    destruct (proj2 (runs_pubs _ _ _ _ _ R') _ _ _ _ _ _ Hp Hp') as [-> ->].
    destruct (proj1 (got_in _ _ _ _) H) as (j' & Hj'). apply got_in in G as (_ & _). destruct (runs_parts _ _ _ _ _ R') as (T & _ & _).
    assert (j = j') as <-.
    { refine (got_once _ _ 0 j j' (QRequest c k q') T _ _ _).
      - intros p1 p2 H1 H2. apply in_req in H1 as [H1|H1]; [discriminate|]. apply in_req in H2 as [H2|H2]; [discriminate|]. eapply (proj2 (runs_pubs _ _ _ _ _ R')); eassumption.
      - apply in_req. right. cbn. apply in_snoc. auto.
      - apply in_req. right. cbn. apply in_snoc. auto. }
    assert (exists t, Topic.step (s_req s) (Some (TChan 0 (DataChannel.ERet j ORecv (REvent (QRequest c k q'))))) t) as (t & St).
    { inversion M; subst; eauto. destruct l; [|discriminate]. cbn in *. match goal with Q : Some _ = Some _ |- _ => inversion Q; subst end. eauto. all: destruct l; discriminate. }
    destruct (runs_parts _ _ _ _ _ R) as (T' & _ & _). eapply (ret_twice _ _ _ _ _ _ _ _ _ T' St). apply in_req. eauto.
Qed.

(* ---- publishing replies ---- *)
Lemma handled_in tr c k e q o : In (c, k, e, q, o) (handled tr) <-> In (SHandle c k e q o) tr.
Proof.
  unfold handled. rewrite in_flat_map. split.
  - intros (a & Ha & X). destruct a; try easy. destruct X as [X|[]]. inversion X; subst. exact Ha.
  - intros H. eexists. split; [exact H|now left].
Qed.
Definition answered tr c k r := exists e q, In (SHandle c k e q (Some r)) tr.
Lemma answered_ext tr l c k r : answered tr c k r -> answered (ext tr l) c k r.
Proof. intros (e & q & H). exists e, q. now apply ext_in. Qed.
Definition rpubs_ok tr s := (forall p c k r, In (SRsp (TPublish p (PReply c k r))) tr -> answered tr c k r /\ forall r', s_eng s <> EReply c k r') /\
  (forall c k r, s_eng s = EReply c k r -> answered tr c k r) /\
  (forall p p' c k r r', In (SRsp (TPublish p (PReply c k r))) tr -> In (SRsp (TPublish p' (PReply c k r'))) tr -> p = p' /\ r = r').
Lemma rpubs_frame tr s l s' : rpubs_ok tr s -> (forall p c k r, l <> Some (SRsp (TPublish p (PReply c k r)))) ->
  (forall c k r, s_eng s' = EReply c k r -> s_eng s = EReply c k r) -> rpubs_ok (ext tr l) s'.
Proof.
  intros (A & B & C) N F. split; [|split].
  - intros p c k r H. apply ext_inv in H as [H|H]; [|exfalso; eapply N; exact H]. destruct (A _ _ _ _ H) as [X Y]. split; [now apply answered_ext|]. intros r' Z. apply F in Z. eapply Y. exact Z.
  - intros c k r H. apply answered_ext, B, F, H.
  - intros p p' c k r r' H H'. apply ext_inv in H as [H|H]; [|exfalso; eapply N; exact H]. apply ext_inv in H' as [H'|H']; [|exfalso; eapply N; exact H']. eauto.
Qed.
Lemma handled_fresh cl d input tr s c k q e q' o : runs cl d input tr s -> s_eng s = EHas c k q -> ~ In (SHandle c k e q' o) tr.
Proof.
  intros R E H. pose proof (got_nodup _ _ _ _ _ R) as N. rewrite (runs_eng _ _ _ _ _ R), E, map_app in N. cbn in N.
  apply NoDup_remove_2 in N. rewrite app_nil_r in N. apply N. apply handled_in in H. apply (in_map hkey) in H. apply (in_map fst) in H. exact H.
Qed.
Lemma runs_rpubs cl d input tr s : runs cl d input tr s -> rpubs_ok tr s.
Proof.
  revert tr s. apply runs_ind'.
  - split; [|split]; intros; easy.
  - intros tr s l s' R I M. moves M;
      try (apply (rpubs_frame _ _ _ _ I); [first [easy|intros ? ? ? ? X; destruct l as [[]|]; easy]|intros c' k' r'; unf; first [tauto|easy|now destruct m]]).
    + destruct I as (A & B & C). split; [|split].
      * intros p c' k' r' X. apply ext_inv in X as [X|X]; [|discriminate]. destruct (A _ _ _ _ X) as [Y Z]. split; [now apply answered_ext|]. unf. intros r2 E.
        destruct o; [|discriminate]. inversion E; subst. destruct Y as (e' & q' & Y). eapply handled_fresh; eassumption.
      * unf. intros c' k' r' E. destruct o; [|discriminate]. inversion E; subst. exists e, q. cbn. apply in_snoc. auto.
      * intros p p' c' k' r1 r2 X Y. apply ext_inv in X as [X|X]; [|discriminate]. apply ext_inv in Y as [Y|Y]; [|discriminate]. eauto.
    + destruct I as (A & B & C). split; [|split].
      * intros p' c' k' r' X. unf. apply ext_inv in X as [X|X]; (split; [apply answered_ext|easy]).
        -- now apply (A _ _ _ _ X).
        -- inversion X; subst. auto.
      * easy.
      * intros p1 p2 c' k' r1 r2 X Y. apply ext_inv in X as [X|X]; apply ext_inv in Y as [Y|Y].
        -- eauto.
        -- inversion Y; subst. destruct (A _ _ _ _ X) as [_ Z]. exfalso. eapply Z, P.
        -- inversion X; subst. destruct (A _ _ _ _ Y) as [_ Z]. exfalso. eapply Z, P.
        -- inversion X; inversion Y; subst. match goal with Q : Some _ = Some _ |- _ => inversion Q; subst end. auto.
Qed.

(* ---- the response worker ---- *)
Definition wgot_of (a : event) : list (nat * nat * robj) :=
  match a with SRsp (TChan 0 (DataChannel.ERet _ ORecv (REvent (PReply c k q)))) => [(c, k, q)] | _ => [] end.
Definition wgot (tr : list event) := flat_map wgot_of tr.
Definition wkey (x : nat * nat * nat * robj) : nat * nat * robj := match x with (c, _, k, r) => (c, k, r) end.
Definition wheld (e : worker) : list (nat * nat * robj) := match e with WHas c k q => [(c, k, q)] | _ => [] end.
Lemma wrk_step cl s l s' tr : move cl s l s' -> wgot tr = map wkey (written tr) ++ wheld (s_wrk s) -> wgot (ext tr l) = map wkey (written (ext tr l)) ++ wheld (s_wrk s').
Proof.
  intros M I. unfold wgot, written in *. rewrite !flat_at, map_app, I. moves M; unf; cbn [at_ wgot_of written_of option_map]; rewrite ?P; cbn [wheld]; rewrite ?app_nil_r; try reflexivity.
  - destruct m; cbn; now rewrite ?app_nil_r.
  - destruct l; cbn; now rewrite ?app_nil_r.
  - destruct l as [l|]; cbn; rewrite ?app_nil_r; [|reflexivity]. destruct l as [| | |[|c] [|? [] []| | | |]| | |]; cbn; rewrite ?app_nil_r; try reflexivity. now destruct F.
  - destruct l; cbn; now rewrite ?app_nil_r.
Qed.
Lemma runs_wrk cl d input tr s : runs cl d input tr s -> wgot tr = map wkey (written tr) ++ wheld (s_wrk s).
Proof. revert tr s. apply runs_ind'; [reflexivity|]. intros tr s l s' _ I M. eapply wrk_step; eassumption. Qed.
Lemma wgot_in tr c k q : In (c, k, q) (wgot tr) <-> exists j, In (SRsp (TChan 0 (DataChannel.ERet j ORecv (REvent (PReply c k q))))) tr.
Proof.
  unfold wgot. rewrite in_flat_map. split.
  - intros (a & Ha & X). destruct a as [| |[| | |[|] [|? [] [| | |[]| |]| | | |]| | |]| | | | |]; try easy. cbn in X. destruct X as [X|[]]. inversion X; subst. eauto.
  - intros (j & H). eexists. split; [exact H|]. now left.
Qed.
Lemma wgot_pub cl d input tr s c k q : runs cl d input tr s -> In (c, k, q) (wgot tr) -> exists p, In (SRsp (TPublish p (PReply c k q))) tr.
Proof.
  intros R H. apply wgot_in in H as (j & H). destruct (runs_parts _ _ _ _ _ R) as (_ & T & _).
  destruct (got_published _ _ 0 j (PReply c k q) T) as (p & P); [apply in_rsp; eauto|]. apply in_rsp in P as [P|P]; [discriminate|eauto].
Qed.
Lemma wgot_nodup cl d input tr s : runs cl d input tr s -> NoDup (map fst (wgot tr)).
Proof.
  intros R. pose proof R as R0. revert tr s R R0. apply (runs_ind' cl d input (fun tr s => runs cl d input tr s -> NoDup (map fst (wgot tr)))); [constructor|].
  intros tr s l s' R I M R'. specialize (I R). unfold wgot in *. rewrite flat_at, map_app.
  assert (at_ wgot_of l = [] \/ exists j c k q, l = Some (SRsp (TChan 0 (DataChannel.ERet j ORecv (REvent (PReply c k q)))))) as [->|(j & c & k & q & ->)].
  { destruct l as [a|]; [|auto]. destruct a as [| |[| | |[|] [|? [] [| | |[]| |]| | | |]| | |]| | | | |]; auto. right. eauto 10. }
  - now rewrite app_nil_r.
  - cbn. apply TopicProofs.nodup_snoc; [exact I|]. intros H. apply in_map_iff in H as ([[c' k'] q'] & E & H). cbn in E. inversion E; subst.
    assert (In (c, k, q) (wgot (ext tr (Some (SRsp (TChan 0 (DataChannel.ERet j ORecv (REvent (PReply c k q))))))))) as G by (unfold wgot; rewrite flat_at; apply in_app_iff; right; now left).
    assert (In (c, k, q') (wgot (ext tr (Some (SRsp (TChan 0 (DataChannel.ERet j ORecv (REvent (PReply c k q))))))))) as G' by (unfold wgot; rewrite flat_at; apply in_app_iff; now left).
    destruct (wgot_pub _ _ _ _ _ _ _ _ R' G) as (p & Hp). destruct (wgot_pub _ _ _ _ _ _ _ _ R' G') as (p' & Hp').
    destruct (proj2 (proj2 (runs_rpubs _ _ _ _ _ R')) _ _ _ _ _ _ Hp Hp') as [-> ->].
    destruct (proj1 (wgot_in _ _ _ _) H) as (j' & Hj'). destruct (runs_parts _ _ _ _ _ R') as (_ & T & _).
    assert (j = j') as <-.
    { refine (got_once _ _ 0 j j' (PReply c k q') T _ _ _).
      - intros p1 p2 H1 H2. apply in_rsp in H1 as [H1|H1]; [discriminate|]. apply in_rsp in H2 as [H2|H2]; [discriminate|]. eapply (proj2 (proj2 (runs_rpubs _ _ _ _ _ R'))); eassumption.
      - apply in_rsp. right. cbn. apply in_snoc. auto.
      - apply in_rsp. right. cbn. apply in_snoc. auto. }
    assert (exists t, Topic.step (s_rsp s) (Some (TChan 0 (DataChannel.ERet j ORecv (REvent (PReply c k q'))))) t) as (t & St).
    { inversion M; subst; eauto. 1: destruct l; discriminate. destruct l; [|discriminate]. cbn in *. match goal with Q : Some _ = Some _ |- _ => inversion Q; subst end. eauto. all: destruct l; discriminate. }
    destruct (runs_parts _ _ _ _ _ R) as (_ & T' & _). eapply (ret_twice _ _ _ _ _ _ _ _ _ T' St). apply in_rsp. eauto.
Qed.

(* ---- what follows ---- *)
Lemma nodup_left {B} (l l' : list B) : NoDup (l ++ l') -> NoDup l.
Proof. induction l as [|x l IH]; intros H; [constructor|]. inversion H; subst. constructor; [|auto]. rewrite in_app_iff in *. tauto. Qed.
Definition request_of (x : nat * nat * env * robj * option robj) : nat * nat := match x with (c, k, _, _, _) => (c, k) end.
Definition reply_of (x : nat * nat * nat * robj) : nat * nat := match x with (c, _, k, _) => (c, k) end.
Theorem handled_once cl d input tr s : runs cl d input tr s -> NoDup (map request_of (handled tr)).
Proof.
  intros R. pose proof (got_nodup _ _ _ _ _ R) as N. rewrite (runs_eng _ _ _ _ _ R), map_app, map_map in N. apply nodup_left in N.
  erewrite map_ext; [exact N|]. now intros [[[[? ?] ?] ?] ?].
Qed.
Lemma written_in tr c i k r : In (c, i, k, r) (written tr) <-> In (SWrite c i k r) tr.
Proof.
  unfold written. rewrite in_flat_map. split.
  - intros (a & Ha & X). destruct a; try easy. destruct X as [X|[]]. inversion X; subst. exact Ha.
  - intros H. eexists. split; [exact H|now left].
Qed.
Theorem written_once cl d input tr s : runs cl d input tr s -> NoDup (map reply_of (written tr)).
Proof.
  intros R. pose proof (wgot_nodup _ _ _ _ _ R) as N. rewrite (runs_wrk _ _ _ _ _ R), map_app, map_map in N. apply nodup_left in N.
  erewrite map_ext; [exact N|]. now intros [[[? ?] ?] ?].
Qed.
Theorem handled_read cl d input tr s c k e q o : runs cl d input tr s -> In (SHandle c k e q o) tr -> exists i, before tr (SRead c i k q) (SHandle c k e q o).
Proof.
  intros R H. apply in_split in H as (x & y & ->). destruct (exec_split _ _ _ _ _ _ R) as (s1 & s2 & R1 & [_ St] & _). fold (runs cl d input x s1) in R1.
  assert (s_eng s1 = EHas c k q) as E by (inversion St; subst; auto; destruct l; discriminate).
  assert (In (c, k, q) (got x)) as G by (rewrite (runs_eng _ _ _ _ _ R1), E; apply in_app_iff; right; now left).
  destruct (got_pub _ _ _ _ _ _ _ _ R1 G) as (p & P). destruct (proj1 (runs_pubs _ _ _ _ _ R1) _ _ _ _ P) as [X _]. apply reads_in in X as (i & X).
  apply in_split in X as (x1 & x2 & ->). exists i, x1, x2, y. now rewrite <- app_assoc.
Qed.
Theorem written_handled cl d input tr s c i k r : runs cl d input tr s -> In (SWrite c i k r) tr -> exists e q, before tr (SHandle c k e q (Some r)) (SWrite c i k r).
Proof.
  intros R H. apply in_split in H as (x & y & ->). destruct (exec_split _ _ _ _ _ _ R) as (s1 & s2 & R1 & [_ St] & _). fold (runs cl d input x s1) in R1.
  assert (s_wrk s1 = WHas c k r) as E by (inversion St; subst; auto; destruct l; discriminate).
  assert (In (c, k, r) (wgot x)) as G by (rewrite (runs_wrk _ _ _ _ _ R1), E; apply in_app_iff; right; now left).
  destruct (wgot_pub _ _ _ _ _ _ _ _ R1 G) as (p & P). destruct (proj1 (runs_rpubs _ _ _ _ _ R1) _ _ _ _ P) as [(e & q & X) _].
  apply in_split in X as (x1 & x2 & ->). exists e, q, x1, x2, y. now rewrite <- app_assoc.
Qed.
Lemma in_conn c tr l : In l (conn_trace c tr) <-> In (SConn c l) tr \/ (exists i k q, l = Conn.ERet i ORead ROk /\ In (SRead c i k q) tr) \/ (exists i k r, l = Conn.ECall i (OWrite (encode r)) /\ In (SWrite c i k r) tr).
Proof.
  unfold conn_trace. rewrite in_flat_map. split.
  - intros (a & Ha & X). destruct a; try easy; cbn in X; (destruct (Nat.eqb_spec c0 c) as [->|]; [|easy]); destruct X as [<-|[]]; eauto 10.
  - intros [H|[(i & k & q & -> & H)|(i & k & r & -> & H)]]; (eexists; split; [exact H|]; cbn; rewrite Nat.eqb_refl; now left).
Qed.
Lemma no_write_call cl s l s' c0 i0 b : move cl s l s' -> l <> Some (SConn c0 (Conn.ECall i0 (OWrite b))).
Proof.
  intros M E. moves M; try discriminate; destruct l as [l|]; try discriminate; cbn in E. inversion E; subst. exact F.
Qed.
Lemma no_write_calls cl d input tr s c i b : runs cl d input tr s -> ~ In (SConn c (Conn.ECall i (OWrite b))) tr.
Proof.
  intros R. revert tr s R. apply (runs_ind' cl d input (fun tr s => ~ In (SConn c (Conn.ECall i (OWrite b))) tr)); [easy|].
  intros tr s l s' _ I M H. apply ext_inv in H as [H|H]; [easy|]. exact (no_write_call _ _ _ _ _ _ _ M H).
Qed.
Theorem output cl d input tr s c i p : runs cl d input tr s -> In (SConn c (Conn.EOut i p)) tr -> (exists k r, In (SWrite c i k r) tr /\ prefix_of p (encode r)) \/ prefix_of p close_message.
Proof.
  intros R H. destruct (runs_parts _ _ _ _ _ R) as (_ & _ & C). destruct (out_of _ _ i p (C c)) as [(b & X & Y)|X]; [apply in_conn; auto| |auto].
  left. apply in_conn in X as [X|[(i' & k & q & X & _)|(i' & k & r & X & Z)]]; [|discriminate|].
  - exfalso. eapply no_write_calls; eassumption.
  - inversion X; subst. eauto.
Qed.
Theorem read_nth cl d input tr s c i k q : runs cl d input tr s -> In (SRead c i k q) tr -> exists qs r, objects (input c) qs r /\ nth_error qs k = Some q.
Proof.
  intros R H. destruct (runs_reads _ _ _ _ _ R c) as (A & B & _). exists (map snd (reads c tr)), (s_in s c). split; [exact A|].
  assert (In (k, q) (reads c tr)) as X by (apply reads_in; eauto). apply In_nth_error in X as (n & X).
  assert (n = k) as ->; [|now rewrite nth_error_map, X].
  assert (nth_error (map fst (reads c tr)) n = Some k) as Y by now rewrite nth_error_map, X.
  assert (n < List.length (reads c tr)) as L by (apply nth_error_Some; congruence).
  rewrite B, (nth_error_nth' _ 0), seq_nth in Y by (rewrite ?seq_length; assumption). now inversion Y.
Qed.
Theorem read_in_order cl d input tr s c : runs cl d input tr s -> map fst (reads c tr) = seq 0 (List.length (reads c tr)).
Proof. intros R. now destruct (runs_reads _ _ _ _ _ R c) as (_ & B & _). Qed.
Lemma objects_encoded os rest qs r : Forall obj_ok os -> objects (flat_map encode os ++ rest) qs r ->
  (List.length os <= List.length qs /\ firstn (List.length os) qs = os) \/ (qs = firstn (List.length qs) os /\ List.length qs < List.length os /\ r = flat_map encode (skipn (List.length qs) os) ++ rest).
Proof.
  intros F H. induction H as [|qs r q r' H IH P].
  - destruct os; [left|right]; cbn; repeat split; auto; lia.
  - destruct IH as [[L E]|(E & L & ->)].
    + left. rewrite app_length. split; [lia|]. rewrite firstn_app. replace (List.length os - List.length qs) with 0 by lia. cbn. now rewrite app_nil_r.
    + destruct (skipn (List.length qs) os) as [|o os'] eqn:K.
      { apply (f_equal (@List.length _)) in K. rewrite skipn_length in K. cbn in K. lia. }
      assert (os = qs ++ o :: os') as ->.
      { rewrite <- (firstn_skipn (List.length qs) os), K, <- E. reflexivity. }
      apply Forall_app in F as [_ F]. inversion F as [|? ? Fo Fs]; subst. 
      cbn [flat_map] in P. rewrite <- app_assoc in P. rewrite (parse_encode _ _ Fo) in P. inversion P; subst.
      rewrite !app_length in *. cbn in *. destruct os' as [|o2 os'].
      * left. cbn. split; [lia|]. rewrite firstn_all2; [reflexivity|]. rewrite app_length. cbn. lia.
      * right. cbn. split; [|split; [lia|]].
        -- rewrite firstn_app, firstn_all2 by lia. replace (List.length qs + 1 - List.length qs) with 1 by lia. reflexivity.
        -- rewrite skipn_app, skipn_all2 by lia. replace (List.length qs + 1 - List.length qs) with 1 by lia. reflexivity.
Qed.
Theorem read_sent cl d input tr s c i k q os rest : runs cl d input tr s -> In (SRead c i k q) tr -> Forall obj_ok os -> input c = flat_map encode os ++ rest -> k < List.length os -> nth_error os k = Some q.
Proof.
  intros R H F E L. destruct (read_nth _ _ _ _ _ _ _ _ _ R H) as (qs & r & O & N). rewrite E in O.
  destruct (objects_encoded _ _ _ _ F O) as [[L2 X]|(X & L2 & _)].
  - rewrite <- X. rewrite <- N. rewrite <- (firstn_skipn (List.length os) qs) at 2. symmetry. apply nth_error_app1. rewrite firstn_length. lia.
  - rewrite X in N. rewrite <- N. rewrite <- (firstn_skipn (List.length qs) os) at 1. apply nth_error_app1.
    assert (k < List.length (firstn (List.length qs) os)) by (apply nth_error_Some; congruence). assumption.
Qed.

(* ---- a client that waits for its reply ---- *)
Lemma before_parts {L} (x y : list L) a b c : In a x -> In b y -> before (x ++ c :: y) a b.
Proof. intros H K. apply in_split in H as (x1 & x2 & ->). apply in_split in K as (y1 & y2 & ->). exists x1, (x2 ++ c :: y1), y2. now rewrite <- !app_assoc. Qed.
Lemma runs_prefix cl d input x y s : runs cl d input (x ++ y) s -> exists s1, runs cl d input x s1.
Proof. destruct y as [|a y]; [rewrite app_nil_r; eauto|]. intros R. destruct (exec_split _ _ _ _ _ _ R) as (s1 & s2 & R1 & _). eauto. Qed.
Theorem waits cl d input tr s c i k r i' k' q' e' o' : runs cl d input tr s -> before tr (SWrite c i k r) (SRead c i' k' q') -> In (SHandle c k' e' q' o') tr ->
  exists e q, before tr (SHandle c k e q (Some r)) (SHandle c k' e' q' o').
Proof.
  intros R B H. apply before_cut in B as (x & y & -> & B). destruct (runs_prefix _ _ _ _ _ _ R) as (s1 & R1).
  destruct (written_handled _ _ _ _ _ _ _ _ _ R1 B) as (e & q & W). apply before_in in W as [W _]. exists e, q.
  apply in_app_iff in H as [H|[H|H]]; [|discriminate|now apply before_parts].
  exfalso. destruct (handled_read _ _ _ _ _ _ _ _ _ _ R1 H) as (j & Q). apply before_in in Q as [Q _].
  pose proof (read_in_order _ _ _ _ _ c R) as N. unfold reads in N. rewrite flat_map_app, map_app in N. cbn [flat_map read_of] in N. rewrite Nat.eqb_refl in N. cbn [map app fst] in N.
  assert (NoDup (map fst (flat_map (read_of c) x) ++ k' :: map fst (flat_map (read_of c) y))) as D by (rewrite N; apply seq_NoDup).
  apply NoDup_remove_2 in D. apply D. apply in_app_iff. left. apply in_map_iff. exists (k', q'). split; [reflexivity|]. apply reads_in. eauto.
Qed.

(* ---- after a failed read ---- *)
Lemma over_stays cl s l s' c : move cl s l s' -> s_rd s c = ROver -> s_rd s' c = ROver /\ forall i k q, l <> Some (SRead c i k q).
Proof.
  revert c. intros c0 M O. moves M; unf; try (split; [|first [easy|now destruct l]]); try assumption; try (destruct (Nat.eq_dec c0 c) as [->|?]; [congruence|now rewrite upd_ne by assumption]).
  destruct (Nat.eq_dec c0 c) as [->|?]; [congruence|]. split; [now rewrite upd_ne|]. intros ? ? ? E. inversion E. congruence.
Qed.
Theorem read_stops cl d input x y s c i r : runs cl d input (x ++ SConn c (Conn.ERet i ORead r) :: y) s -> forall i' k q, ~ In (SRead c i' k q) y.
Proof.
  intros R. destruct (exec_split _ _ _ _ _ _ R) as (s1 & s2 & _ & [_ St] & R2).
  assert (s_rd s2 c = ROver) as O.
  { inversion St; subst; unf; [now rewrite upd_eq|..]; destruct l; try discriminate. cbn in *. match goal with Q : Some _ = Some _ |- _ => inversion Q; subst end. easy. }
  clear - R2 O. assert (s_rd s c = ROver /\ forall i' k q, ~ In (SRead c i' k q) y) as [_ X]; [|exact X].
  induction R2 as [|y s3 s4 H IH [_ St]|y s3 a s4 H IH [_ St]]; [auto| |].
  - destruct IH as [A B]. destruct (over_stays _ _ _ _ _ St A). auto.
  - destruct IH as [A B]. destruct (over_stays _ _ _ _ _ St A) as [C D]. split; [exact C|]. intros i' k q X. apply in_snoc in X as [X| <-]; [eapply B; eassumption|]. eapply D. reflexivity.
Qed.

(* ---- what a topic has accepted is not lost ---- *)
Section Kept.
  Context {A : Type}.
  Implicit Types (s : Topic.state A) (tr : list (Topic.event A)).
  Lemma taken cap (tr : list (DataChannel.event A)) (s : DataChannel.state A) j e : DataChannel.runs cap tr s -> In (j, e) (takes tr) ->
    In (DataChannel.ECall j ORecv) tr /\ (d_pc s j = DataChannel.PRet ORecv (REvent e) \/ In (DataChannel.ERet j ORecv (REvent e)) tr).
  Proof.
    intros R H. apply takes_proj in H as (x & Hx & P). pose proof (DataChannelProofs.i_stage _ _ _ (DataChannelProofs.runs_inv _ _ _ R) j) as S1.
    destruct (stage_take _ _ _ _ _ S1 Hx P) as [(h' & E & X)|(u & h' & E & X)].
    - split; [apply (DataChannelProofs.in_proj j); rewrite E; now left|]. destruct X as [X|X]; [now left|]. right. rewrite X in S1. inversion S1 as [| | | | | | | | | | | |h o r S2]; subst.
      apply (DataChannelProofs.in_proj j). rewrite <- H. apply in_snoc. right. rewrite E in H. inversion S2; subst; try discriminate; try (cbn in H; inversion H; subst; discriminate).
      cbn in H. inversion H; subst. match goal with Q : take_of _ = _ |- _ => rewrite Q in P; inversion P; subst end. reflexivity.
    - exfalso. destruct x; try discriminate. cbn in P, X. inversion P; inversion X; subst. eapply no_self; [exact R| |reflexivity]. apply (DataChannelProofs.in_proj j). eassumption.
  Qed.
  Definition lone tr : Prop := forall n c k, In (TSubscribe n c k) tr -> c = 0.
  Lemma accepted tr s p n e : Topic.runs tr s -> lone tr -> In (TResult p (S n)) tr -> In (TPublish p e) tr -> exists i, In (i, e) (puts (chan_trace 0 tr)).
  Proof.
    intros R L H P. apply in_split in H as (x & y & ->). destruct (TopicProofs.result_counts _ _ _ _ _ R) as (cs & _ & Hl & Hc).
    destruct cs as [|c cs]; [discriminate|]. pose proof (proj1 (Hc c) (or_introl eq_refl)) as N. destruct (copies p c x) as [|[i e'] q] eqn:C; [contradiction|].
    destruct (exec_split _ _ _ _ _ _ R) as (s1 & _ & R1 & _). assert (In (i, e') (copies p c x)) as Z by (rewrite C; now left).
    destruct (TopicProofs.copy_visit _ _ _ _ _ _ R1 Z) as (g & m & _ & V & P').
    destruct (TopicProofs.visit_sub _ _ _ _ _ _ R1 V) as (k & Sb). assert (c = 0) as -> by (eapply L; apply in_app_iff; left; exact Sb).
    assert (e' = e) as ->.
    { pose proof (proj1 (TopicProofs.runs_events _ _ R)) as Ev. apply Ev in P. assert (In (TPublish p e') (x ++ TResult p (S n) :: y)) as P2 by (apply in_app_iff; auto). apply Ev in P2. congruence. }
    apply filter_In in Z as [Z _]. exists i. unfold chan_trace, puts in *. rewrite flat_map_app, flat_map_app. apply in_app_iff. now left.
  Qed.
  Lemma kept tr s p n e : Topic.runs tr s -> lone tr -> In (TResult p (S n)) tr -> In (TPublish p e) tr ->
    In e (d_buf (t_ch s 0)) \/ exists j, In (TChan 0 (DataChannel.ECall j ORecv)) tr /\ (d_pc (t_ch s 0) j = DataChannel.PRet ORecv (REvent e) \/ In (TChan 0 (DataChannel.ERet j ORecv (REvent e))) tr).
  Proof.
    intros R L H P. destruct (accepted _ _ _ _ _ R L H P) as (i & Hi). pose proof (put_visit _ _ _ _ _ R Hi) as _.
    assert (exists x, In (TChan 0 x) tr) as (x & Hx).
    { destruct (chan_trace 0 tr) as [|x t] eqn:E; [destruct Hi|]. exists x. apply TopicProofs.ct_in. rewrite E. now left. }
    destruct (TopicProofs.chan_runs _ _ _ _ R Hx) as (cap & D). destruct (DataChannelProofs.fifo _ _ _ D) as [F _].
    apply (in_map snd) in Hi. cbn in Hi. rewrite F in Hi. apply in_app_iff in Hi as [Hi|Hi]; [|now left]. right.
    apply in_map_iff in Hi as ([j e'] & E & Hi). cbn in E. subst e'. exists j. destruct (taken _ _ _ _ _ D Hi) as [X Y]. split; [now apply TopicProofs.ct_in|].
    destruct Y as [Y|Y]; [now left|]. right. now apply TopicProofs.ct_in.
  Qed.
  Lemma cap_step (d d' : DataChannel.state A) l : DataChannel.step d l d' -> d_cap d' = d_cap d.
  Proof. now destruct 1. Qed.
  Lemma cap_topic s l s' : Topic.step s l s' -> 0 < t_next s -> 0 < t_next s' /\ d_cap (t_ch s' 0) = d_cap (t_ch s 0).
  Proof.
    intros St L. destruct St; cbn in *; auto; (split; [lia|]).
    - destruct (upd_case (t_ch s) (t_next s) 0 (DataChannel.init cap)) as [[E _]|[_ ->]]; [lia|reflexivity].
    - destruct (upd_case (t_ch s) c 0 d) as [[<- ->]|[_ ->]]; [|reflexivity]. eapply cap_step; eassumption.
    - destruct (upd_case (t_ch s) (g_chan (t_g s g)) 0 d) as [[E ->]|[_ ->]]; [|reflexivity]. rewrite E. eapply cap_step; eassumption.
    - destruct (upd_case (t_ch s) (g_chan (t_g s g)) 0 d) as [[E ->]|[_ ->]]; [|reflexivity]. rewrite E. eapply cap_step; eassumption.
  Qed.
End Kept.
Lemma req_cap cl d input tr s : runs cl d input tr s -> 0 < t_next (s_req s) /\ d_cap (t_ch (s_req s) 0) = 0.
Proof.
  revert tr s. apply runs_ind'; [cbn; split; [lia|reflexivity]|]. intros tr s l s' _ [L C] M.
  assert (s_req s' = s_req s \/ exists x, Topic.step (s_req s) x (s_req s')) as [->|(x & St)]; [moves M; unf; eauto|auto|].
  destruct (cap_topic _ _ _ St L) as [X Y]. split; [exact X|congruence].
Qed.
Lemma req_lone cl d input tr s : runs cl d input tr s -> lone (req_trace tr) /\ lone (rsp_trace tr).
Proof.
  intros R. assert (forall n c k, ~ In (SReq (TSubscribe n c k)) tr /\ ~ In (SRsp (TSubscribe n c k)) tr) as N.
  { revert tr s R. apply (runs_ind' cl d input (fun tr s => forall n c k, ~ In (SReq (TSubscribe n c k)) tr /\ ~ In (SRsp (TSubscribe n c k)) tr)); [easy|].
    intros tr s l s' _ I M n c0 k0. destruct (I n c0 k0) as [NX NY]. split; intros H; (apply ext_inv in H as [H|H]; [easy|]); moves M; try discriminate; destruct l as [l|]; try discriminate; cbn in H; inversion H; subst; exact F. }
  split; intros n c k H.
  - apply in_req in H as [H|H]; [now inversion H|]. now apply N in H.
  - apply in_rsp in H as [H|H]; [now inversion H|]. now apply N in H.
Qed.
Lemma eng_waits cl d input tr s j0 : runs cl d input tr s -> In (SReq (TChan 0 (DataChannel.ECall j0 ORecv))) tr -> s_eng s = EWait j0 \/ exists r, In (SReq (TChan 0 (DataChannel.ERet j0 ORecv r))) tr.
Proof.
  revert tr s. apply (runs_ind' cl d input (fun tr s => In (SReq (TChan 0 (DataChannel.ECall j0 ORecv))) tr -> s_eng s = EWait j0 \/ exists r, In (SReq (TChan 0 (DataChannel.ERet j0 ORecv r))) tr)); [easy|].
  intros tr s l s' _ I M H. assert (In (SReq (TChan 0 (DataChannel.ECall j0 ORecv))) tr \/ l = Some (SReq (TChan 0 (DataChannel.ECall j0 ORecv)))) as [K|K] by now apply ext_inv.
  - destruct (I K) as [E|(r & E)]; [|right; exists r; now apply ext_in].
    moves M; unf; try (left; congruence); try congruence.
    + right. exists (REvent m). assert (j = j0) as -> by congruence. cbn. apply in_snoc. auto.
    + right. exists DataChannel.RErrClosed. assert (j = j0) as -> by congruence. cbn. apply in_snoc. auto.
  - moves M; try discriminate; unf.
    + inversion K; subst. now left.
    + destruct l as [l|]; [|discriminate]. cbn in K. inversion K; subst. destruct F.
    + destruct l; discriminate.
    + destruct l; discriminate.
Qed.
Lemma wrk_waits cl d input tr s j0 : runs cl d input tr s -> In (SRsp (TChan 0 (DataChannel.ECall j0 ORecv))) tr -> s_wrk s = WWait j0 \/ exists r, In (SRsp (TChan 0 (DataChannel.ERet j0 ORecv r))) tr.
Proof.
  revert tr s. apply (runs_ind' cl d input (fun tr s => In (SRsp (TChan 0 (DataChannel.ECall j0 ORecv))) tr -> s_wrk s = WWait j0 \/ exists r, In (SRsp (TChan 0 (DataChannel.ERet j0 ORecv r))) tr)); [easy|].
  intros tr s l s' _ I M H. assert (In (SRsp (TChan 0 (DataChannel.ECall j0 ORecv))) tr \/ l = Some (SRsp (TChan 0 (DataChannel.ECall j0 ORecv)))) as [K|K] by now apply ext_inv.
  - destruct (I K) as [E|(r & E)]; [|right; exists r; now apply ext_in].
    moves M; unf; try (left; congruence); try congruence.
    right. exists (REvent m). assert (j = j0) as -> by congruence. cbn. apply in_snoc. auto.
  - moves M; try discriminate; unf.
    + inversion K; subst. now left.
    + destruct l; discriminate.
    + destruct l as [l|]; [|discriminate]. cbn in K. inversion K; subst. destruct F.
    + destruct l; discriminate.
Qed.
(* A request that the engine's channel accepted is handled, or the engine has it. *)
Theorem request_kept cl d input tr s p n c k q : runs cl d input tr s -> In (SReq (TPublish p (QRequest c k q))) tr -> In (SReq (TResult p (S n))) tr ->
  (exists e o, In (SHandle c k e q o) tr) \/ s_eng s = EHas c k q \/ exists j, s_eng s = EWait j /\ d_pc (t_ch (s_req s) 0) j = DataChannel.PRet ORecv (REvent (QRequest c k q)).
Proof.
  intros R P H. destruct (runs_parts _ _ _ _ _ R) as (T & _ & _). destruct (kept _ _ p n (QRequest c k q) T (proj1 (req_lone _ _ _ _ _ R))) as [B|(j & C & X)].
  - apply in_req. auto.
  - apply in_req. auto.
  - exfalso. destruct (runs_chans _ _ T) as [Ch _]. destruct (req_cap _ _ _ _ _ R) as [L Z]. destruct (Ch 0 L) as (cap & D). destruct (DataChannelProofs.fifo _ _ _ D) as [_ F].
    destruct (DataChannelProofs.i_cap _ _ _ (DataChannelProofs.runs_inv _ _ _ D)) as [E _]. rewrite <- E, Z in F. destruct (d_buf (t_ch (s_req s) 0)); [destruct B|cbn in F; lia].
  - assert (In (TChan 0 (DataChannel.ERet j ORecv (REvent (QRequest c k q)))) (req_trace tr) -> (exists e o, In (SHandle c k e q o) tr) \/ s_eng s = EHas c k q) as G.
    { intros Y. apply in_req in Y as [Y|Y]; [discriminate|]. assert (In (c, k, q) (got tr)) as G by (apply got_in; eauto). rewrite (runs_eng _ _ _ _ _ R) in G.
      apply in_app_iff in G as [G|G].
      - left. apply in_map_iff in G as ([[[[c' k'] e] q'] o] & E & G). cbn in E. inversion E; subst. apply handled_in in G. eauto.
      - right. destruct (s_eng s); try easy. destruct G as [G|[]]. congruence. }
    destruct X as [X|X]; [|destruct (G X); auto].
    apply in_req in C as [C|C]; [discriminate|]. destruct (eng_waits _ _ _ _ _ _ R C) as [E|(r & E)]; [right; right; eauto|].
    exfalso. assert (In (TChan 0 (DataChannel.ERet j ORecv r)) (req_trace tr)) as Y by (apply in_req; auto). destruct (TopicProofs.chan_runs _ _ _ _ T Y) as (cap & D).
    apply TopicProofs.ct_in in Y. destruct (DataChannelProofs.returned _ _ _ _ _ _ D Y) as [Z _]. congruence.
Qed.
(* A reply that the response channel accepted is written, or the worker or the buffer has it. *)
Theorem reply_kept cl d input tr s p n c k r : runs cl d input tr s -> In (SRsp (TPublish p (PReply c k r))) tr -> In (SRsp (TResult p (S n))) tr ->
  (exists i, In (SWrite c i k r) tr) \/ s_wrk s = WHas c k r \/ (exists j, s_wrk s = WWait j /\ d_pc (t_ch (s_rsp s) 0) j = DataChannel.PRet ORecv (REvent (PReply c k r))) \/ In (PReply c k r) (d_buf (t_ch (s_rsp s) 0)).
Proof.
  intros R P H. destruct (runs_parts _ _ _ _ _ R) as (_ & T & _). destruct (kept _ _ p n (PReply c k r) T (proj2 (req_lone _ _ _ _ _ R))) as [B|(j & C & X)].
  - apply in_rsp. auto.
  - apply in_rsp. auto.
  - auto.
  - assert (In (TChan 0 (DataChannel.ERet j ORecv (REvent (PReply c k r)))) (rsp_trace tr) -> (exists i, In (SWrite c i k r) tr) \/ s_wrk s = WHas c k r) as G.
    { intros Y. apply in_rsp in Y as [Y|Y]; [discriminate|]. assert (In (c, k, r) (wgot tr)) as G by (apply wgot_in; eauto). rewrite (runs_wrk _ _ _ _ _ R) in G.
      apply in_app_iff in G as [G|G].
      - left. apply in_map_iff in G as ([[[c' i] k'] r'] & E & G). cbn in E. inversion E; subst. apply written_in in G. eauto.
      - right. destruct (s_wrk s); try easy. destruct G as [G|[]]. congruence. }
    destruct X as [X|X]; [|destruct (G X); auto].
    apply in_rsp in C as [C|C]; [discriminate|]. destruct (wrk_waits _ _ _ _ _ _ R C) as [E|(r' & E)]; [right; right; left; eauto|].
    exfalso. assert (In (TChan 0 (DataChannel.ERet j ORecv r')) (rsp_trace tr)) as Y by (apply in_rsp; auto). destruct (TopicProofs.chan_runs _ _ _ _ T Y) as (cap & D).
    apply TopicProofs.ct_in in Y. destruct (DataChannelProofs.returned _ _ _ _ _ _ D Y) as [Z _]. congruence.
Qed.

(* ---- what is lost ---- *)
Theorem expired_lost cl d input tr s p g n c k q : runs cl d input tr s -> In (SReq (TPublish p (QRequest c k q))) tr -> In (SReq (TVisit p g n 0)) tr ->
  In (SReq (TChan 0 (DataChannel.ERet (sid g) (OSend (QRequest c k q)) RExpired))) tr -> forall e q' o, ~ In (SHandle c k e q' o) tr.
Proof.
  intros R P V X e q' o H. assert (In (c, k, q') (got tr)) as G.
  { rewrite (runs_eng _ _ _ _ _ R). apply in_app_iff. left. apply handled_in in H. apply (in_map hkey) in H. exact H. }
  destruct (got_pub _ _ _ _ _ _ _ _ R G) as (p' & P'). destruct (proj2 (runs_pubs _ _ _ _ _ R) _ _ _ _ _ _ P P') as [<- <-]. clear P'.
  apply got_in in G as (j & G). destruct (runs_parts _ _ _ _ _ R) as (T & _ & _).
  assert (In (TChan 0 (DataChannel.ERet j ORecv (REvent (QRequest c k q)))) (req_trace tr)) as G' by (apply in_req; auto).
  destruct (TopicProofs.chan_runs _ _ _ _ T G') as (cap & D). apply TopicProofs.ct_in in G'.
  destruct (received_sent _ _ _ _ _ D G') as (i & Hi & Hr). apply TopicProofs.ct_in in Hi.
  destruct (TopicProofs.send_from _ _ T _ _ _ Hi) as (p2 & g2 & n2 & -> & V2 & P2).
  apply in_req in P2 as [P2|P2]; [discriminate|]. destruct (proj2 (runs_pubs _ _ _ _ _ R) _ _ _ _ _ _ P P2) as [<- _].
  assert (In (TVisit p g n 0) (req_trace tr)) as V1 by (apply in_req; auto). rewrite (TopicProofs.visit_once _ _ _ _ _ _ _ _ T V2 V1) in Hr.
  specialize (Hr RExpired). discriminate Hr. apply TopicProofs.ct_in. apply in_req. auto.
Qed.
Theorem unhandled_unwritten cl d input tr s c k : runs cl d input tr s -> (forall e q r, ~ In (SHandle c k e q (Some r)) tr) -> forall i r, ~ In (SWrite c i k r) tr.
Proof. intros R N i r H. destruct (written_handled _ _ _ _ _ _ _ _ _ R H) as (e & q & B). apply before_in in B as [B _]. exact (N _ _ _ B). Qed.
Theorem no_reply_unwritten cl d input tr s c k e q : runs cl d input tr s -> In (SHandle c k e q None) tr -> forall i r, ~ In (SWrite c i k r) tr.
Proof.
  intros R H. apply (unhandled_unwritten _ _ _ _ _ _ _ R). intros e' q' r H'. pose proof (handled_once _ _ _ _ _ R) as N.
  apply handled_in in H. apply handled_in in H'. revert N H H'. generalize (handled tr). intros l N H H'. induction l as [|x l IH]; [easy|]. cbn in N. inversion N; subst.
  destruct H as [->|H]; destruct H' as [E|H'].
  - discriminate.
  - apply (in_map request_of) in H'. contradiction.
  - subst x. apply (in_map request_of) in H. contradiction.
  - auto.
Qed.
Theorem array_replied cl d input tr s c k e l o : runs cl d input tr s -> In (SHandle c k e (RArr l) o) tr -> exists r, o = Some r.
Proof.
  intros R H. apply in_split in H as (x & y & ->). destruct (exec_split _ _ _ _ _ _ R) as (s1 & s2 & _ & [_ St] & _).
  assert (exists d', handle e (s_db s1) (RArr l) = Ret (d', o)) as (d' & E) by (inversion St; subst; eauto; destruct l0; discriminate).
  unfold handle in E. destruct (handle_objects e (s_db s1) l) as [[? ?]| |]; cbn in E; try discriminate. inversion E. eauto.
Qed.
