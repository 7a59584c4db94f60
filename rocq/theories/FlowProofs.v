(* Writes that wait for the peer: every run is one of Conn.v, and what it cannot do. *)
From Coq Require Import List Arith Bool Lia.
From Verif Require Import Base Lts Counted Conn ConnProofs WaitSpec WaitConn Flow.
Import ListNotations.

(* The writers and the closers of a connection. *)
Lemma conn_cases u l u' : Conn.step u l u' ->
  ((forall i b, wants u i b -> c_pc u' i = c_pc u i) /\ c_tcp u' = c_tcp u /\ (forall i p, l <> Some (EOut i p))) \/
  (exists i b, wants u i b /\ c_pc u' i <> c_pc u i) \/
  ((forall i b, wants u i b -> c_pc u' i = c_pc u i) /\ (exists i x, c_pc u i = PTcp x /\ c_pc u' i = PChan x) /\ l = None).
Proof.
  assert (K : forall i p (s : Conn.state), (forall b, ~ wants s i b) -> forall j b, wants s j b -> upd (c_pc s) i p j = c_pc s j).
  { intros i p s N j b W. apply upd_ne. intros ->. exact (N b W). }
  intros St. inversion St; subst; cbn [c_pc c_tcp set_pc];
  try (left; split; [apply K; intros b' [W|(y & W & _)]; congruence|split; [reflexivity|discriminate]]);
  try (right; left; eexists i, _; split; [left; eassumption|rewrite upd_eq; congruence]).
  - (* r_eof *) left. split; [|split; [reflexivity|discriminate]]. intros k b W. rewrite !upd_ne; [reflexivity| |]; intros ->; destruct W as [W|(y & W & _)]; congruence.
  - right. left. exists i, close_message. split; [right; eauto|rewrite upd_eq; congruence].
  - right. right. split; [apply K; intros b' [W|(y & W & _)]; congruence|]. split; [exists i, x; rewrite upd_eq; auto|reflexivity].
  - left. split; [reflexivity|]. split; [reflexivity|discriminate].
Qed.
Lemma calm_out u l u' f : Conn.step u l u' -> calm u u' f -> forall i p, l <> Some (EOut i p).
Proof.
  intros St [W _]. destruct (conn_cases _ _ _ St) as [(_ & _ & N)|[(i & b & Wi & N)|(_ & _ & ->)]]; [exact N|now rewrite (W _ _ Wi) in N|discriminate].
Qed.

(* A write that ends is a step of Conn.v. *)
Lemma finish_conn ok u i b p : c_crash u = false -> c_tcp u = true -> wants u i b -> prefix_of p b -> (ok = true -> p = b) ->
  Conn.step u (Some (EOut i p)) (finish ok u i).
Proof.
  intros C T [W|(x & W & ->)] P E; unfold finish; rewrite W.
  - destruct ok; [rewrite (E eq_refl); now apply wr_all|eapply wr_part; eassumption].
  - now apply x_msg.
Qed.
Lemma finish_pc ok u i b : wants u i b -> c_pc (finish ok u i) i <> c_pc u i.
Proof. intros [W|(x & W & _)]; unfold finish; cbn; rewrite upd_eq, W; discriminate. Qed.
Lemma finish_other ok u i j : j <> i -> c_pc (finish ok u i) j = c_pc u j.
Proof. intros N. unfold finish. cbn. now rewrite upd_ne. Qed.

(* The lock and the buffer. *)
Definition lock_ok (u : Conn.state) (f : flow) : Prop :=
  match f_lock f with Some i => wants u i (f_sent f ++ f_left f) /\ c_tcp u = true | None => f_sent f = [] /\ f_left f = [] end.
Lemma ends_conn u f l u' f' : c_crash u = false -> lock_ok u f -> ends u f l u' f' ->
  exists l', Conn.step u l' u' /\ match l with Some a => exists e, l' = Some e /\ on_conn a = [e] | None => l' = None end.
Proof.
  intros C L St. unfold lock_ok in L. inversion St; subst; try match goal with E : f_lock _ = _ |- _ => rewrite E in L; destruct L as [W T]; eexists (Some (EOut _ (f_sent f))); split; [|eexists; split; reflexivity] end.
  - eapply finish_conn; [assumption|exact T|exact W|exists []|]; rewrite H0, app_nil_r; auto.
  - eapply finish_conn; [assumption|exact T|exact W|exists (f_left f); reflexivity|discriminate].
  - eapply finish_conn; [assumption|exact T|exact W|exists (f_left f); reflexivity|discriminate].
  - exists None. split; [|reflexivity]. unfold finish. rewrite H. now apply wr_fail.
Qed.
Lemma lock_calm u l u' f : Conn.step u l u' -> calm u u' f -> lock_ok u f -> lock_ok u' f.
Proof.
  intros St [W T] L. unfold lock_ok in *. destruct (f_lock f) as [i|] eqn:E; [|exact L]. destruct L as [Wi Ti]. destruct T as [T|T]; [|discriminate]. split; [|congruence].
  pose proof (W _ _ Wi) as Q. destruct Wi as [Wi|(x & Wi & Hb)]; [left; congruence|right; exists x; split; [congruence|exact Hb]].
Qed.
Lemma lock_moves cap u f a f' : lock_ok u f -> moves cap u f a f' -> lock_ok u f'.
Proof.
  intros L St. inversion St; subst; unfold lock_ok in *; cbn [f_lock f_sent f_left]; auto.
  rewrite H, H0 in L. now rewrite <- app_assoc.
Qed.
Lemma lock_ends u f l u' f' : lock_ok u f -> ends u f l u' f' -> lock_ok u' f'.
Proof.
  intros L St. inversion St; subst; unfold lock_ok in *; cbn [f_lock f_sent f_left]; auto.
  destruct (f_lock f') as [j|] eqn:E; [|exact L]. destruct L as [_ T]. congruence.
Qed.
Definition buffered (cap : nat) (tr : list event) (f : flow) : Prop :=
  f_got f = taken tr /\ taken tr ++ f_buf f = flat_map out (conn_trace tr) ++ f_sent f /\ length (f_buf f) <= cap.

Lemma conn_trace_snoc tr a : conn_trace (tr ++ [a]) = conn_trace tr ++ on_conn a.
Proof. unfold conn_trace. rewrite flat_map_app. cbn. now rewrite app_nil_r. Qed.
Lemma taken_snoc tr a : taken (tr ++ [a]) = taken tr ++ taken_of a.
Proof. unfold taken. rewrite flat_map_app. cbn. now rewrite app_nil_r. Qed.
Ltac bufs := rewrite ?conn_trace_snoc, ?taken_snoc; cbn [f_got f_sent f_buf on_conn taken_of]; rewrite ?flat_map_app, ?app_nil_r; cbn [flat_map out]; rewrite ?app_nil_r.
Lemma buffered_moves cap tr u f a f' : lock_ok u f -> buffered cap tr f -> moves cap u f a f' -> buffered cap (tr ++ [a]) f'.
Proof.
  intros L (G & B & C) St. inversion St; subst; unfold buffered; bufs.
  - unfold lock_ok in L. rewrite H1 in L. destruct L as [L _]. rewrite L, app_nil_r in B. auto.
  - rewrite !app_assoc, B. split; [assumption|]. split; [reflexivity|]. now rewrite app_length.
  - rewrite H in *. rewrite <- B, G, <- !app_assoc. rewrite app_length in C. split; [reflexivity|]. split; [reflexivity|lia].
Qed.
Lemma buffered_ends cap tr u f l u' f' : buffered cap tr f -> ends u f l u' f' -> buffered cap (match l with Some a => tr ++ [a] | None => tr end) f'.
Proof. intros (G & B & C) St. inversion St; subst; unfold buffered; bufs; auto. Qed.
Lemma buffered_conn cap tr e f : out e = [] -> buffered cap tr f -> buffered cap (tr ++ [FConn e]) f.
Proof. intros N (G & B & C). unfold buffered. bufs. rewrite N, app_nil_r. auto. Qed.
Lemma calm_no_out u e u' f : Conn.step u (Some e) u' -> calm u u' f -> out e = [].
Proof. intros St K. destruct e; try reflexivity. exfalso. eapply calm_out; [exact St|exact K|reflexivity]. Qed.
Theorem flow_inv cap tr u f : runs cap tr (u, f) -> Conn.runs (conn_trace tr) u /\ lock_ok u f /\ buffered cap tr f.
Proof.
  intros R. remember (u, f) as s eqn:E. revert u f E. induction R as [|tr s1 s2 R IH St|tr s1 a s2 R IH St]; intros u f E.
  - injection E as <- <-. split; [constructor|]. split; [split; reflexivity|]. split; [reflexivity|]. split; [reflexivity|cbn; lia].
  - destruct s1 as [u1 f1]. destruct (IH _ _ eq_refl) as (A & L & B). subst s2. inversion St as [? ? l ? CS CM| |? ? ? ? ? CR WS]; subst.
    + destruct l; [discriminate|]. split; [eapply exec_tau; eassumption|]. split; [eapply lock_calm; eassumption|exact B].
    + destruct (ends_conn _ _ _ _ _ CR L WS) as (l' & S1 & ->). split; [eapply exec_tau; eassumption|]. split; [eapply lock_ends; eassumption|exact (buffered_ends _ _ _ _ _ _ _ B WS)].
  - destruct s1 as [u1 f1]. destruct (IH _ _ eq_refl) as (A & L & B). subst s2. inversion St as [? ? l ? CS CM|? ? ? ? CR WS|? ? ? ? ? CR WS]; subst; rewrite conn_trace_snoc.
    + destruct l as [e|]; [|discriminate]. match goal with E : option_map _ _ = _ |- _ => injection E as <- end. split; [eapply exec_act; eassumption|]. split; [eapply lock_calm; eassumption|].
      apply buffered_conn; [eapply calm_no_out; eassumption|exact B].
    + split; [|split; [eapply lock_moves; eassumption|eapply buffered_moves; eassumption]]. inversion WS; subst; cbn [on_conn]; now rewrite app_nil_r.
    + destruct (ends_conn _ _ _ _ _ CR L WS) as (l' & S1 & e & -> & ->). split; [eapply exec_act; eassumption|]. split; [eapply lock_ends; eassumption|exact (buffered_ends _ _ _ _ _ _ _ B WS)].
Qed.

(* A write without room stays where it is until the peer takes something. *)
Definition stuck (cap : nat) (u : Conn.state) (f : flow) : Prop :=
  (exists i, f_lock f = Some i /\ f_left f <> []) /\ cap <= length (f_buf f) /\ forall j x, c_pc u j <> PTcp x.
Definition peer_does (a : event) : Prop := match a with FGot _ | FBreak _ _ => True | _ => False end.
Lemma no_new_tcp u l u' f : Conn.step u l u' -> calm u u' f -> (forall j x, c_pc u j <> PTcp x) -> forall j x, c_pc u' j <> PTcp x.
Proof.
  intros St [K _] N. inversion St; subst; cbn [c_pc set_pc]; intros j0 y; unfold upd, start, won, lost in *;
  repeat match goal with |- context[if ?b then _ else _] => destruct b eqn:? end; try discriminate; try apply N; try (destruct o; discriminate).
  exfalso. apply (N i x). rewrite <- (K i close_message) by (right; eauto). cbn. now rewrite upd_eq.
Qed.
Lemma stuck_step cap u f l u' f' : lock_ok u f -> stuck cap u f -> step cap (u, f) l (u', f') -> (forall a, l = Some a -> ~ peer_does a) ->
  f' = f /\ lock_ok u' f /\ stuck cap u' f /\ (forall i, f_lock f = Some i -> c_pc u' i = c_pc u i) /\ forall i p, l <> Some (FConn (EOut i p)).
Proof.
  intros L ((i & E & Ne) & B & N) St Q. inversion St as [? ? l0 ? CS CM|? ? ? ? CR WS|? ? ? ? ? CR WS]; subst.
  - split; [reflexivity|]. split; [eapply lock_calm; eassumption|]. split; [split; [eauto|split; [exact B|eapply no_new_tcp; eassumption]]|]. split.
    + intros k Ek. rewrite E in Ek. injection Ek as <-. unfold lock_ok in L. rewrite E in L. exact (proj1 CM _ _ (proj1 L)).
    + intros k p Ek. destruct l0 as [e|]; [|discriminate]. injection Ek as ->. exact (calm_out _ _ _ _ CS CM _ _ eq_refl).
  - exfalso. inversion WS; subst; [congruence| |exact (Q _ eq_refl Logic.I)].
    assert (1 <= length p) by (destruct p; [contradiction|cbn; lia]). lia.
  - exfalso. inversion WS; subst; [congruence|exact (Q _ eq_refl Logic.I)|exact (N _ _ H0)|]. unfold lock_ok in L. rewrite E in L. destruct L. congruence.
Qed.
Theorem stuck_forever cap u f : lock_ok u f -> stuck cap u f -> forall tr u' f', exec (step cap) (u, f) tr (u', f') -> (forall a, In a tr -> ~ peer_does a) ->
  f' = f /\ lock_ok u' f /\ stuck cap u' f /\ (forall i, f_lock f = Some i -> c_pc u' i = c_pc u i) /\ forall i p, ~ In (FConn (EOut i p)) tr.
Proof.
  intros L S tr u' f' R. remember (u, f) as s eqn:E. remember (u', f') as s' eqn:E'. revert u' f' E'. induction R as [|tr s1 s2 R IH St|tr s1 a s2 R IH St]; intros u' f' E' Q.
  - rewrite E in E'. injection E' as <- <-. repeat split; auto; try apply S; try apply L.
  - subst. destruct s1 as [u1 f1]. destruct (IH _ _ eq_refl Q) as (-> & L1 & S1 & P1 & O1). destruct (stuck_step _ _ _ _ _ _ L1 S1 St) as (-> & L2 & S2 & P2 & O2); [discriminate|].
    split; [reflexivity|]. split; [exact L2|]. split; [exact S2|]. split; [|exact O1]. intros i Ei. now rewrite P2, P1.
  - subst. destruct s1 as [u1 f1]. destruct (IH _ _ eq_refl) as (-> & L1 & S1 & P1 & O1); [intros x Hx; apply Q, in_snoc; now left|].
    destruct (stuck_step _ _ _ _ _ _ L1 S1 St) as (-> & L2 & S2 & P2 & O2); [intros x [= <-]; apply Q, in_snoc; now right|].
    split; [reflexivity|]. split; [exact L2|]. split; [exact S2|]. split; [intros i Ei; now rewrite P2, P1|]. intros i p H. apply in_snoc in H as [H|H]; [exact (O1 _ _ H)|]. apply (O2 i p). now rewrite H.
Qed.

(* When a connection with room has nothing to do, neither has that of Conn.v. *)
Definition flow_rests (cap : nat) (s : state) : Prop := forall l s', step cap s l s' ->
  (exists a, l = Some a /\ peer_does a) \/ (exists i o, l = Some (FConn (ECall i o))) \/ l = Some (FConn ETimer) \/
  (exists i, l = None /\ c_pc (fst s) i = PReading /\ exists r, c_pc (fst s') i = PRet ORead r).
Lemma msg_won tr u i x : Conn.runs tr u -> c_pc u i = PMsg x \/ c_pc u i = PTcp x -> In (EWin i) tr.
Proof.
  intros R P. assert (H : In (EWin i) (proj i tr)); [|now apply in_about in H].
  destruct P as [P|P]; pose proof (i_stage _ _ (runs_inv _ _ R) i) as S; rewrite P in S; cbn in S; [|destruct S as [p S]]; rewrite S; apply in_app_iff; right; cbn; auto.
Qed.
Lemma tcp_closed tr u : Conn.runs tr u -> c_tcp u = false -> c_flag u = true /\ forall i x, c_pc u i <> PMsg x.
Proof.
  intros R. induction R as [|tr s1 s2 R IH St|tr s1 a s2 R IH St]; [discriminate| |]; inversion St; subst; cbn [c_tcp c_flag c_pc set_pc] in *;
  try (intros T; destruct (IH T) as [F N]; split; [exact F|]; intros k y; unfold upd, start, won, lost;
       repeat match goal with |- context[if ?b then _ else _] => destruct b eqn:? end; try discriminate; try apply N; destruct o; discriminate).
  - intros _. assert (W : In (EWin i) tr) by (eapply msg_won; [exact R|right; eassumption]). split; [apply (i_flag _ _ (runs_inv _ _ R)); now exists i|].
    intros k y. destruct (Nat.eq_dec k i) as [->|Ne]; [rewrite upd_eq; discriminate|]. rewrite upd_ne by exact Ne. intros P. apply Ne. apply (i_one _ _ (runs_inv _ _ R)); [|exact W].
    eapply msg_won; [exact R|left; exact P].
  - intros T. destruct (IH T) as [F _]. congruence.
Qed.
Lemma msg_open tr u i x : Conn.runs tr u -> c_pc u i = PMsg x -> c_tcp u = true.
Proof. intros R P. destruct (c_tcp u) eqn:T; [reflexivity|]. exfalso. exact (proj2 (tcp_closed _ _ R T) i x P). Qed.
Lemma closing_one tr u i j x y : Conn.runs tr u -> c_pc u i = PTcp x -> c_pc u j = PMsg y -> False.
Proof.
  intros R P Q. assert (i = j) as -> by (apply (i_one _ _ (runs_inv _ _ R)); (eapply msg_won; [exact R|]); eauto). congruence.
Qed.

(* A write has the lock, bytes left and no room. *)
Definition full (cap : nat) (f : flow) : Prop := (exists i, f_lock f = Some i /\ f_left f <> []) /\ cap <= length (f_buf f).
Lemma full_dec cap f : full cap f \/ ~ full cap f.
Proof.
  unfold full. destruct (f_lock f) as [i|]; [|right; intros [(i & E & _) _]; discriminate]. destruct (f_left f) as [|z q]; [right; intros [(j & _ & N) _]; contradiction|].
  destruct (le_dec cap (length (f_buf f))); [left; split; [exists i; split; [reflexivity|discriminate]|assumption]|right; intros [_ L]; contradiction].
Qed.
(* A step of the connection that cannot be taken yet: some other step can, or there is no room. *)
Lemma enabled cap u f l u' : lock_ok u f -> (forall i x, c_pc u i = PMsg x -> c_tcp u = true) -> Conn.step u l u' -> ~ full cap f ->
  calm u u' f \/ (exists a f', moves cap u f a f' /\ ~ peer_does a) \/
  (exists l0 u0 f0, ends u f l0 u0 f0 /\ (forall a, l0 = Some a -> exists i p, a = FConn (EOut i p)) /\ forall i, c_pc u i = PReading -> c_pc u0 i = PReading).
Proof.
  intros L M St NF. assert (K : forall ok i b j, wants u i b -> c_pc u j = PReading -> c_pc (finish ok u i) j = PReading).
  { intros ok i b j W P. rewrite finish_other; [exact P|]. intros ->. destruct W as [W|(x & W & _)]; congruence. }
  destruct (conn_cases _ _ _ St) as [(W & T & _)|[(i & b & W & _)|(W & (i & x & P & _) & _)]].
  - left. split; [exact W|now left].
  - destruct (c_tcp u) eqn:T.
    + right. destruct (f_lock f) as [j|] eqn:E; [|left; exists (FTake i); eexists; split; [now apply (take cap u f i b)|auto]].
      unfold lock_ok in L. rewrite E in L. destruct L as [Wj _]. destruct (f_left f) as [|z q] eqn:Ef.
      * right. eexists _, _, _. split; [exact (all_put u f j E Ef)|]. split; [intros a [= <-]; eauto|]. intros k. eapply K. exact Wj.
      * left. exists (FPut j [z]). eexists. split; [apply (put cap u f j [z] q E Ef); [discriminate|]|auto]. cbn. destruct (le_lt_dec cap (length (f_buf f))) as [Le|Lt]; [|lia].
        exfalso. apply NF. split; [exists j; rewrite Ef; split; [exact E|discriminate]|exact Le].
    + right. right. destruct W as [W|(x & W & _)]; [|discriminate (M _ _ W)]. eexists _, _, _. split; [exact (too_late u f i b W T)|]. split; [discriminate|]. intros k. eapply K. left. exact W.
  - destruct (f_lock f) as [j|] eqn:E; [|left; split; [exact W|now right]].
    right. right. unfold lock_ok in L. rewrite E in L. eexists _, _, _. split; [exact (evicted u f i j x E P)|]. split; [intros a [= <-]; eauto|]. intros k. eapply K. exact (proj1 L).
Qed.
Theorem flow_rest cap tr u f : runs cap tr (u, f) -> flow_rests cap (u, f) -> stuck cap u f \/ conn_rests u.
Proof.
  intros R Q. destruct (flow_inv _ _ _ _ R) as (Rc & L & _). destruct (i_alive _ _ (runs_inv _ _ Rc)) as [Cr _].
  destruct (full_dec cap f) as [[(i & E & Ne) B]|NF].
  - left. split; [eauto|]. split; [exact B|]. intros j x P.
    destruct (Q _ _ (end_ cap _ _ _ _ _ Cr (evicted u f j i x E P))) as [(a & H & D)|[(k & o & H)|[H|(k & H & _)]]]; try discriminate. injection H as <-. exact D.
  - right. intros l u' St. destruct (enabled cap _ _ _ _ L (fun i x => msg_open _ _ i x Rc) St NF) as [K|[(a & f' & K & N)|(l0 & u0 & f0 & K & N & N')]].
    + destruct (Q _ _ (conn cap _ _ _ _ St K)) as [(a & H & D)|[(i & o & H)|[H|(i & H & P)]]].
      * destruct l as [e|]; [injection H as <-; contradiction|discriminate].
      * destruct l as [e|]; [injection H as ->; left; eauto|discriminate].
      * destruct l as [e|]; [injection H as ->; right; left; reflexivity|discriminate].
      * destruct l as [e|]; [discriminate|]. right. right. exists i. split; [reflexivity|exact P].
    + exfalso. destruct (Q _ _ (move cap _ _ _ _ Cr K)) as [(a' & H & D)|[(i & o & H)|[H|(i & H & _)]]]; [injection H as <-; contradiction| | |discriminate]; injection H as ->; inversion K.
    + exfalso. destruct (Q _ _ (end_ cap _ _ _ _ _ Cr K)) as [(a & H & D)|[(i & o & H)|[H|(i & H & P & r & P')]]].
      * destruct (N _ H) as (i & p & ->). contradiction.
      * destruct (N _ H) as (i' & p & Z). discriminate.
      * destruct (N _ H) as (i' & p & Z). discriminate.
      * cbn in P, P'. rewrite (N' _ P) in P'. discriminate.
Qed.
(* The steps of a run: those of Conn.v and for each of its writes and each byte a bounded number. *)
Lemma out_len_app (x y : list Conn.event) : flat_map out (x ++ y) = flat_map out x ++ flat_map out y.
Proof. apply flat_map_app. Qed.
Theorem flow_steps cap n tr s : steps (step cap) (Conn.init, no_flow) n tr s -> exists m, steps Conn.step Conn.init m (conn_trace tr) (fst s) /\
  n <= 2 * m + length (match f_lock (snd s) with Some _ => [0] | None => [] end) + length (f_buf (snd s)) + 2 * length (taken tr).
Proof.
  intros H. induction H as [|n tr s1 s2 H IH St|n tr s1 a s2 H IH St]; [exists 0; split; [constructor|cbn; lia]| |]; destruct IH as (m & A & Le); destruct s1 as [u f]; destruct s2 as [u2 f2]; cbn [fst snd] in *.
  - destruct (flow_inv cap tr u f (CountedFacts.steps_exec _ _ _ _ _ H)) as (_ & L & _). inversion St as [? ? l ? CS CM| |? ? ? ? ? CR WS]; subst.
    + destruct l; [discriminate|]. exists (S m). split; [eapply steps_tau; eassumption|]. lia.
    + destruct (ends_conn _ _ _ _ _ CR L WS) as (l' & S1 & ->). exists (S m). split; [eapply steps_tau; eassumption|]. inversion WS; subst. lia.
  - destruct (flow_inv cap tr u f (CountedFacts.steps_exec _ _ _ _ _ H)) as (_ & L & _). rewrite conn_trace_snoc, taken_snoc, app_length. inversion St as [? ? l ? CS CM|? ? ? ? CR WS|? ? ? ? ? CR WS]; subst.
    + destruct l as [e|]; [|discriminate]. match goal with E : option_map _ _ = _ |- _ => injection E as <- end. exists (S m). split; [eapply steps_act; eassumption|]. lia.
    + exists m. inversion WS; subst; cbn [on_conn taken_of f_buf f_lock]; rewrite ?app_nil_r; (split; [exact A|]); cbn [length] in *.
      * rewrite H2 in Le. cbn in Le. lia.
      * rewrite H0 in Le. cbn in Le. rewrite app_length. assert (1 <= length p) by (destruct p; [contradiction|cbn; lia]). lia.
      * rewrite H0, app_length in Le. assert (1 <= length p) by (destruct p; [contradiction|cbn; lia]). lia.
    + destruct (ends_conn _ _ _ _ _ CR L WS) as (l' & S1 & e & -> & ->). exists (S m). split; [eapply steps_act; eassumption|]. inversion WS; subst; cbn [f_lock f_buf taken_of length] in *; rewrite ?app_nil_r in *; destruct (f_lock f); cbn [length] in *; lia.
Qed.
