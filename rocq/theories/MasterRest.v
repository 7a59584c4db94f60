(* The master's goroutines end: a measure that its own steps lower, and what is true when there are
   none left. *)
From Coq Require Import List Arith Bool Lia ZArith.
From Verif Require Import Base BaseFacts Lts Counted CountedFacts Log LogSpec LogProofs Persist PersistSpec PersistProofs Replication ReplicationProofs Master MasterProofs MasterRestSpec.
Import ListNotations.
Local Open Scope nat_scope.

Ltac moves M := destruct M as [m S|m L|m h0 p L N P|m h0 L N P|m f N|m p d ws p' ws' P W|m p ws p' ws' P W|m h0 N B|m h0 N|m h0 p ws p' ws' N P W Er|m h0 p ws p' ws' N P W Er|m h0 t p k0 N P L|m h0 t p N P L|m h0 t N Op|m h0 t p N Op Pt|m h0 t N Op|m h0 t p N Op Pt|m h0 N|m h0 N B|m h0 N|m h0 N|m S|m S B|m S|m h0 l0 s0 S C V|m l0 s0 S V|m l0 s0 h0 S B].

Lemma accepted_ext tr l : accepted (ext tr l) = accepted tr ++ match l with Some (MAccept h) => [h] | _ => [] end.
Proof. unfold accepted. rewrite flat_one. destruct l as [[]|]; reflexivity. Qed.
Lemma log_ext tr l : log (ext tr l) = log tr ++ match l with Some (MFile f) => f | Some (MLog d) => d | _ => [] end.
Proof. unfold log. rewrite flat_one. destruct l as [[]|]; reflexivity. Qed.
Lemma in_accepted tr h : In h (accepted tr) <-> In (MAccept h) tr.
Proof.
  unfold accepted. rewrite in_flat_map. split.
  - intros (a & H & Ha). destruct a; cbn in Ha; try contradiction. destruct Ha as [->|[]]. exact H.
  - intros H. exists (MAccept h). cbn. auto.
Qed.
Definition seen (m : master) : list nat := match m_stop m with SRange _ s => s | _ => [] end.
Lemma over_stays m l m' h : move m l m' -> m_h m h = HOver -> m_h m' h = HOver.
Proof.
  intros M E. moves M; unf; auto; (destruct (Nat.eq_dec h h0) as [->|Hne]; [|rewrite ?upd_ne by exact Hne; auto]); try congruence; rewrite ?upd_eq; try congruence.
Qed.
Record inv (tr : list event) (m : master) : Prop := mkInv {
  i_nodup : NoDup (accepted tr);
  i_acc : forall h, m_h m h = HNone <-> ~ In h (accepted tr);
  i_conn : incl (m_conn m) (accepted tr);
  i_seen : NoDup (seen m) /\ incl (seen m) (accepted tr);
  i_file : forall h, m_h m h <> HNone -> m_h m h <> HOver -> m_file m <> None;
  i_stop : In MStop tr -> m_shut m = true /\ m_stop m <> SNone;
  i_over : m_stop m = SOver -> In MStopped tr }.
Lemma runs_inv tr m : runs tr m -> inv tr m.
Proof.
  revert tr m. apply (runs_ind' inv).
  { constructor; cbn [new m_h m_conn m_stop m_file accepted flat_map seen].
    - constructor.
    - intros h. split; [intros _ []|reflexivity].
    - intros h [].
    - split; [constructor|intros h []].
    - intros h H. congruence.
    - intros [].
    - discriminate. }
  intros tr m l m' R [I1 I2 I3 [I4 I5] I6 I7 I8] M. pose proof (fun h => proj2 (proj2 (pc_stays _ _ _ h M))) as ST.
  assert (Acc : forall h0, l = Some (MAccept h0) -> m_h m h0 = HNone /\ m_h m' h0 <> HNone) by (intros h0 ->; inversion M; subst; unf; rewrite upd_eq; split; congruence).
  assert (J1 : NoDup (accepted (ext tr l))).
  { rewrite accepted_ext. destruct l as [[]|]; rewrite ?app_nil_r; auto. apply nodup_snoc; [exact I1|]. apply I2. now apply Acc. }
  assert (J3 : incl (accepted tr) (accepted (ext tr l))) by (rewrite accepted_ext; apply incl_appl, incl_refl).
  assert (J2 : forall h, m_h m' h = HNone <-> ~ In h (accepted (ext tr l))).
  { intros h. rewrite accepted_ext, in_app_iff. split.
    - intros E [X|X].
      + destruct (m_h m h) eqn:Eh; try (apply (ST h); [rewrite Eh; discriminate|exact E]). now apply I2 in Eh.
      + destruct l as [[]|]; cbn in X; try contradiction. destruct X as [<-|[]]. now apply (Acc h0 eq_refl).
    - intros X. assert (E : m_h m h = HNone) by (apply I2; tauto). moves M; unf; auto.
      all: destruct (Nat.eq_dec h h0) as [->|Hne]; [|rewrite ?upd_ne by exact Hne; auto]; try congruence.
      + exfalso. apply X. right. now left.
      + exfalso. apply X. right. now left.
      + rewrite E in N. contradiction. }
  constructor; auto.
  - intros h Hh. assert (In h (m_conn m) \/ m_h m h <> HNone) as [X|X].
    { moves M; unf; auto. - destruct Hh as [->|Hh]; [right; congruence|auto]. - apply in_remove in Hh. tauto. }
    + now apply J3, I3.
    + apply J3. destruct (in_dec Nat.eq_dec h (accepted tr)) as [Y|Y]; [exact Y|]. apply I2 in Y. contradiction.
  - unfold seen in *. moves M; unf; try (split; [exact I4|eapply incl_tran; [exact I5|exact J3]]); try rewrite S in *; try (split; [constructor|easy]).
    split; [constructor; assumption|]. intros x [<-|Hx]; apply J3; [now apply I3|now apply I5].
  - intros h H1 H2. assert (m_file m <> None \/ l = Some (MAccept h)) as [X|X].
    { destruct (m_h m h) eqn:Eh; try (left; apply (I6 h); rewrite Eh; discriminate).
      - moves M; unf; try congruence; (destruct (Nat.eq_dec h h0) as [->|Hne]; [|rewrite ?upd_ne in H1 by exact Hne; congruence]); try congruence; auto. rewrite Eh in N. contradiction.
      - exfalso. apply H2. exact (over_stays _ _ _ h M Eh). }
    + moves M; unf; auto; discriminate.
    + subst l. inversion M; subst; unf; [congruence|]. rewrite upd_eq in H2. congruence.
  - intros X. apply in_ext_inv in X as [X|X].
    + specialize (I7 X). moves M; unf; auto; destruct I7; split; auto; discriminate.
    + subst l. inversion M; subst; unf. split; [reflexivity|discriminate].
  - intros X. moves M; unf; try (apply in_ext; apply I8; congruence); try discriminate X. cbn. apply in_app_iff. right. now left.
Qed.

(* ---- nothing left to do ---- *)
Lemma not_idle m l m' : at_rest m -> step m l m' -> ~ outside m l m' -> failure m l.
Proof. intros A St N. destruct (A _ _ St) as [O|F]; [contradiction|exact F]. Qed.
Ltac moved A C M := exfalso; destruct (A _ _ (conj C M)) as [O|(hh & O & _)]; [cbn in O|discriminate O]; try exact O.
Lemma upd_moves (f : nat -> handler) h x : f h <> x -> upd f h x <> f.
Proof. intros N E. apply N. apply (f_equal (fun g => g h)) in E. rewrite upd_eq in E. now symmetry. Qed.
Lemma not_changing tr m : runs tr m -> m_crash m = false -> at_rest m -> m_busy m = None.
Proof.
  intros R C A. destruct (m_busy m) as [g|] eqn:B; [|reflexivity]. pose proof (proj1 (busy_ok _ _ R g) B) as G. destruct (m_h m g) eqn:E; try discriminate G.
  - moved A C (put_done m g E).
  - moved A C (del_done m g E).
Qed.
Lemma all_over tr m h : runs tr m -> m_crash m = false -> at_rest m -> In (MAccept h) tr -> m_h m h = HOver.
Proof.
  intros R C A Hh. pose proof (runs_inv _ _ R) as I. pose proof (not_changing _ _ R C A) as B.
  assert (N : m_h m h <> HNone) by (intros E; apply (i_acc _ _ I) in E; apply E; now apply in_accepted).
  destruct (m_h m h) as [| | | |t|t|t| | | |] eqn:E; [congruence|..|reflexivity].
  all: assert (F : m_file m <> None) by (apply (i_file _ _ I h); rewrite E; discriminate); destruct (m_file m) as [p|] eqn:P; [clear F|congruence].
  - moved A C (put m h E B).
  - moved A C (put_done m h E).
  - destruct (flush p []) as [p' ws'] eqn:W. destruct (p_err p') eqn:Er.
    + exfalso. destruct (A _ _ (conj C (flush_err_ m h p [] p' ws' E P W Er))) as [O|(hh & O & Op & F)]; [exact O|]. specialize (F p P).
      unfold flush in W. rewrite F in W. destruct (p_buf p) as [|c b]; [injection W as <- _; congruence|]. cbn in W. injection W as <- _. discriminate Er.
    + moved A C (flush_ok_ m h p [] p' ws' E P W Er).
  - pose proof (runs_hand _ _ R h) as H. unfold hand in H. rewrite E in H. destruct H as (_ & _ & Bg & _). unfold contents in Bg. rewrite P in Bg.
    assert (Lt : List.length t <= List.length (p_file p)) by (destruct Bg as [c ->]; rewrite app_length; lia).
    destruct (Nat.eq_dec (List.length t) (List.length (p_file p))) as [Eq|Ne].
    + moved A C (copied m h t p E P Eq).
    + exfalso. destruct (A _ _ (conj C (copy m h t p (List.length (p_file p)) E P ltac:(lia)))) as [[O _]|(hh & O & _)]; [|discriminate O].
      cbn [set_h m_h] in O. revert O. apply upd_moves. rewrite E, firstn_all. intros X. injection X as X. apply Ne. now rewrite X.
  - destruct (m_open m h) eqn:Op.
    + moved A C (head m h t E Op).
    + exfalso. destruct (A _ _ (conj C (fail m h ltac:(rewrite E; exact Logic.I)))) as [X|(hh & X & Y & _)]; [exact X|]. injection X as <-. congruence.
  - destruct (m_open m h) eqn:Op.
    + moved A C (body m h t E Op).
    + exfalso. destruct (A _ _ (conj C (fail m h ltac:(rewrite E; exact Logic.I)))) as [X|(hh & X & Y & _)]; [exact X|]. injection X as <-. congruence.
  - moved A C (del m h E B).
  - moved A C (del_done m h E).
  - exfalso. destruct (A _ _ (conj C (close_ m h E))) as [[O _]|(hh & O & _)]; [|discriminate O]. cbn [over set_h set_open m_h] in O. revert O. apply upd_moves. rewrite E. discriminate.
Qed.
Lemma stop_over tr m : runs tr m -> m_crash m = false -> at_rest m -> In MStop tr -> In MStopped tr.
Proof.
  intros R C A Hs. pose proof (runs_inv _ _ R) as I. pose proof (not_changing _ _ R C A) as B. destruct (i_stop _ _ I Hs) as [_ Ns].
  destruct (m_stop m) as [| | |l s|] eqn:S; [congruence|..|now apply (i_over _ _ I)].
  - exfalso. destruct (A _ _ (conj C (stop_lock m S B))) as [[_ O]|(hh & O & _)]; [|discriminate O]. cbn in O. rewrite S in O. discriminate O.
  - exfalso. destruct (A _ _ (conj C (stop_loop m S))) as [[_ O]|(hh & O & _)]; [|discriminate O]. cbn in O. rewrite S in O. discriminate O.
  - destruct (existsb (fun h => negb (existsb (Nat.eqb h) s)) (m_conn m)) eqn:X.
    + apply existsb_exists in X as (h & Hh & X). apply negb_true_iff in X.
      assert (Nh : ~ In h s) by (intros Y; assert (existsb (Nat.eqb h) s = true) by (apply existsb_exists; exists h; split; [exact Y|apply Nat.eqb_refl]); congruence).
      moved A C (stop_visit m h l s S Hh Nh).
    + assert (V : forall h, In h l -> In h (m_conn m) -> In h s).
      { intros h _ Hh. destruct (in_dec Nat.eq_dec h s) as [Y|Y]; [exact Y|]. exfalso. enough (existsb (fun h => negb (existsb (Nat.eqb h) s)) (m_conn m) = true) by congruence.
        apply existsb_exists. exists h. split; [exact Hh|]. apply negb_true_iff. destruct (existsb (Nat.eqb h) s) eqn:Z; [|reflexivity]. apply existsb_exists in Z as (k & Hk & Ek). apply Nat.eqb_eq in Ek. subst. contradiction. }
      moved A C (stop_end m l s S V).
Qed.
Theorem rest tr m : runs tr m -> m_crash m = false -> at_rest m ->
  (forall h, In (MAccept h) tr -> m_h m h = HOver) /\ (forall x f y h, tr = x ++ MFile f :: y -> In (MAccept h) y -> m_open m h = false) /\ (In MStop tr -> In MStopped tr).
Proof.
  intros R C A. split; [intros h; exact (all_over tr m h R C A)|]. split; [|exact (stop_over tr m R C A)].
  intros x f y h -> Hh. eapply over_closed; [exact R|eauto|]. apply (all_over _ _ h R C A). apply in_app_iff. right. now right.
Qed.

(* ---- the measure ---- *)
Definition hcost (n : nat) (p : handler) : nat :=
  match p with
  | HNone | HOver => 0 | HClose => 1 | HDel => 2 | HDone => 3 | HBody _ => 4 | HHead _ => 5
  | HCopy t => 6 + (n - List.length t) | HFlush => 7 + n | HPut => 8 + n | HAsk => 9 + n
  end.
Definition scost (n : nat) (x : stopper) : nat := match x with SNone | SOver => 0 | SRange _ s => 1 + (n - List.length s) | SLoop => 2 + n | SLock => 3 + n end.
Definition cost (n : nat) (acc : list nat) (m : master) : nat :=
  list_sum (map (fun h => hcost n (m_h m h)) acc) + scost (List.length acc) (m_stop m) + (if m_crash m then 0 else 1).
Lemma file_le tr m p : runs tr m -> m_file m = Some p -> List.length (p_file p) <= List.length (log tr).
Proof. intros R P. pose proof (runs_file _ _ R) as F. unfold file_inv in F. rewrite P in F. destruct F as [_ [c F]]. rewrite F, app_length. lia. Qed.
Lemma lowers tr m l m' : runs tr m -> step m l m' -> ~ outside m l m' -> cost (List.length (log tr)) (accepted tr) m' < cost (List.length (log tr)) (accepted tr) m.
Proof.
  intros R [Cr M] O. pose proof (runs_inv _ _ R) as I. set (n := List.length (log tr)) in *. set (acc := accepted tr) in *.
  assert (U : forall h x, m_h m h <> HNone -> hcost n x < hcost n (m_h m h) -> list_sum (map (fun j => hcost n (upd (m_h m) h x j)) acc) < list_sum (map (fun j => hcost n (m_h m j)) acc)).
  { intros h x N Lt. assert (Hi : In h acc) by (destruct (in_dec Nat.eq_dec h acc) as [Y|Y]; [exact Y|]; apply (i_acc _ _ I) in Y; contradiction).
    pose proof (sum_upd (hcost n) (m_h m) h x acc (i_nodup _ _ I) Hi). lia. }
  pose proof (fun p => file_le tr m p R) as FL. fold n in FL.
  unfold cost. moves M; unf; cbn [outside] in O; try (now contradiction O); try rewrite Cr; try (exfalso; apply O; now split).
  all: try (match goal with N : m_h ?mm ?i = _, V : forall h x, _ -> hcost _ _ < _ -> _ |- context [upd (m_h ?mm) ?i ?x] => pose proof (V i x) as G; rewrite N in G end; cbn [hcost] in G; specialize (G ltac:(discriminate)); try (match goal with |- context [p_dead ?q] => destruct (p_dead q) end); specialize (G ltac:(cbn [List.length]; lia)); lia).
  - match goal with |- context [upd (m_h m) h0 ?x] => assert (G := U h0 x) end. rewrite N in G. cbn [hcost] in G. specialize (G ltac:(discriminate)).
    pose proof (FL p P). rewrite firstn_length in G. specialize (G ltac:(lia)). lia.
  - match goal with |- context [upd (m_h m) h0 ?x] => assert (G := U h0 x) end. destruct (m_h m h0); try (now contradiction N); cbn [hcost] in G; specialize (G ltac:(discriminate) ltac:(lia)); lia.
  - rewrite S. cbn [scost]. lia.
  - rewrite S. cbn [scost List.length]. lia.
  - rewrite S. cbn [scost List.length]. destruct (i_seen _ _ I) as [ND IN]. unfold seen in ND, IN. rewrite S in ND, IN.
    assert (List.length (h0 :: s0) <= List.length acc); [|cbn [List.length] in *; lia]. apply NoDup_incl_length; [constructor; assumption|].
    intros x [<-|Hx]; [now apply (i_conn _ _ I)|now apply IN].
  - rewrite S. cbn [scost]. lia.
  - lia.
Qed.
Lemma cost_le n acc m : cost n acc m <= (n + 10) * List.length acc + 4.
Proof.
  unfold cost. assert (H : list_sum (map (fun h => hcost n (m_h m h)) acc) <= (n + 9) * List.length acc) by (apply sum_le; intros i; destruct (m_h m i); cbn [hcost]; lia).
  assert (scost (List.length acc) (m_stop m) <= 3 + List.length acc) by (destruct (m_stop m); cbn [scost]; lia). destruct (m_crash m); nia.
Qed.
Theorem bound tr m n tr' m' : runs tr m -> Counted.steps own m n tr' m' -> n <= (List.length (log tr) + 10) * List.length (accepted tr) + 4.
Proof.
  intros R H. enough (X : runs (tr ++ tr') m' /\ log (tr ++ tr') = log tr /\ accepted (tr ++ tr') = accepted tr /\ n + cost (List.length (log tr)) (accepted tr) m' <= cost (List.length (log tr)) (accepted tr) m)
    by (pose proof (cost_le (List.length (log tr)) (accepted tr) m); lia).
  induction H as [|n tr1 s1 s2 H IH St|n tr1 s1 a s2 H IH St].
  - rewrite app_nil_r. auto.
  - destruct IH as (R1 & L1 & A1 & C1). destruct St as [St O]. split; [exact (exec_tau _ _ _ _ _ R1 St)|]. split; [exact L1|]. split; [exact A1|].
    pose proof (lowers _ _ _ _ R1 St O) as Lw. rewrite L1, A1 in Lw. lia.
  - destruct IH as (R1 & L1 & A1 & C1). destruct St as [St O]. rewrite app_assoc. split; [exact (exec_act _ _ _ _ _ _ R1 St)|].
    pose proof (lowers _ _ _ _ R1 St O) as Lw. rewrite L1, A1 in Lw.
    pose proof (log_ext (tr ++ tr1) (Some a)) as LE. pose proof (accepted_ext (tr ++ tr1) (Some a)) as AE. cbn [ext] in LE, AE.
    destruct a; cbn [outside] in O; try (now contradiction O); rewrite app_nil_r in LE, AE; rewrite LE, AE; auto with arith; repeat split; auto; lia.
Qed.

(* ---- service ---- *)
Lemma flush_all tr m p : runs tr m -> m_file m = Some p -> p_err p = false -> exists ws', flush p [] = (mkPfile (log tr) [] false false, ws').
Proof.
  intros R P E. pose proof (runs_file _ _ R) as F. unfold file_inv in F. rewrite P in F. destruct F as [F _]. destruct (F E) as [D <-]. unfold flush. rewrite E.
  destruct p as [f b e d]. cbn [p_file p_buf p_err p_dead] in *. subst e d. destruct b as [|c b]; [rewrite app_nil_r; eauto|]. cbn [next_out file_write]. rewrite skipn_all. eauto.
Qed.
Lemma served tr m p h : runs tr m -> m_crash m = false -> m_file m = Some p -> p_err p = false -> m_busy m = None -> m_h m h = HAsk -> m_open m h = true ->
  exists m', exec step m [MPut h; MPutDone h; MFlush h; MCopied h; MOut h (le32 (blen (log tr))); MOut h (log tr); MDel h; MDelDone h] m' /\ m_crash m' = false /\ m_h m' h = HOver /\ m_open m' h = false.
Proof.
  intros R C P E B N O. destruct (flush_all tr m p R P E) as [ws' F].
  assert (Cp : forall m1, m_crash m1 = false -> m_file m1 = Some (mkPfile (log tr) [] false false) -> m_h m1 h = HCopy [] ->
    exists m2, exec step m1 [MCopied h] m2 /\ m_crash m2 = false /\ m_h m2 h = HHead (log tr) /\ m_open m2 = m_open m1 /\ m_busy m2 = m_busy m1).
  { intros m1 C1 P1 N1. destruct (log tr) as [|c b] eqn:EL.
    - eexists. split; [apply exec_one; split; [exact C1|]; exact (copied m1 h [] _ N1 P1 eq_refl)|]. unf. rewrite upd_eq. auto.
    - eexists. split.
      + eapply exec_cons_tau; [split; [exact C1|]; exact (copy m1 h [] _ (List.length (c :: b)) N1 P1 ltac:(cbn; lia))|].
        apply exec_one. split; [exact C1|]. eapply (copied _ h); unf; [apply upd_eq|exact P1|]. cbn [p_file]. now rewrite firstn_all.
      + unf. rewrite upd_eq. cbn [p_file]. rewrite firstn_all. auto. }
  set (m1 := set_map (set_h m h HPut) (m_conn m) (Some h)).
  set (m2 := set_map (set_h m1 h HFlush) (h :: m_conn m1) None).
  set (m3 := set_file (set_h m2 h (HCopy [])) (mkPfile (log tr) [] false false)).
  destruct (Cp m3 eq_refl eq_refl ltac:(cbn; now rewrite upd_eq)) as (m4 & X4 & C4 & N4 & O4 & B4).
  assert (O4' : m_open m4 h = true) by (rewrite O4; exact O). assert (B4' : m_busy m4 = None) by (rewrite B4; reflexivity).
  set (m5 := set_h m4 h (HBody (log tr))). set (m6 := set_h m5 h HDone). set (m7 := set_map (set_h m6 h HDel) (m_conn m6) (Some h)).
  set (m8 := set_map (set_h m7 h HClose) (remove Nat.eq_dec h (m_conn m7)) None).
  exists (over m8 h). split; [|split; [exact C4|split; cbn; apply upd_eq]].
  eapply (exec_cons _ _ m1); [split; [exact C|exact (put m h N B)]|].
  eapply (exec_cons _ _ m2); [split; [exact C|apply put_done; cbn; apply upd_eq]|].
  eapply (exec_cons _ _ m3); [split; [exact C|eapply (flush_ok_ m2 h p []); [cbn; apply upd_eq|exact P|exact F|reflexivity]]|].
  apply (exec_app _ _ m4 _ [_]); [exact X4|].
  eapply (exec_cons _ _ m5); [split; [exact C4|apply (head m4 h); assumption]|].
  eapply (exec_cons _ _ m6); [split; [exact C4|apply (body m5 h); [cbn; apply upd_eq|exact O4']]|].
  eapply (exec_cons _ _ m7); [split; [exact C4|apply (del m6 h); [cbn; apply upd_eq|exact B4']]|].
  eapply (exec_cons _ _ m8); [split; [exact C4|apply (del_done m7 h); cbn; apply upd_eq]|].
  apply exec_one_tau. split; [exact C4|]. apply close_. cbn. apply upd_eq.
Qed.
Definition calm (a : event) : Prop := match a with MStart | MFile _ | MLog _ | MAccept _ | MFail _ | MStop | MVisit _ | MStopped | MCrash => False | _ => True end.
Theorem serves tr m p h : runs tr m -> m_crash m = false -> m_loop m = true -> m_file m = Some p -> p_err p = false -> ~ In (MAccept h) tr ->
  exists tr' m', exec step m (MAccept h :: tr') m' /\ m_crash m' = false /\ Forall calm tr' /\ sent h tr' = le32 (blen (log tr)) ++ log tr /\ m_open m' h = false.
Proof.
  intros R C L P E N. pose proof (runs_inv _ _ R) as I.
  assert (Hn : m_h m h = HNone) by (apply (i_acc _ _ I); now rewrite in_accepted).
  pose proof (accept m h p L Hn P) as St. set (ma := set_open (set_h m h HAsk) h true) in *.
  (* the map is free after at most one step *)
  assert (F : exists tr0 m0, exec step ma tr0 m0 /\ Forall calm tr0 /\ sent h tr0 = [] /\ log tr0 = [] /\ m_crash m0 = false /\ m_file m0 = Some p /\ m_busy m0 = None /\ m_h m0 h = HAsk /\ m_open m0 h = true).
  { destruct (m_busy m) as [g|] eqn:B.
    - pose proof (proj1 (busy_ok _ _ R g) B) as G. assert (g <> h) by (intros ->; rewrite Hn in G; discriminate G).
      destruct (m_h m g) eqn:Eg; try discriminate G.
      + eexists [MPutDone g], _. split; [apply exec_one; split; [exact C|]; apply put_done; cbn; rewrite upd_ne by assumption; exact Eg|].
        split; [repeat constructor|]. repeat (split; [reflexivity || assumption|]). cbn. rewrite !upd_ne by congruence. now rewrite !upd_eq.
      + eexists [MDelDone g], _. split; [apply exec_one; split; [exact C|]; apply del_done; cbn; rewrite upd_ne by assumption; exact Eg|].
        split; [repeat constructor|]. repeat (split; [reflexivity || assumption|]). cbn. rewrite !upd_ne by congruence. now rewrite !upd_eq.
    - eexists [], _. split; [apply exec_start|]. split; [constructor|]. repeat (split; [reflexivity || assumption|]). cbn. now rewrite !upd_eq. }
  destruct F as (tr0 & m0 & X0 & K0 & S0 & L0 & C0 & P0 & B0 & N0 & O0).
  assert (R0 : runs (tr ++ MAccept h :: tr0) m0) by (eapply exec_app; [exact R|]; eapply exec_cons; [split; [exact C|exact St]|exact X0]).
  assert (LL : log (tr ++ MAccept h :: tr0) = log tr) by (unfold log in *; rewrite flat_map_app; cbn [flat_map app]; rewrite L0; apply app_nil_r).
  destruct (served _ _ p h R0 C0 P0 E B0 N0 O0) as (m' & X & C' & _ & O'). rewrite LL in X.
  eexists (tr0 ++ _), m'. split; [eapply exec_cons; [split; [exact C|exact St]|]; eapply exec_app; [exact X0|exact X]|]. split; [exact C'|].
  split; [apply Forall_app; split; [exact K0|repeat constructor]|]. split; [|exact O'].
  unfold sent in *. rewrite flat_map_app, S0. cbn. rewrite !Nat.eqb_refl. now rewrite app_nil_r.
Qed.
(* ---- the end of the accept loop ---- *)
Lemma deaf m tr m' : m_started m = true -> m_loop m = false -> exec step m tr m' -> forall h, ~ In (MAccept h) tr.
Proof.
  intros S L X. assert (G : m_started m' = true /\ m_loop m' = false /\ forall h, ~ In (MAccept h) tr); [|apply G].
  induction X as [|tr a b X IH [_ M]|tr a e b X IH [_ M]]; [auto| |]; destruct IH as (S1 & L1 & IH).
  - split; [|split; [|exact IH]]; destruct M; unf; congruence.
  - split; [|split]; [destruct M; unf; congruence|destruct M; unf; congruence|]. intros h Hh. apply in_app_iff in Hh as [Hh|[->|[]]]; [exact (IH h Hh)|]. inversion M; subst; congruence.
Qed.
