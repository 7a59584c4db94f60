(* Invariants of the master. *)
From Coq Require Import List Arith Bool Lia ZArith.
From Verif Require Import Base BaseFacts Lts Log LogSpec LogProofs Persist PersistSpec PersistProofs Replication ReplicationProofs Master.
Import ListNotations.
Local Open Scope nat_scope.

Definition ext (tr : list event) (l : option event) : list event := match l with None => tr | Some a => tr ++ [a] end.
Lemma runs_ind' (I : list event -> master -> Prop) : I [] new -> (forall tr m l m', runs tr m -> I tr m -> move m l m' -> I (ext tr l) m') -> forall tr m, runs tr m -> I tr m.
Proof.
  intros H0 Hs tr m H. unfold runs in H. induction H as [|tr s1 s2 H IH [_ M]|tr s1 a s2 H IH [_ M]]; [exact H0| |].
  - exact (Hs tr s1 None s2 H IH M).
  - exact (Hs tr s1 (Some a) s2 H IH M).
Qed.
Lemma in_ext tr l a : In a tr -> In a (ext tr l).
Proof. destruct l; cbn; auto. intros H. apply in_app_iff. auto. Qed.
Lemma in_ext_inv tr l a : In a (ext tr l) -> In a tr \/ l = Some a.
Proof. destruct l; cbn; auto. intros H. apply in_app_iff in H as [H|[->|[]]]; auto. Qed.
Definition one {B} (f : event -> list B) (l : option event) : list B := match l with Some a => f a | None => [] end.
Lemma flat_one {B} (f : event -> list B) tr l : flat_map f (ext tr l) = flat_map f tr ++ one f l.
Proof. destruct l; cbn; [|now rewrite app_nil_r]. rewrite flat_map_app. cbn. now rewrite app_nil_r. Qed.
Ltac unf := unfold over, set_h, set_open, set_map, set_file, set_stop in *; cbn [m_loop m_started m_shut m_conn m_busy m_h m_open m_file m_stop m_crash] in *.

(* The log. *)
Definition file_inv (tr : list event) (m : master) : Prop := match m_file m with None => log tr = [] | Some p => PersistProofs.inv p (log tr) end.
Lemma runs_file tr m : runs tr m -> file_inv tr m.
Proof.
  revert tr m. apply runs_ind'; [reflexivity|]. intros tr m l m' _ I M. unfold file_inv, log in *. rewrite flat_one.
  destruct M; unf; cbn [one]; rewrite ?app_nil_r; try exact I.
  - rewrite H in I. rewrite I. apply inv_open.
  - rewrite H in I. pose proof (write_ok _ ws _ d I) as W. rewrite H0 in W. apply W.
  - rewrite H in I. pose proof (flush_ok _ ws _ I) as W. rewrite H0 in W. apply W.
  - rewrite H0 in I. pose proof (flush_ok _ ws _ I) as W. rewrite H1 in W. apply W.
  - rewrite H0 in I. pose proof (flush_ok _ ws _ I) as W. rewrite H1 in W. apply W.
Qed.
(* The file only grows. *)
Definition contents (m : master) : bytes := match m_file m with Some p => p_file p | None => [] end.
Lemma grows tr m l m' : runs tr m -> move m l m' -> begins (contents m) (contents m').
Proof.
  intros R M. pose proof (runs_file _ _ R) as I. unfold file_inv, contents in *. destruct M; unf; auto using begins_refl.
  - rewrite H. exists f. reflexivity.
  - rewrite H in *. pose proof (write_ok _ ws _ d I) as W. rewrite H0 in W. apply W.
  - rewrite H in *. pose proof (flush_ok _ ws _ I) as W. rewrite H0 in W. apply W.
  - rewrite H0 in *. pose proof (flush_ok _ ws _ I) as W. rewrite H1 in W. apply W.
  - rewrite H0 in *. pose proof (flush_ok _ ws _ I) as W. rewrite H1 in W. apply W.
Qed.

(* What is sent. *)
Definition copy_of (h : nat) (tr : list event) (t : bytes) : Prop :=
  exists x y z, tr = x ++ MFlush h :: y ++ MCopied h :: z /\ begins (log x) t /\ begins t (log (x ++ y)).
Definition hand (tr : list event) (m : master) (h : nat) : Prop :=
  match m_h m h with
  | HNone | HAsk | HPut | HFlush => sent h tr = [] /\ ~ In (MDel h) tr
  | HCopy t => sent h tr = [] /\ ~ In (MDel h) tr /\ begins t (contents m) /\ exists x y, tr = x ++ MFlush h :: y /\ begins (log x) (contents m)
  | HHead t => sent h tr = [] /\ ~ In (MDel h) tr /\ copy_of h tr t
  | HBody t => sent h tr = le32 (blen t) /\ ~ In (MDel h) tr /\ copy_of h tr t
  | HDone => ~ In (MDel h) tr /\ exists t, copy_of h tr t /\ sent h tr = replica_stream t
  | HDel | HClose => exists t, copy_of h tr t /\ sent h tr = replica_stream t
  | HOver => (sent h tr = [] /\ ~ In (MDel h) tr) \/ exists t, copy_of h tr t /\ begins (sent h tr) (replica_stream t) /\ (In (MDel h) tr -> sent h tr = replica_stream t)
  end.
Lemma copy_ext h tr l t : copy_of h tr t -> copy_of h (ext tr l) t.
Proof. intros (x & y & z & -> & A & B). exists x, y, (ext z l). split; [|auto]. destruct l; cbn; [|reflexivity]. now rewrite <- app_assoc, <- app_comm_cons, <- app_assoc. Qed.
Lemma sent_ext h tr l : sent h (ext tr l) = sent h tr ++ one (fun a => match a with MOut h' b => if Nat.eqb h' h then b else [] | _ => [] end) l.
Proof. apply flat_one. Qed.
Lemma hand_frame tr m l m' h : hand tr m h -> m_h m' h = m_h m h -> begins (contents m) (contents m') -> (forall b, l <> Some (MOut h b)) -> l <> Some (MDel h) -> hand (ext tr l) m' h.
Proof.
  intros I E G N D. assert (S : sent h (ext tr l) = sent h tr).
  { rewrite sent_ext. destruct l as [[]|]; cbn; rewrite ?app_nil_r; auto. destruct (Nat.eqb_spec h0 h); [|now rewrite app_nil_r]. subst. exfalso. eapply N. reflexivity. }
  assert (Q : In (MDel h) (ext tr l) -> In (MDel h) tr) by (intros X; apply in_ext_inv in X as [X|X]; [exact X|contradiction]).
  unfold hand in *. rewrite E, S. destruct (m_h m h).
  1-4: tauto.
  - destruct I as (A & B & C & x & y & -> & F). split; [auto|]. split; [auto|]. split; [eapply begins_trans; eassumption|]. exists x, (ext y l). split; [|eapply begins_trans; eassumption].
    destruct l; cbn; [|reflexivity]. now rewrite <- app_assoc.
  - destruct I as (A & B & C). (repeat match goal with |- _ /\ _ => split end); auto using copy_ext.
  - destruct I as (A & B & C). (repeat match goal with |- _ /\ _ => split end); auto using copy_ext.
  - destruct I as (A & t & B & C). split; [auto|]. exists t. (repeat match goal with |- _ /\ _ => split end); auto using copy_ext.
  - destruct I as (t & B & C). exists t. (repeat match goal with |- _ /\ _ => split end); auto using copy_ext.
  - destruct I as (t & B & C). exists t. (repeat match goal with |- _ /\ _ => split end); auto using copy_ext.
  - destruct I as [[A B]|(t & A & B & C)]; [left; auto|right]. exists t. (repeat match goal with |- _ /\ _ => split end); auto using copy_ext.
Qed.
Lemma log_cons_flush x h y : log (x ++ MFlush h :: y) = log (x ++ y).
Proof. unfold log. now rewrite !flat_map_app. Qed.
Lemma begins_same (a b : bytes) : begins a b -> List.length a = List.length b -> a = b.
Proof. intros [c ->] H. rewrite app_length in H. destruct c; [now rewrite app_nil_r|cbn in H; lia]. Qed.
Lemma sent_out h tr b : sent h (tr ++ [MOut h b]) = sent h tr ++ b.
Proof. unfold sent. rewrite flat_map_app. cbn. rewrite Nat.eqb_refl. now rewrite app_nil_r. Qed.
Lemma sent_quiet h tr a : (forall h' b, a <> MOut h' b) -> sent h (tr ++ [a]) = sent h tr.
Proof. intros N. unfold sent. rewrite flat_map_app. destruct a; cbn; rewrite ?app_nil_r; auto. now destruct (N h0 b). Qed.
Lemma snoc_other tr (a b : event) : a <> b -> In a (tr ++ [b]) -> In a tr.
Proof. intros N H. apply in_app_iff in H as [H|[H|[]]]; [exact H|congruence]. Qed.
Lemma runs_hand tr m : runs tr m -> forall h, hand tr m h.
Proof.
  revert tr m. apply (runs_ind' (fun tr m => forall h, hand tr m h)); [intros h; cbn; auto|]. intros tr m l m' R I M h. pose proof (grows _ _ _ _ R M) as G. pose proof (runs_file _ _ R) as F.
  destruct M as [m S|m L|m h0 p L N P|m h0 L N P|m f N|m p d ws p' ws' P W|m p ws p' ws' P W|m h0 N B|m h0 N|m h0 p ws p' ws' N P W E|m h0 p ws p' ws' N P W E|m h0 t p n N P L|m h0 t p N P L|m h0 t N O|m h0 t p N O Pt|m h0 t N O|m h0 t p N O Pt|m h0 N|m h0 N B|m h0 N|m h0 N|m S|m S B|m S|m h0 l s S C D|m l s S D|m l s h0 S B].
  all: try (apply (hand_frame _ _ _ _ _ (I h)); [reflexivity|exact G|discriminate|discriminate]).
  all: destruct (Nat.eq_dec h h0) as [->|Hne]; [|apply (hand_frame _ _ _ _ _ (I h)); [unf; rewrite ?upd_ne by exact Hne; reflexivity|exact G|first [discriminate|intros b' X; assert (h0 = h) by congruence; congruence]|first [discriminate|intros X; assert (h0 = h) by congruence; congruence]]].
  all: specialize (I h0); unfold hand in I |- *; unf; rewrite ?upd_eq; try rewrite N in I; cbn [ext].
  - destruct I as [A B]. split; [now rewrite sent_quiet by discriminate|]. intros X. apply snoc_other in X; [auto|discriminate].
  - destruct I as [A B]. left. split; [now rewrite sent_quiet by discriminate|]. intros X. apply snoc_other in X; [auto|discriminate].
  - destruct I as [A X]. split; [now rewrite sent_quiet by discriminate|]. intros Y. apply snoc_other in Y; [auto|discriminate].
  - destruct I as [A X]. split; [now rewrite sent_quiet by discriminate|]. intros Y. apply snoc_other in Y; [auto|discriminate].
  - destruct I as [A X]. split; [now rewrite sent_quiet by discriminate|]. split; [intros Y; apply snoc_other in Y; [auto|discriminate]|]. split; [eexists; reflexivity|].
    exists tr, []. split; [reflexivity|]. unfold contents. cbn. unfold file_inv in F. rewrite P in F. pose proof (flush_ok _ ws _ F) as Q. rewrite W in Q. destruct Q as (_ & _ & Q). rewrite (proj1 (Q E)). apply begins_refl.
  - destruct I as [A X]. left. split; [now rewrite sent_quiet by discriminate|]. intros Y. apply snoc_other in Y; [auto|discriminate].
  - destruct I as (A & B & _ & C). split; [exact A|]. split; [exact B|]. unfold contents in *. cbn [m_file] in *. rewrite P in *. split; [|exact C]. exists (skipn n (p_file p)). now rewrite firstn_skipn.
  - destruct I as (A & B & Bg & x & y & -> & C). split; [now rewrite sent_quiet by discriminate|]. split; [intros Y; apply snoc_other in Y; [auto|discriminate]|].
    unfold contents in Bg, C. rewrite P in Bg, C. apply begins_same in Bg; [|exact L]. subst t. exists x, y, []. split; [now rewrite <- app_assoc|]. split; [exact C|].
    rewrite <- (log_cons_flush x h0 y). unfold file_inv in F. rewrite P in F. apply F.
  - destruct I as (A & B & C). split; [now rewrite sent_out, A|]. split; [intros Y; apply snoc_other in Y; [auto|discriminate]|]. exact (copy_ext _ _ (Some _) _ C).
  - destruct I as (A & B & C). right. exists t. split; [exact (copy_ext _ _ (Some _) _ C)|]. split.
    + rewrite sent_out, A. cbn [app]. destruct Pt as [q Eq]. unfold replica_stream. rewrite Eq. exists (q ++ t). now rewrite app_assoc.
    + intros Y. apply snoc_other in Y; [contradiction|discriminate].
  - destruct I as (A & B & C). split; [intros Y; apply snoc_other in Y; [auto|discriminate]|]. exists t. split; [exact (copy_ext _ _ (Some _) _ C)|]. now rewrite sent_out, A.
  - destruct I as (A & B & C). right. exists t. split; [exact (copy_ext _ _ (Some _) _ C)|]. split.
    + rewrite sent_out, A. destruct Pt as [q Eq]. unfold replica_stream. exists q. rewrite <- app_assoc. now rewrite <- Eq.
    + intros Y. apply snoc_other in Y; [contradiction|discriminate].
  - assert (X : (sent h0 tr = [] /\ ~ In (MDel h0) tr) \/ exists t, sent h0 tr = le32 (blen t) /\ ~ In (MDel h0) tr /\ copy_of h0 tr t).
    { destruct (m_h m h0); try easy; [left; tauto|left; tauto|left; tauto|right; eauto]. }
    destruct X as [[A B]|(t & A & B & C)]; [left|right].
    + split; [now rewrite sent_quiet by discriminate|]. intros Y. apply snoc_other in Y; [auto|discriminate].
    + exists t. split; [exact (copy_ext _ _ (Some _) _ C)|]. split; [rewrite sent_quiet by discriminate; rewrite A; now exists t|]. intros Y. apply snoc_other in Y; [contradiction|discriminate].
  - destruct I as (A & t & X & C). exists t. split; [exact (copy_ext _ _ (Some _) _ X)|]. now rewrite sent_quiet by discriminate.
  - destruct I as (t & X & C). exists t. split; [exact (copy_ext _ _ (Some _) _ X)|]. now rewrite sent_quiet by discriminate.
  - destruct I as (t & X & C). right. exists t. split; [exact X|]. split; [rewrite C; apply begins_refl|auto].
Qed.
Theorem sent_ok tr m h : runs tr m -> sent h tr = [] \/ exists t x y z, tr = x ++ MFlush h :: y ++ MCopied h :: z /\ begins (log x) t /\ begins t (log (x ++ y)) /\ begins (sent h tr) (replica_stream t) /\ (In (MDel h) tr -> sent h tr = replica_stream t).
Proof.
  intros R. pose proof (runs_hand _ _ R h) as I. unfold hand in I. destruct (m_h m h); try (left; tauto).
  - destruct I as (A & B & x & y & z & C & D & E). right. exists t, x, y, z. repeat (split; [assumption|]). split; [rewrite A; now exists t|contradiction].
  - destruct I as (A & t & (x & y & z & C & D & E) & B). right. exists t, x, y, z. repeat (split; [assumption|]). split; [rewrite B; apply begins_refl|auto].
  - destruct I as (t & (x & y & z & C & D & E) & B). right. exists t, x, y, z. repeat (split; [assumption|]). split; [rewrite B; apply begins_refl|auto].
  - destruct I as (t & (x & y & z & C & D & E) & B). right. exists t, x, y, z. repeat (split; [assumption|]). split; [rewrite B; apply begins_refl|auto].
  - destruct I as [I|(t & (x & y & z & C & D & E) & F & G)]; [left; tauto|]. right. exists t, x, y, z. auto 10.
Qed.

(* What a replica makes of it. *)
Lemma receive_parse t l : (blen t < 2 ^ 32)%Z -> receive (replica_stream t) = Some l -> parse_log t = (l, false).
Proof.
  intros Ht H. unfold receive, replica_stream in H. rewrite read_exact_app in H by reflexivity. pose proof (blen_nonneg t).
  rewrite le32_value_le32, Z.mod_small in H by lia. destruct (Z.eqb_spec (blen t) 0) as [E|E].
  - assert (t = []) as -> by (destruct t; [reflexivity|unfold blen in E; cbn in E; lia]). now injection H as <-.
  - pose proof (read_exact_app (blen t) t [] eq_refl) as R. rewrite app_nil_r in R. rewrite R in H. destruct (parse_log t) as [l' [|]]; [discriminate|]. congruence.
Qed.
Lemma log_split x h y z : log (x ++ MFlush h :: y ++ MCopied h :: z) = log (x ++ y) ++ log z.
Proof. unfold log. rewrite !flat_map_app. cbn [flat_map app]. rewrite flat_map_app. cbn. now rewrite <- app_assoc. Qed.
Lemma blen_begins (a b : bytes) : begins a b -> (blen a <= blen b)%Z.
Proof. intros [c ->]. rewrite blen_app. pose proof (blen_nonneg c). lia. Qed.
Lemma begins_log_app x y : begins (log x) (log (x ++ y)).
Proof. unfold log. rewrite flat_map_app. eexists. reflexivity. Qed.
Theorem received tr m h vs bss p l : runs tr m -> Forall2 packed vs bss -> log tr = concat bss -> (blen (log tr) < 2 ^ 32)%Z -> begins p (sent h tr) -> receive p = Some l ->
  exists x y z n, tr = x ++ MFlush h :: y ++ MCopied h :: z /\ l = firstn n vs /\ forall k, k <= List.length vs -> log x = concat (firstn k bss) -> k <= n.
Proof.
  intros R V E S B H. destruct (sent_ok _ _ h R) as [N|(t & x & y & z & -> & X1 & X2 & X3 & _)].
  { rewrite N in B. destruct B as [q Q]. symmetry in Q. apply app_eq_nil in Q as [-> _]. discriminate. }
  rewrite log_split in E, S. assert (T : begins t (concat bss)) by (rewrite <- E; eapply begins_trans; [exact X2|]; eexists; reflexivity).
  assert (St : (blen t < 2 ^ 32)%Z) by (pose proof (blen_begins _ _ X2); rewrite blen_app in S; pose proof (blen_nonneg (log z)); lia).
  destruct (begins_trans _ _ _ B X3) as [q Q].
  assert (q = []) as -> by (destruct q as [|c q]; [reflexivity|]; rewrite (replicate_cut t p (c :: q) St Q ltac:(discriminate)) in H; discriminate).
  rewrite app_nil_r in Q. subst p. apply (receive_parse _ _ St) in H. destruct T as [u U].
  destruct (parse_prefix _ _ _ _ V U) as (n & e & P & K & _). exists x, y, z, n. split; [reflexivity|]. rewrite P in H. split; [congruence|].
  intros k Hk Ek. apply K; [exact Hk|]. rewrite <- Ek. destruct X1 as [w ->]. now exists w.
Qed.
Ltac case_h h0 h := match goal with |- context [upd (m_h ?m) h0 ?x] => destruct (upd_case (m_h m) h0 h x) as [[-> ->]|[? ->]] end.
(* The moment of the flush is unique. *)
Definition flushed_pc (p : handler) : Prop := match p with HNone | HAsk | HPut | HFlush => False | _ => True end.
Definition copied_pc (p : handler) : Prop := match p with HNone | HAsk | HPut | HFlush | HCopy _ => False | _ => True end.
Lemma pc_stays m l m' h : move m l m' -> (flushed_pc (m_h m h) -> flushed_pc (m_h m' h)) /\ (copied_pc (m_h m h) -> copied_pc (m_h m' h)) /\ (m_h m h <> HNone -> m_h m' h <> HNone).
Proof.
  intros M. destruct M as [m S|m L|m h0 p L N P|m h0 L N P|m f N|m p d ws p' ws' P W|m p ws p' ws' P W|m h0 N B|m h0 N|m h0 p ws p' ws' N P W E|m h0 p ws p' ws' N P W E|m h0 t p n N P L|m h0 t p N P L|m h0 t N O|m h0 t p N O Pt|m h0 t N O|m h0 t p N O Pt|m h0 N|m h0 N B|m h0 N|m h0 N|m S|m S B|m S|m h0 l s S C D|m l s S D|m l s h0 S B]; unf; auto.
  all: case_h h0 h; auto; try rewrite N; cbn; try tauto; try easy.
Qed.
Lemma flush_once tr m h : runs tr m -> (In (MFlush h) tr -> flushed_pc (m_h m h)) /\ (In (MCopied h) tr -> copied_pc (m_h m h)).
Proof.
  revert tr m. apply (runs_ind' (fun tr m => (In (MFlush h) tr -> flushed_pc (m_h m h)) /\ (In (MCopied h) tr -> copied_pc (m_h m h)))); [easy|].
  intros tr m l m' _ [A B] M. destruct (pc_stays _ _ _ h M) as (P & Q & _). split; intros X; apply in_ext_inv in X as [X|X]; auto; subst l; inversion M; subst; unf; rewrite upd_eq; exact I.
Qed.
Lemma once_split {L} (a : L) x y x' y' : x ++ a :: y = x' ++ a :: y' -> ~ before (x ++ a :: y) a a -> x = x' /\ y = y'.
Proof.
  revert x'. induction x as [|b x IH]; intros x' E N; destruct x' as [|b' x']; cbn in *.
  - split; [reflexivity|]. congruence.
  - exfalso. apply N. assert (b' = a) as -> by congruence. assert (y = x' ++ a :: y') as -> by congruence. exists [], x', y'. reflexivity.
  - exfalso. apply N. assert (b = a) as -> by congruence. exists [], x, y. reflexivity.
  - assert (b = b') as <- by congruence. assert (E' : x ++ a :: y = x' ++ a :: y') by congruence.
    destruct (IH x' E') as [-> ->]; [|auto]. intros (u & v & w & Q). apply N. exists (b :: u), v, w. cbn. now rewrite Q.
Qed.
Lemma flush_not_twice tr m h : runs tr m -> ~ before tr (MFlush h) (MFlush h) /\ ~ before tr (MCopied h) (MCopied h).
Proof.
  intros R. split; intros (x & y & z & ->); rewrite app_comm_cons, app_assoc in R; destruct (exec_split _ _ _ _ _ _ R) as (s1 & s2 & R1 & [_ M] & _); pose proof (flush_once _ _ h R1) as [A B].
  - inversion M; subst. rewrite H0 in A. apply A. apply in_app_iff. right. now left.
  - inversion M; subst. rewrite H0 in B. apply B. apply in_app_iff. right. now left.
Qed.
Theorem quiet_whole x y z m h vs bss : runs (x ++ MFlush h :: y ++ MCopied h :: z) m -> In (MDel h) z -> (forall d, ~ In (MLog d) y) ->
  Forall2 packed vs bss -> log x = concat bss -> (blen (log x) < 2 ^ 32)%Z -> receive (sent h (x ++ MFlush h :: y ++ MCopied h :: z)) = Some vs.
Proof.
  intros R D Q V E S. destruct (sent_ok _ _ h R) as [N|(t & x' & y' & z' & C & X1 & X2 & _ & X4)].
  - pose proof (runs_hand _ _ R h) as I. unfold hand in I. assert (D' : In (MDel h) (x ++ MFlush h :: y ++ MCopied h :: z)) by (apply in_app_iff; right; right; apply in_app_iff; right; now right).
    exfalso. destruct (m_h m h); try tauto.
    + destruct I as (t & _ & I). rewrite N in I. discriminate.
    + destruct I as (t & _ & I). rewrite N in I. discriminate.
    + destruct I as [[_ I]|(t & _ & _ & I)]; [tauto|]. rewrite N in I. specialize (I D'). discriminate.
  - pose proof (flush_not_twice _ _ h R) as [F1 F2]. destruct (once_split _ _ _ _ _ C F1) as [-> C'].
    destruct (once_split _ _ _ _ _ C') as [-> ->]. { intros (u & v & w & B). apply F2. rewrite B. exists (x' ++ MFlush h :: u), v, w. now rewrite <- app_assoc. }
    rewrite X4 by (apply in_app_iff; right; right; apply in_app_iff; right; now right).
    assert (L : log (x' ++ y') = log x').
    { destruct (exec_split _ _ _ _ _ _ R) as (s1 & s2 & R1 & [_ M] & R2). assert (P : m_file s2 <> None) by (inversion M; subst; discriminate).
      assert (NF : forall f, ~ In (MFile f) y').
      { intros f Hf. apply in_split in Hf as (u & v & ->). rewrite <- app_assoc in R2. cbn in R2. destruct (exec_split _ _ _ _ _ _ R2) as (s3 & s4 & R3 & [_ M3] & _).
        assert (m_file s3 <> None); [|inversion M3; subst; contradiction]. clear -R3 P. induction R3 as [|tr s1 s2' R IH [_ M]|tr s1 a s2' R IH [_ M]]; [exact P| |]; destruct M; unf; (exact IH || discriminate || congruence). }
      unfold log. rewrite flat_map_app. replace (flat_map _ y') with (@nil Ascii.ascii); [now rewrite app_nil_r|]. symmetry. clear -Q NF.
      induction y' as [|a y IH]; [reflexivity|]. cbn. rewrite IH; [|intros d Hd; apply (Q d); now right|intros f Hf; apply (NF f); now right]. rewrite app_nil_r.
      destruct a; try reflexivity; [exfalso; eapply NF; now left|exfalso; eapply Q; now left]. }
    rewrite L in X2. assert (t = log x') as ->. { destruct X1 as [a ->], X2 as [b Hb]. rewrite <- app_assoc in Hb. rewrite <- (app_nil_r (log x')) in Hb at 1. apply app_inv_head in Hb. symmetry in Hb. apply app_eq_nil in Hb as [-> _]. now rewrite app_nil_r. }
    rewrite E in *. pose proof (replicate_whole vs bss [] V S) as W. now rewrite app_nil_r in W.
Qed.

(* The map. *)
Definition changing (p : handler) : bool := match p with HPut | HDel => true | _ => false end.
Lemma busy_ok tr m : runs tr m -> forall h, m_busy m = Some h <-> changing (m_h m h) = true.
Proof.
  revert tr m. apply (runs_ind' (fun tr m => forall h, m_busy m = Some h <-> changing (m_h m h) = true)); [easy|]. intros tr m l m' _ I M h.
  destruct M as [m S|m L|m h0 p L N P|m h0 L N P|m f N|m p d ws p' ws' P W|m p ws p' ws' P W|m h0 N B|m h0 N|m h0 p ws p' ws' N P W E|m h0 p ws p' ws' N P W E|m h0 t p n N P L|m h0 t p N P L|m h0 t N O|m h0 t p N O Pt|m h0 t N O|m h0 t p N O Pt|m h0 N|m h0 N B|m h0 N|m h0 N|m S|m S B|m S|m h0 l s S C D|m l s S D|m l s h0 S B]; unf; try apply I.
  all: pose proof (I h) as Ih; pose proof (I h0) as I0; try rewrite N in I0; cbn in I0;
    case_h h0 h; cbn; try tauto; try (split; discriminate).
  - split; intros Hx; [congruence|]. apply Ih in Hx. congruence.
  - assert (m_busy m = Some h0) as B by now apply I0. split; [discriminate|]. intros X. apply Ih in X. congruence.
  - destruct (m_h m h0); try easy; cbn in I0; exact I0.
  - split; intros Hx; [congruence|]. apply Ih in Hx. congruence.
  - assert (m_busy m = Some h0) as B by now apply I0. split; [discriminate|]. intros X. apply Ih in X. congruence.
Qed.
Definition opens (h : nat) (a : event) : Prop := a = MPut h \/ a = MDel h.
Definition closes (h : nat) (a : event) : Prop := a = MPutDone h \/ a = MDelDone h.
Theorem exclusive x a y m h : runs (x ++ a :: y) m -> opens h a -> (forall b, closes h b -> ~ In b y) -> forall h' b, opens h' b -> ~ In b y.
Proof.
  intros R O N. destruct (exec_split _ _ _ _ _ _ R) as (s1 & s2 & R1 & St & R2). assert (R1' : runs (x ++ [a]) s2) by (eapply exec_act; eassumption).
  assert (B : m_busy s2 = Some h) by (destruct St as [_ M]; destruct O as [-> | ->]; inversion M; subst; reflexivity).
  assert (G : m_busy m = Some h /\ forall h' b, opens h' b -> ~ In b y); [|apply G]. clear R St. revert N.
  induction R2 as [|tr u v E IH [C M]|tr u e v E IH [C M]]; intros N; [split; [exact B|easy]| |].
  - destruct (IH N) as [Bu X]. split; [|exact X]. pose proof (exec_app _ _ _ _ _ _ R1' E) as RE. pose proof (busy_ok _ _ RE h) as Hh. apply Hh in Bu as Bc. inversion M; subst; unf; try congruence.
  - destruct (IH ltac:(intros b Hb Y; apply (N b Hb); apply in_app_iff; auto)) as [Bu X]. pose proof (exec_app _ _ _ _ _ _ R1' E) as RE. pose proof (busy_ok _ _ RE) as Hh.
    assert (Q : m_busy v = Some h /\ forall h', ~ opens h' e).
    { assert (K : forall h0, changing (m_h u h0) = true -> h0 = h) by (intros h0 Hc; apply Hh in Hc; congruence).
      inversion M; subst; unf; (split; [try congruence|intros h'' [Z|Z]; try discriminate; congruence]).
      - exfalso. apply (N (MPutDone h0)); [left; f_equal; apply K; now match goal with Q : m_h u _ = _ |- _ => rewrite Q end|]. apply in_app_iff. right. now left.
      - exfalso. apply (N (MDelDone h0)); [right; f_equal; apply K; now match goal with Q : m_h u _ = _ |- _ => rewrite Q end|]. apply in_app_iff. right. now left. }
    destruct Q as [Q1 Q2]. split; [exact Q1|]. intros h' b Hb Hin. apply in_app_iff in Hin as [Hin|[<-|[]]]; [exact (X h' b Hb Hin)|exact (Q2 h' Hb)].
Qed.
(* A crash shows a race. *)
Lemma changing_open tr m h : runs tr m -> (m_h m h = HPut -> In (MPut h) tr /\ ~ In (MPutDone h) tr) /\ (m_h m h = HDel -> In (MDel h) tr /\ ~ In (MDelDone h) tr) /\
  (In (MPutDone h) tr -> m_h m h <> HNone /\ m_h m h <> HAsk /\ m_h m h <> HPut) /\ (In (MDelDone h) tr -> m_h m h = HClose \/ m_h m h = HOver).
Proof.
  revert tr m. apply (runs_ind' (fun tr m => (m_h m h = HPut -> In (MPut h) tr /\ ~ In (MPutDone h) tr) /\ (m_h m h = HDel -> In (MDel h) tr /\ ~ In (MDelDone h) tr) /\
  (In (MPutDone h) tr -> m_h m h <> HNone /\ m_h m h <> HAsk /\ m_h m h <> HPut) /\ (In (MDelDone h) tr -> m_h m h = HClose \/ m_h m h = HOver))); [easy|].
  intros tr m l m' _ (I1 & I2 & I3 & I4) M.
  assert (Frame : m_h m' h = m_h m h -> l <> Some (MPutDone h) -> l <> Some (MDelDone h) -> (m_h m' h = HPut -> In (MPut h) (ext tr l) /\ ~ In (MPutDone h) (ext tr l)) /\ (m_h m' h = HDel -> In (MDel h) (ext tr l) /\ ~ In (MDelDone h) (ext tr l)) /\
    (In (MPutDone h) (ext tr l) -> m_h m' h <> HNone /\ m_h m' h <> HAsk /\ m_h m' h <> HPut) /\ (In (MDelDone h) (ext tr l) -> m_h m' h = HClose \/ m_h m' h = HOver)).
  { intros E N1 N2. rewrite E. split; [|split; [|split]].
    - intros X. destruct (I1 X) as [A B]. split; [now apply in_ext|]. intros Y. apply in_ext_inv in Y as [Y|Y]; auto.
    - intros X. destruct (I2 X) as [A B]. split; [now apply in_ext|]. intros Y. apply in_ext_inv in Y as [Y|Y]; auto.
    - intros Y. apply in_ext_inv in Y as [Y|Y]; [auto|contradiction].
    - intros Y. apply in_ext_inv in Y as [Y|Y]; [auto|contradiction]. }
  destruct M as [m S|m L|m h0 p L N P|m h0 L N P|m f N|m p d ws p' ws' P W|m p ws p' ws' P W|m h0 N B|m h0 N|m h0 p ws p' ws' N P W E|m h0 p ws p' ws' N P W E|m h0 t p n N P L|m h0 t p N P L|m h0 t N O|m h0 t p N O Pt|m h0 t N O|m h0 t p N O Pt|m h0 N|m h0 N B|m h0 N|m h0 N|m S|m S B|m S|m h0 l s S C D|m l s S D|m l s h0 S B];
    try (apply Frame; [reflexivity|discriminate|discriminate]).
  all: destruct (Nat.eq_dec h h0) as [<-|Hne]; [|apply Frame; [unf; rewrite ?upd_ne by exact Hne; reflexivity|first [discriminate|intros X; assert (h0 = h) by congruence; congruence]|first [discriminate|intros X; assert (h0 = h) by congruence; congruence]]].
  all: clear Frame; unf; rewrite ?upd_eq; cbn [ext]; try rewrite N in *;
    (split; [intros X; try discriminate X|split; [intros X; try discriminate X|split; intros X; cbn in X; try (apply in_app_iff in X as [X|[X|[]]]); try discriminate X]]); try (repeat split; discriminate); auto.
  all: try (exfalso; specialize (I3 X); destruct I3 as (Z1 & Z2 & Z3); congruence).
  all: try (exfalso; destruct (I4 X); congruence).
  all: try (exfalso; destruct (I4 X) as [Z|Z]; rewrite Z in N; exact N).
  - split; [apply in_app_iff; right; now left|]. intros Y. apply in_app_iff in Y as [Y|[Y|[]]]; [|discriminate]. destruct (I3 Y) as (_ & Z & _). congruence.
  - split; [apply in_app_iff; right; now left|]. intros Y. apply in_app_iff in Y as [Y|[Y|[]]]; [|discriminate]. destruct (I4 Y); congruence.
Qed.
Lemma stop_called tr m : runs tr m -> m_stop m <> SNone -> In MStop tr.
Proof.
  revert tr m. apply (runs_ind' (fun tr m => m_stop m <> SNone -> In MStop tr)); [easy|]. intros tr m l m' _ I M X.
  destruct M; unf; try (apply in_ext; apply I; congruence). cbn. apply in_app_iff. right. now left.
Qed.
Lemma crash_over m tr m' : m_crash m = true -> exec step m tr m' -> tr = [].
Proof. intros G E. assert (tr = [] /\ m_crash m' = true) as [A _]; [|exact A]. induction E as [|tr s1 s2 E IH [C M]|tr s1 a s2 E IH [C M]]; [auto| |]; destruct IH as [_ IH]; congruence. Qed.
Theorem crash_races x y m : runs (x ++ MCrash :: y) m -> y = [] /\ In MStop x /\ ~ In MStopped x /\ exists h, (In (MPut h) x /\ ~ In (MPutDone h) x) \/ (In (MDel h) x /\ ~ In (MDelDone h) x).
Proof.
  intros R. destruct (exec_split _ _ _ _ _ _ R) as (s1 & s2 & R1 & [_ M] & R2). inversion M; subst; [].
  split; [eapply crash_over; [|exact R2]; reflexivity|]. split; [eapply stop_called; [exact R1|congruence]|]. split.
  - intros Z. assert (m_stop s1 = SOver); [|congruence]. clear -R1 Z. revert Z. revert R1. revert x s1.
    apply (runs_ind' (fun tr m => In MStopped tr -> m_stop m = SOver)); [easy|]. intros tr m l m' R I M X. apply in_ext_inv in X as [X|X].
    + specialize (I X). destruct M; unf; try congruence. exfalso. assert (SN : m_shut m = true); [|congruence]. clear -R I. 
      assert (G : m_stop m <> SNone) by congruence. clear I. revert G. revert tr m R. apply (runs_ind' (fun tr m => m_stop m <> SNone -> m_shut m = true)); [easy|]. intros tr m l m' _ I M X. destruct M; unf; auto; apply I; congruence.
    + subst l. inversion M; subst; reflexivity.
  - exists h. pose proof (proj1 (busy_ok _ _ R1 h) ltac:(assumption)) as B. destruct (changing_open _ _ h R1) as (A1 & A2 & _). destruct (m_h s1 h) eqn:E; try discriminate; auto.
Qed.
(* Stop waits for the changes that had begun. *)
Lemma pending tr m h : runs tr m -> (In (MPut h) tr -> In (MPutDone h) tr \/ m_h m h = HPut) /\ (In (MDel h) tr -> In (MDelDone h) tr \/ m_h m h = HDel).
Proof.
  revert tr m. apply (runs_ind' (fun tr m => (In (MPut h) tr -> In (MPutDone h) tr \/ m_h m h = HPut) /\ (In (MDel h) tr -> In (MDelDone h) tr \/ m_h m h = HDel))); [easy|].
  intros tr m l m' _ [I1 I2] M.
  assert (G : (m_h m h = HPut -> m_h m' h = HPut \/ l = Some (MPutDone h)) /\ (m_h m h = HDel -> m_h m' h = HDel \/ l = Some (MDelDone h)) /\ (l = Some (MPut h) -> m_h m' h = HPut) /\ (l = Some (MDel h) -> m_h m' h = HDel)).
  { destruct M as [m S|m L|m h0 p L N P|m h0 L N P|m f N|m p d ws p' ws' P W|m p ws p' ws' P W|m h0 N B|m h0 N|m h0 p ws p' ws' N P W E|m h0 p ws p' ws' N P W E|m h0 t p n N P L|m h0 t p N P L|m h0 t N O|m h0 t p N O Pt|m h0 t N O|m h0 t p N O Pt|m h0 N|m h0 N B|m h0 N|m h0 N|m S|m S B|m S|m h0 l s S C D|m l s S D|m l s h0 S B];
      unf; try (repeat split; solve [auto|discriminate]).
    all: case_h h0 h; (split; [|split; [|split]]); intros X; try discriminate X; try congruence; try (left; congruence); try (right; congruence); try (rewrite X in N; destruct N). }
  destruct G as (G1 & G2 & G3 & G4). split; intros X; apply in_ext_inv in X as [X|X]; auto.
  - destruct (I1 X) as [Y|Y]; [left; now apply in_ext|]. destruct (G1 Y) as [Z|Z]; [now right|]. left. subst l. cbn. apply in_app_iff. right. now left.
  - destruct (I2 X) as [Y|Y]; [left; now apply in_ext|]. destruct (G2 Y) as [Z|Z]; [now right|]. left. subst l. cbn. apply in_app_iff. right. now left.
Qed.
Theorem stop_waits x y a z m h : runs (x ++ MStop :: y ++ a :: z) m -> (exists g, a = MVisit g) \/ a = MStopped \/ a = MCrash ->
  (In (MPut h) x -> In (MPutDone h) (x ++ MStop :: y)) /\ (In (MDel h) x -> In (MDelDone h) (x ++ MStop :: y)).
Proof.
  intros R A. rewrite app_comm_cons, app_assoc in R. destruct (exec_split _ _ _ _ _ _ R) as (s3 & s4 & R3 & [_ M3] & _). clear R.
  assert (V : exists l s, m_stop s3 = SRange l s). { destruct A as [[g ->]|[->| ->]]; inversion M3; subst; eauto. } clear M3 A.
  destruct (exec_split _ _ _ _ _ _ R3) as (s1 & s2 & R1 & [C1 M] & R2). assert (R1' : runs (x ++ [MStop]) s2) by (eapply exec_act; [exact R1|split; assumption]).
  assert (G : m_shut s3 = true /\ (m_stop s3 = SLock \/ ((In (MPut h) x -> In (MPutDone h) (x ++ MStop :: y)) /\ (In (MDel h) x -> In (MDelDone h) (x ++ MStop :: y))))).
  { clear V R3. inversion M; subst. clear M. induction R2 as [|y u v E IH [C M]|y u e v E IH [C M]].
    - split; [reflexivity|now left].
    - destruct IH as [Sh IH]. assert (m_shut v = true) as Sv by (inversion M; subst; unf; auto). split; [exact Sv|]. destruct IH as [IH|IH]; [|now right].
      pose proof (exec_app _ _ _ _ _ _ R1' E) as RE. rewrite <- app_assoc in RE. cbn in RE.
      assert (m_stop v = SLock \/ m_busy u = None) as [K|K] by (inversion M; subst; unf; auto; congruence); [now left|]. right.
      destruct (pending _ _ h RE) as [P1 P2]. pose proof (busy_ok _ _ RE h) as B. split; intros X; [destruct P1 as [Y|Y]|destruct P2 as [Y|Y]]; try (apply in_app_iff; now left); try exact Y; exfalso; rewrite Y in B; cbn in B; destruct B as [_ B]; specialize (B eq_refl); congruence.
    - destruct IH as [Sh IH]. assert (m_shut v = true) as Sv by (inversion M; subst; unf; auto). split; [exact Sv|].
      destruct IH as [IH|[I1 I2]]; [left; inversion M; subst; unf; congruence|]. right. rewrite app_comm_cons, app_assoc. split; intros X; apply in_app_iff; left; auto. }
  destruct V as (l & s & V). destruct G as [_ [G|G]]; [congruence|exact G].
Qed.
(* Stop closes the connections that were there. *)
Lemma put_there tr m h : runs tr m -> In (MPutDone h) tr -> In h (m_conn m) \/ In (MDelDone h) tr.
Proof.
  revert tr m. apply (runs_ind' (fun tr m => In (MPutDone h) tr -> In h (m_conn m) \/ In (MDelDone h) tr)); [easy|]. intros tr m l m' _ I M X. apply in_ext_inv in X as [X|X].
  - destruct (I X) as [Y|Y]; [|right; now apply in_ext]. destruct M; unf; try (left; exact Y); [left; now right|].
    destruct (Nat.eq_dec h h0) as [<-|Hne]; [right; cbn; apply in_app_iff; right; now left|]. left. apply in_in_remove; auto.
  - subst l. inversion M; subst; unf. left. now left.
Qed.
Lemma gone_not_there tr m h : runs tr m -> In (MDelDone h) tr -> ~ In h (m_conn m).
Proof.
  revert tr m. apply (runs_ind' (fun tr m => In (MDelDone h) tr -> ~ In h (m_conn m))); [easy|]. intros tr m l m' R I M X. apply in_ext_inv in X as [X|X].
  - pose proof (I X) as Y. destruct M; unf; try exact Y; [|intros Z; apply in_remove in Z; tauto].
    intros [<-|Z]; [|contradiction]. destruct (changing_open _ _ h0 R) as (_ & _ & _ & Q). destruct (Q X); congruence.
  - subst l. inversion M; subst; unf. apply remove_In.
Qed.
Lemma open_stays m l m' h : move m l m' -> m_h m h <> HNone -> m_open m h = false -> m_open m' h = false.
Proof.
  intros M N O. destruct M; unf; auto;
    match goal with |- upd (m_open m) ?i ?b h = false => destruct (upd_case (m_open m) i h b) as [[-> ->]|[_ ->]]; auto; congruence end.
Qed.
Definition watched (h : nat) (tr : list event) (m : master) : Prop :=
  m_h m h <> HNone /\ (In h (m_conn m) \/ In (MDelDone h) tr) /\ m_shut m = true /\
  match m_stop m with
  | SNone => False
  | SLock | SLoop => True
  | SRange l s => (In h l \/ In (MDelDone h) tr) /\ (In h s -> m_open m h = false)
  | SOver => m_open m h = false \/ In (MDelDone h) tr
  end.
Lemma watched_step tr m l m' h : runs tr m -> In (MPutDone h) tr -> watched h tr m -> move m l m' -> watched h (ext tr l) m'.
Proof.
  intros R P (A & B & C & D) M. assert (R' : In h (m_conn m') \/ In (MDelDone h) (ext tr l)).
  { destruct B as [Y|Y]; [|right; now apply in_ext]. destruct M; unf; try (left; exact Y); [left; now right|].
    destruct (Nat.eq_dec h h0) as [<-|Hne]; [right; cbn; apply in_app_iff; right; now left|]. left. apply in_in_remove; auto. }
  assert (N' : m_h m' h <> HNone) by (apply (pc_stays _ _ _ h M); exact A). pose proof (open_stays _ _ _ h M A) as O.
  split; [exact N'|]. split; [exact R'|]. split; [destruct M; unf; auto|].
  assert (Same : m_stop m' = m_stop m -> match m_stop m' with SNone => False | SLock | SLoop => True | SRange l0 s => (In h l0 \/ In (MDelDone h) (ext tr l)) /\ (In h s -> m_open m' h = false) | SOver => m_open m' h = false \/ In (MDelDone h) (ext tr l) end).
  { intros ->. destruct (m_stop m); auto.
    - destruct D as [[D|D] E]; split; auto; right; now apply in_ext.
    - destruct D as [D|D]; auto. right; now apply in_ext. }
  destruct M as [m S|m L|m h0 p L N P'|m h0 L N P'|m f N|m p d ws p' ws' P' W|m p ws p' ws' P' W|m h0 N B'|m h0 N|m h0 p ws p' ws' N P' W E|m h0 p ws p' ws' N P' W E|m h0 t p n N P' L|m h0 t p N P' L|m h0 t N O'|m h0 t p N O' Pt|m h0 t N O'|m h0 t p N O' Pt|m h0 N|m h0 N B'|m h0 N|m h0 N|m S|m S B'|m S|m h0 l s S C' D'|m l s S D'|m l s h0 S B'].
  all: try (apply Same; reflexivity).
  - congruence.
  - exact I.
  - unf. split; [exact B|]. intros [].
  - unf. rewrite S in D. destruct D as [D E]. split; [destruct D as [D|D]; [auto|right; now apply in_ext]|]. intros [->|X]; [apply upd_eq|]. auto.
  - unf. rewrite S in D. destruct D as [D E]. destruct D as [D|D]; [|right; now apply in_ext]. destruct B as [B|B]; [left; auto|right; now apply in_ext].
Qed.
Theorem stop_closes x y m h : runs (x ++ MStop :: y) m -> In (MPutDone h) x -> In MStopped y -> m_open m h = false \/ In (MDelDone h) (x ++ MStop :: y).
Proof.
  intros R P Q. destruct (exec_split _ _ _ _ _ _ R) as (s1 & s2 & R1 & St & R2). assert (R1' : runs (x ++ [MStop]) s2) by (eapply exec_act; eassumption).
  assert (P1 : In (MPutDone h) (x ++ [MStop])) by (apply in_app_iff; auto).
  assert (W : watched h (x ++ [MStop]) s2).
  { destruct (changing_open _ _ h R1') as (_ & _ & A & _). split; [apply A; exact P1|]. split; [apply (put_there _ _ h R1' P1)|]. destruct St as [_ M]. inversion M; subst. split; [reflexivity|exact I]. }
  assert (G : watched h ((x ++ [MStop]) ++ y) m /\ (In MStopped y -> m_stop m = SOver)).
  { clear R Q. induction R2 as [|tr u v E IH [C M]|tr u e v E IH [C M]].
    - rewrite app_nil_r. split; [exact W|easy].
    - destruct IH as [A B]. split; [exact (watched_step _ _ None _ h (exec_app _ _ _ _ _ _ R1' E) ltac:(apply in_app_iff; auto) A M)|]. intros X. specialize (B X). inversion M; subst; unf; congruence.
    - destruct IH as [A B]. split; [rewrite app_assoc; exact (watched_step _ _ (Some e) _ h (exec_app _ _ _ _ _ _ R1' E) ltac:(apply in_app_iff; auto) A M)|].
      intros X. apply in_app_iff in X as [X|[X|[]]]; [specialize (B X)|subst e; inversion M; subst; reflexivity]. destruct A as (_ & _ & Sh & _). inversion M; subst; unf; congruence. }
  destruct G as [(_ & _ & _ & D) S]. rewrite (S Q) in D. rewrite <- app_assoc in D. exact D.
Qed.
(* Connections that are dealt with. *)
Theorem over_closed tr m h : runs tr m -> (exists x f y, tr = x ++ MFile f :: y /\ In (MAccept h) y) -> m_h m h = HOver -> m_open m h = false.
Proof.
  intros R (x & f & y & -> & A) O. destruct (exec_split _ _ _ _ _ _ R) as (s1 & s2 & R1 & [_ M] & R2). assert (F : m_file s2 <> None) by (inversion M; subst; discriminate). clear R.
  apply in_split in A as (u & v & ->). destruct (exec_split _ _ _ _ _ _ R2) as (s3 & s4 & R3 & [_ M3] & R4).
  assert (F3 : m_file s3 <> None).
  { clear -F R3; induction R3 as [|tr a b R IH [_ M]|tr a e b R IH [_ M]]; [exact F| |]; destruct M; unf; try (exact IH || discriminate || congruence). }
  assert (G : m_h s4 h = HAsk) by (inversion M3; subst; unf; [now rewrite upd_eq|contradiction]).
  assert (m_h m h <> HNone /\ (m_h m h = HOver -> m_open m h = false)) as [_ K]; [|auto].
  clear -G R4. induction R4 as [|tr a b R IH [_ M]|tr a e b R IH [_ M]]; [split; congruence| |]; destruct IH as [N IH];
    (split; [now apply (pc_stays _ _ _ h M)|]); intros O;
    (assert (X : m_h a h = HOver \/ m_open b h = false); [|destruct X as [X|X]; [exact (open_stays _ _ _ h M N (IH X))|exact X]]);
    destruct M; unf; auto;
    match goal with H : upd (m_h ?mm) ?i ?p h = HOver |- _ => destruct (upd_case (m_h mm) i h p) as [[-> Y]|[_ Y]]; rewrite Y in H; [|auto]; try discriminate H; try (right; apply upd_eq); try contradiction end.
Qed.
Lemma stays_forgotten m h : m_h m h = HOver -> forall tr m', exec step m tr m' -> m_h m' h = HOver.
Proof.
  intros O tr m' E. induction E as [|tr a b E IH [_ M]|tr a e b E IH [_ M]]; [exact O| |]; destruct M; unf; auto; unfold upd;
    match goal with |- (if Nat.eqb h ?i then _ else _) = _ => destruct (Nat.eqb_spec h i); [subst|auto] end; try congruence; try reflexivity; match goal with H : working _ |- _ => rewrite IH in H; easy end.
Qed.
Lemma kept_step m l m' h : move m l m' -> m_h m h = HOver -> (In h (m_conn m) <-> In h (m_conn m')) /\ (~ In h (m_conn m) -> m_open m' h = m_open m h).
Proof.
  intros M O. split.
  - destruct M; unf; try tauto.
    + cbn. split; [auto|]. intros [->|X]; [congruence|exact X].
    + split; [intros X; apply in_in_remove; [congruence|exact X]|]. intros X. apply in_remove in X. tauto.
  - intros C. destruct M; unf; try reflexivity; (rewrite upd_ne; [reflexivity|intros ->; try congruence; try contradiction]). rewrite O in *. easy.
Qed.
Theorem kept_forever m h : m_h m h = HOver -> In h (m_conn m) -> forall tr m', exec step m tr m' -> In h (m_conn m').
Proof.
  intros O C tr m' E. induction E as [|tr a b E IH [_ M]|tr a e b E IH [_ M]]; [exact C| |]; apply (kept_step _ _ _ h M (stays_forgotten _ _ O _ _ E)); exact IH.
Qed.
Theorem open_forever m h : m_h m h = HOver -> m_open m h = true -> ~ In h (m_conn m) -> forall tr m', exec step m tr m' -> m_open m' h = true.
Proof.
  intros O P C tr m' E. assert (m_open m' h = true /\ ~ In h (m_conn m')) as [A _]; [|exact A].
  induction E as [|tr a b E IH [_ M]|tr a e b E IH [_ M]]; [auto| |]; destruct IH as [I1 I2]; destruct (kept_step _ _ _ h M (stays_forgotten _ _ O _ _ E)) as [K1 K2]; rewrite K2 by exact I2; tauto.
Qed.
(* Connections that are closed. *)
Lemma table_known tr m h : runs tr m -> In h (m_conn m) -> m_h m h <> HNone.
Proof.
  revert tr m. apply (runs_ind' (fun _ m => In h (m_conn m) -> m_h m h <> HNone)); [easy|]. intros tr m l m' R I M X. destruct (pc_stays _ _ _ h M) as (_ & _ & K).
  destruct M; unf; try (apply K; apply I; exact X).
  - destruct X as [->|X]; [rewrite upd_eq; discriminate|]. apply K, I, X.
  - apply K, I. now apply in_remove in X.
Qed.
Lemma closed_silent m h : m_h m h <> HNone -> m_open m h = false -> forall tr m', exec step m tr m' -> (m_h m' h <> HNone /\ m_open m' h = false) /\ forall b, ~ In (MOut h b) tr.
Proof.
  intros N O tr m' E. induction E as [|tr u v E IH [C M]|tr u e v E IH [C M]]; [split; [auto|easy]| |]; destruct IH as [[N' O'] Q]; (split; [split; [apply (pc_stays _ _ _ h M); exact N'|exact (open_stays _ _ _ h M N' O')]|]); [exact Q|].
  intros b X. apply in_app_iff in X as [X|[X|[]]]; [exact (Q _ X)|]. subst e. inversion M; subst; congruence.
Qed.
Theorem silent x a y m h : runs (x ++ a :: y) m -> a = MVisit h \/ a = MFail h -> m_open m h = false /\ forall b, ~ In (MOut h b) y.
Proof.
  intros R A. destruct (exec_split _ _ _ _ _ _ R) as (s1 & s2 & R1 & [C M] & R2). pose proof (pc_stays _ _ _ h M) as (_ & _ & K).
  assert (G : m_h s2 h <> HNone /\ m_open s2 h = false).
  { destruct A as [-> | ->]; inversion M; subst; unf; rewrite ?upd_eq; try (split; [discriminate|reflexivity]). split; [|reflexivity]. eapply table_known; eassumption. }
  destruct G as [G1 G2]. destruct (closed_silent _ _ G1 G2 _ _ R2) as [[_ O] Q]. auto.
Qed.
