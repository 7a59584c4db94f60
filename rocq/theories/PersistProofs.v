From Verif Require Import Base BaseFacts Utf8Spec Log LogSpec LogProofs Persist PersistSpec.
From Coq Require Import ZArith List Ascii Bool Lia.
Import ListNotations.

Lemma begins_refl s : begins s s. Proof. exists []. now rewrite app_nil_r. Qed.
Lemma begins_app p s t : begins p s -> begins p (s ++ t).
Proof. intros [x ->]. exists (x ++ t). now rewrite app_assoc. Qed.
Lemma begins_trans a b c : begins a b -> begins b c -> begins a c.
Proof. intros [x ->] [y ->]. exists (x ++ y). now rewrite app_assoc. Qed.
Lemma begins_firstn f n d : begins (f ++ firstn n d) (f ++ d).
Proof. exists (skipn n d). rewrite <- app_assoc. now rewrite firstn_skipn. Qed.
Lemma begins_step f d : begins f (f ++ d). Proof. now exists d. Qed.

Definition inv (p : pfile) (s : bytes) : Prop :=
  (p_err p = false -> p_dead p = false /\ p_file p ++ p_buf p = s) /\ begins (p_file p) s.

Lemma file_write_ok f d w : let '(f', n, e, dd) := file_write f d w in
  begins f f' /\ begins f' (f ++ d) /\ (e = false -> dd = false /\ f' = f ++ d /\ n = length d).
Proof.
  destruct w; cbn; repeat split; try discriminate; auto using begins_refl, begins_step, begins_firstn.
Qed.
Lemma flush_ok p ws s : inv p s -> let '(p', ws') := flush p ws in
  inv p' s /\ begins (p_file p) (p_file p') /\ (p_err p' = false -> p_file p' = s /\ p_buf p' = []).
Proof.
  intros [H1 H2]. unfold flush. destruct (p_err p) eqn:E.
  { repeat split; auto; try congruence; apply begins_refl. }
  destruct (H1 eq_refl) as [D S]. destruct (p_buf p) as [|c b] eqn:EB.
  { repeat split; auto using begins_refl. now rewrite EB. now rewrite app_nil_r in S. }
  destruct (next_out ws) as [w ws']. pose proof (file_write_ok (p_file p) (c :: b) w) as F.
  destruct (file_write _ _ w) as [[[f n] e] dd]. destruct F as (F1 & F2 & F3). unfold inv. cbn [p_file p_buf p_err p_dead].
  rewrite <- S. repeat split; auto; try (apply F3; assumption).
  - destruct (F3 H) as (_ & -> & ->). rewrite skipn_all. now rewrite app_nil_r.
  - destruct (F3 H) as (_ & _ & ->). now rewrite skipn_all.
Qed.
Lemma write_fresh_ok p ws s d : p_err p = false -> p_dead p = false -> p_buf p = [] -> p_file p = s ->
  let '(p', ws') := write_fresh p d ws in inv p' (s ++ d) /\ begins (p_file p) (p_file p').
Proof.
  intros E D B <-. unfold write_fresh. destruct (_ <=? _)%nat.
  { unfold inv. cbn. repeat split; auto using begins_refl, begins_step. }
  destruct (next_out ws) as [w ws']. pose proof (file_write_ok (p_file p) d w) as F.
  destruct (file_write _ _ w) as [[[f n] e] dd]. destruct F as (F1 & F2 & F3). unfold inv. cbn [p_file p_buf p_err p_dead].
  repeat split; auto; try (apply F3; assumption). destruct (F3 H) as (_ & -> & _). now rewrite app_nil_r.
Qed.
Lemma write_ok p ws s d : inv p s -> let '(p', ws') := write p d ws in inv p' (s ++ d) /\ begins (p_file p) (p_file p').
Proof.
  intros [H1 H2]. unfold write. destruct (p_err p) eqn:E.
  { split; [|apply begins_refl]. split; [congruence|]. now apply begins_app. }
  destruct (H1 eq_refl) as [D S]. destruct (_ <=? _)%nat.
  { unfold inv. cbn. rewrite <- S. repeat split; auto using begins_refl; rewrite <- ?app_assoc; auto using begins_step. }
  destruct (p_buf p) as [|c b] eqn:EB.
  { apply write_fresh_ok; auto. now rewrite app_nil_r in S. }
  set (room := (buf_size - length (c :: b))%nat).
  pose proof (flush_ok (mkPfile (p_file p) ((c :: b) ++ firstn room d) false (p_dead p)) ws (s ++ firstn room d)) as F.
  destruct (flush _ ws) as [p1 ws1].
  destruct F as (F1 & F2 & F3). { unfold inv. cbn [p_file p_buf p_err p_dead]. rewrite <- S, <- app_assoc. repeat split; auto using begins_step. }
  cbn [p_file] in F2. destruct (p_err p1) eqn:E1.
  - split; [|exact F2]. destruct F1 as [_ F1]. split; [congruence|]. rewrite <- (firstn_skipn room d), app_assoc. now apply begins_app.
  - destruct (F3 eq_refl) as [F4 F5]. destruct F1 as [F1 _]. destruct (F1 E1) as [D1 _].
    pose proof (write_fresh_ok p1 ws1 _ (skipn room d) E1 D1 F5 F4) as W. destruct (write_fresh p1 _ ws1) as [p' ws'].
    rewrite <- app_assoc, firstn_skipn in W. destruct W as [W1 W2]. split; auto. eapply begins_trans; eauto.
Qed.
Lemma step_ok p o ws s : inv p s -> let '(p', ok, ws') := step p o ws in
  inv p' (s ++ concat (written_by [o])) /\ begins (p_file p) (p_file p') /\ (o = PFlush -> ok = true -> p_file p' = s) /\
  (ok = true -> p_err p' = false).
Proof.
  intros H. unfold step. destruct (p_dead p) eqn:D.
  { split; [|split; [apply begins_refl|split; congruence]]. destruct H as [H1 H2]. split; [|now apply begins_app].
    intros E. destruct (H1 E). congruence. }
  destruct o as [d|]; cbn [written_by concat].
  - pose proof (write_ok p ws s d H) as W. destruct (write p d ws) as [p' ws']. rewrite app_nil_r. destruct W as [W1 W2].
    repeat split; auto; try discriminate; try apply W1; auto. intros E. now destruct (p_err p').
  - pose proof (flush_ok p ws s H) as W. destruct (flush p ws) as [p' ws']. rewrite app_nil_r. destruct W as (W1 & W2 & W3).
    split; [exact W1|]. split; [exact W2|]. destruct (p_err p') eqn:E; cbn; split; intros; try discriminate; auto. now apply W3.
Qed.
Lemma written_by_app l1 l2 : written_by (l1 ++ l2) = written_by l1 ++ written_by l2.
Proof. induction l1 as [|[d|] l1 IH]; cbn [written_by app]; auto. now rewrite IH. Qed.
Lemma steps_ok l : forall p ws s, inv p s -> let '(p', oks) := steps p l ws in
  inv p' (s ++ concat (written_by l)) /\ begins (p_file p) (p_file p') /\
  (forall l1 l2, l = l1 ++ PFlush :: l2 -> nth (length l1) oks false = true -> begins (s ++ concat (written_by l1)) (p_file p')).
Proof.
  induction l as [|o l IH]; intros p ws s H; cbn [steps].
  { cbn [written_by concat]. rewrite app_nil_r. repeat split; try apply H; auto using begins_refl. intros [|]; discriminate. }
  pose proof (step_ok p o ws s H) as S. destruct (step p o ws) as [[p1 ok] ws1]. destruct S as (S1 & S2 & S3 & _).
  specialize (IH p1 ws1 _ S1). destruct (steps p1 l ws1) as [p2 oks]. destruct IH as (I1 & I2 & I3).
  assert (A : written_by (o :: l) = written_by [o] ++ written_by l) by apply (written_by_app [o] l).
  rewrite A, concat_app, app_assoc. split; [exact I1|]. split; [eapply begins_trans; eauto|].
  intros l1 l2 E N. destruct l1 as [|o1 l1].
  - injection E as -> ->. cbn [length nth] in N. cbn [written_by concat]. rewrite app_nil_r. rewrite <- (S3 eq_refl N). exact I2.
  - injection E as -> ->. cbn [length nth] in N. specialize (I3 l1 l2 eq_refl N).
    change (o1 :: l1) with ([o1] ++ l1). rewrite written_by_app, concat_app, app_assoc. exact I3.
Qed.
Lemma inv_open f : inv (open_file f) f.
Proof. unfold inv, open_file. cbn. rewrite app_nil_r. auto using begins_refl. Qed.

(* a flush that succeeded leaves everything in the file *)
Theorem steps_flushed f l ws p oks : steps (open_file f) (l ++ [PFlush]) ws = (p, oks) -> nth (length l) oks false = true ->
  p_file p = f ++ concat (written_by l).
Proof.
  intros E N. pose proof (steps_ok (l ++ [PFlush]) (open_file f) ws f (inv_open f)) as S. rewrite E in S. destruct S as ((_ & S1) & _ & S3).
  specialize (S3 l [] eq_refl N). rewrite written_by_app in S1. cbn [written_by] in S1. rewrite app_nil_r in S1.
  destruct S1 as [x S1], S3 as [y S3]. rewrite S3, <- !app_assoc in S1. rewrite S3.
  apply app_inv_head in S1. rewrite <- (app_nil_r (concat _)) in S1 at 1. apply app_inv_head in S1.
  symmetry in S1. apply app_eq_nil in S1 as [-> _]. now rewrite app_nil_r.
Qed.

Lemma Forall2_app_packed vs1 bs1 vs2 bs2 : Forall2 packed vs1 bs1 -> Forall2 packed vs2 bs2 -> Forall2 packed (vs1 ++ vs2) (bs1 ++ bs2).
Proof. apply Forall2_app. Qed.
Lemma Forall2_len {A B} (R : A -> B -> Prop) l l' : Forall2 R l l' -> length l = length l'.
Proof. induction 1; cbn; auto. Qed.

(* Whatever happens, recovery reads the first n records, among them all that were in the
   file at the start and all that were flushed. *)
Theorem recovered vs0 bss0 vs l ws p oks : Forall2 packed vs0 bss0 -> Forall2 packed vs (written_by l) ->
  steps (open_file (concat bss0)) l ws = (p, oks) ->
  exists n e, parse_log (p_file p) = (firstn n (vs0 ++ vs), e) /\ (length vs0 <= n <= length vs0 + length vs)%nat /\
    (forall l1 l2, l = l1 ++ PFlush :: l2 -> nth (length l1) oks false = true -> (length vs0 + length (written_by l1) <= n)%nat).
Proof.
  intros H0 H E. pose proof (steps_ok l (open_file (concat bss0)) ws _ (inv_open _)) as S. rewrite E in S. destruct S as ((_ & S1) & S2 & S3).
  cbn [open_file p_file] in S2. rewrite <- concat_app in S1. destruct S1 as [t S1].
  pose proof (Forall2_app_packed _ _ _ _ H0 H) as HF. pose proof (Forall2_len _ _ _ H0) as L0. pose proof (Forall2_len _ _ _ H) as L.
  destruct (parse_prefix _ _ _ _ HF S1) as (n & e & P & Pk & Pn & _). rewrite app_length in Pn, Pk.
  exists n, e. split; [exact P|]. split.
  - split; [|lia]. apply Pk; [lia|]. destruct S2 as [x S2]. exists x. rewrite S2. f_equal.
    rewrite firstn_app, L0, Nat.sub_diag, firstn_all, firstn_O, app_nil_r. reflexivity.
  - intros l1 l2 El N. specialize (S3 l1 l2 El N). destruct S3 as [x S3].
    assert (W : written_by l = written_by l1 ++ written_by l2) by (rewrite El, written_by_app; reflexivity).
    apply Pk. { rewrite L, W, app_length. lia. } exists x. rewrite S3, <- concat_app. f_equal. f_equal.
    rewrite firstn_app, L0. rewrite (firstn_all2 bss0) by lia. f_equal. rewrite W. replace (length bss0 + length (written_by l1) - length bss0)%nat with (length (written_by l1)) by lia.
    rewrite firstn_app, Nat.sub_diag, firstn_all, firstn_O, app_nil_r. reflexivity.
Qed.

(* a stop with replication enabled and a working disk writes everything out *)
Theorem stop_flushes f l ws p oks : steps (open_file f) l ws = (p, oks) -> p_err p = false ->
  exists p', stop true (Some p) [] = Ret (p', []) /\ p_file p' = f ++ concat (written_by l).
Proof.
  intros E He. pose proof (steps_ok l (open_file f) ws f (inv_open f)) as S. rewrite E in S. destruct S as (S1 & _ & _).
  unfold stop. pose proof (flush_ok p [] _ S1) as F. unfold flush in *. rewrite He in *. destruct (p_buf p) eqn:B.
  - eexists. split; [reflexivity|]. now apply F.
  - cbn [next_out file_write] in *. eexists. split; [reflexivity|]. now apply F.
Qed.
