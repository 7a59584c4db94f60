(* C89: whoever connects to the master is dealt with. *)
From Coq Require Import List Arith Bool ZArith String Ascii Lia.
From Verif Require Import Base Lts Counted Resp Log LogSpec LogProofs Persist PersistSpec Replication Master MasterProofs MasterRestSpec MasterRest Props_Master.
Import ListNotations.
Local Open Scope nat_scope.
Local Open Scope list_scope.

(* C89: as long as the accept loop runs and the log can be written, a replica that connects can be
   sent the whole log, whatever else is going on, without anything failing, ... *)
Theorem C89_serves_partial : forall tr m p h, runs tr m -> m_crash m = false -> m_loop m = true -> m_file m = Some p -> p_err p = false -> ~ In (MAccept h) tr ->
  exists tr' m', exec step m (MAccept h :: tr') m' /\ m_crash m' = false /\ Forall calm tr' /\ sent h tr' = le32 (blen (log tr)) ++ log tr /\ m_open m' h = false.
Proof. exact serves. Qed.
Print Assumptions C89_serves_partial.
(* ... without anything from outside the master comes to rest after a bounded number of steps, whatever
   the schedule, ... *)
Theorem C89_bound_partial : forall tr m n tr' m', runs tr m -> Counted.steps own m n tr' m' ->
  n <= (List.length (log tr) + 10) * List.length (accepted tr) + 4.
Proof. exact bound. Qed.
Print Assumptions C89_bound_partial.
(* ... and when it rests, every goroutine has ended, every connection made after SetFile is
   closed, and Stop has returned. *)
Theorem C89_rest_partial : forall tr m, runs tr m -> m_crash m = false -> MasterRestSpec.at_rest m ->
  (forall h, In (MAccept h) tr -> m_h m h = HOver) /\ (forall x f y h, tr = x ++ MFile f :: y -> In (MAccept h) y -> m_open m h = false) /\ (In MStop tr -> In MStopped tr).
Proof. exact rest. Qed.
Print Assumptions C89_rest_partial.
Definition whole : list event := [MStart; MFile []; MAccept 0; MPut 0; MPutDone 0; MFlush 0; MCopied 0; MOut 0 (le32 (blen [])); MOut 0 []; MDel 0; MDelDone 0; MStop; MStopped].
Lemma idle_rests m : (forall h, m_h m h = HNone \/ m_h m h = HOver) -> (m_stop m = SNone \/ m_stop m = SOver) -> MasterRestSpec.at_rest m.
Proof.
  intros H S l m' [_ M]. inversion M; subst; try (left; exact I); try (left; now split); exfalso;
    try (match goal with P : m_h m ?i = _ |- _ => destruct (H i); congruence end);
    try (match goal with P : m_stop m = _ |- _ => destruct S; congruence end).
  match goal with P : working (m_h m ?i) |- _ => destruct (H i) as [E|E]; rewrite E in P; exact P end.
Qed.
Example C89_ex : (exists m, runs whole m /\ m_crash m = false /\ MasterRestSpec.at_rest m) /\
  (exists m, runs [MStart; MFile []] m /\ m_crash m = false /\ m_loop m = true /\ m_file m = Some (open_file []) /\ p_err (open_file []) = false).
Proof.
  split.
  - eexists. split; [|split].
    + unfold runs, whole. simp. go start_. go file_. go accept. go put. go put_done. go (flush_ok_ _ 0 _ [] (mkPfile [] [] false false)). go (copied _ 0). go (head _ 0). go (body _ 0). go (del _ 0). go (del_done _ 0). hush (close_ _ 0).
      go stop_. hush stop_lock. hush stop_loop. eapply exec_cons; [split; [side|eapply stop_end; [simp; reflexivity|simp; auto]]|]. apply exec_start.
    + reflexivity.
    + apply idle_rests; [|now right]. intros [|h]; cbn; auto.
  - eexists. split; [unfold runs; simp; go start_; go file_; apply exec_start|]. repeat split.
Qed.

(* C89 is false: after an error of Accept, which need not be the end of the listener, no replica is ever
   accepted again, though nobody stopped the master. *)
Theorem C89_deaf_refuted : forall m, m_crash m = false -> m_loop m = true -> exists m', step m None m' /\ m_crash m' = false /\ m_shut m' = m_shut m /\
  forall tr m2, exec step m' tr m2 -> forall h, ~ In (MAccept h) tr.
Proof.
  intros m C L. eexists. split; [split; [exact C|exact (loop_err m L)]|]. split; [exact C|]. split; [reflexivity|].
  intros tr m2 X. eapply deaf; [| |exact X]; reflexivity.
Qed.
Print Assumptions C89_deaf_refuted.
