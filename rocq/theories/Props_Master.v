(* C68-C70: a master serving replicas while it is used, and being stopped. *)
From Coq Require Import List Arith Bool ZArith String Ascii Lia.
From Verif Require Import Base Lts Resp Log LogSpec LogProofs Persist PersistSpec Replication Master MasterProofs.
Import ListNotations.
Local Open Scope nat_scope.
Local Open Scope list_scope.

(* C68: a replica gets what was logged when the master flushed for it, and perhaps some of what
   was logged while the file was copied: always a beginning of the log as it was then, with its size. *)
Theorem C68_sent_partial : forall tr m h, runs tr m -> sent h tr = [] \/
  exists t x y z, tr = x ++ MFlush h :: y ++ MCopied h :: z /\ begins (log x) t /\ begins t (log (x ++ y)) /\
    begins (sent h tr) (le32 (blen t) ++ t) /\ (In (MDel h) tr -> sent h tr = le32 (blen t) ++ t).
Proof. exact sent_ok. Qed.
Print Assumptions C68_sent_partial.
(* If the replica can read it, it has all records that were logged before the flush, and maybe
   some more, wherever the connection broke. *)
Theorem C68_received_partial : forall tr m h vs bss p l, runs tr m -> Forall2 packed vs bss -> log tr = List.concat bss -> (blen (log tr) < 2 ^ 32)%Z ->
  begins p (sent h tr) -> receive p = Some l ->
  exists x y z n, tr = x ++ MFlush h :: y ++ MCopied h :: z /\ l = firstn n vs /\ forall k, k <= List.length vs -> log x = List.concat (firstn k bss) -> k <= n.
Proof. exact received. Qed.
Print Assumptions C68_received_partial.
(* It can read it if nothing is logged while the file is copied. *)
Theorem C68_quiet_partial : forall x y z m h vs bss, runs (x ++ MFlush h :: y ++ MCopied h :: z) m -> In (MDel h) z -> (forall d, ~ In (MLog d) y) ->
  Forall2 packed vs bss -> log x = List.concat bss -> (blen (log x) < 2 ^ 32)%Z -> receive (sent h (x ++ MFlush h :: y ++ MCopied h :: z)) = Some vs.
Proof. exact quiet_whole. Qed.
Print Assumptions C68_quiet_partial.

(* But C68 is false of a busy master: a replica is sent a torn record and uses nothing of what it
   was sent, though nothing failed. *)
Definition record (key value : bytes) : vlog := new_log (bs "id") 0%Z (bs "host") (bs "SET") 1%Z [RBulk (bs "SET"); RBulk key; RBulk value].
Definition r1 : vlog := record (bs "a") (bs "1").
Definition r2 : vlog := record (bs "b") (bs "2").
Definition r3 : vlog := record (bs "c") (repeat "x"%char 3000).
Definition torn : bytes := pack r1 ++ firstn 4096 (pack r2 ++ pack r3).
Definition busy : list event :=
  [MStart; MFile []; MLog (pack r1); MAccept 0; MPut 0; MPutDone 0; MFlush 0; MLog (pack r2); MLog (pack r3); MCopied 0; MOut 0 (le32 (blen torn)); MOut 0 torn; MDel 0; MDelDone 0].
Ltac side := solve [reflexivity | discriminate | cbn; auto 6 with arith | vm_compute; reflexivity].
Ltac simp := cbv beta iota zeta delta [over set_h set_open set_map set_file set_stop m_loop m_started m_shut m_conn m_busy m_h m_open m_file m_stop m_crash new negb open_file p_file p_buf p_err p_dead]; cbn [upd Nat.eqb remove Nat.eq_dec].
Tactic Notation "go" uconstr(K) := eapply exec_cons; [split; [side|eapply K; simp; side]|simp].
Tactic Notation "hush" uconstr(K) := eapply exec_cons_tau; [split; [side|eapply K; simp; side]|simp].
Lemma spills : write (mkPfile (pack r1) (pack r2) false false) (pack r3) [] = (mkPfile torn (skipn 4096 (pack r2 ++ pack r3)) false false, []).
Proof. vm_compute. reflexivity. Qed.
Lemma copies : firstn (List.length torn) torn = torn.
Proof. apply firstn_all. Qed.
Ltac packs := apply packed_intro; [vm_compute; reflexivity|vm_compute; split; congruence|vm_compute; split; congruence|vm_compute; reflexivity].
Lemma busy_packed : Forall2 packed [r1; r2; r3] [pack r1; pack r2; pack r3].
Proof. repeat (apply List.Forall2_cons; [packs|]). apply List.Forall2_nil. Qed.
Lemma busy_runs : exists m, runs busy m.
Proof.
  eexists. unfold runs, busy. simp. go start_. go file_. go (log_ _ _ (pack r1) [] (mkPfile [] (pack r1) false false)). go accept. go put. go put_done.
  go (flush_ok_ _ 0 _ [] (mkPfile (pack r1) [] false false)). go (log_ _ _ (pack r2) [] (mkPfile (pack r1) (pack r2) false false)).
  eapply exec_cons; [split; [side|eapply log_; [simp; reflexivity|exact spills]]|simp].
  eapply exec_cons_tau; [split; [side|eapply (copy _ 0 _ _ (List.length torn)); [simp; reflexivity|simp; reflexivity|simp; split; [vm_compute; lia|apply le_n]]]|]. simp. rewrite copies.
  go (copied _ 0). go (head _ 0). go (body _ 0). go (del _ 0). go (del_done _ 0). apply exec_start.
Qed.
Theorem C68_torn_refuted : exists tr m h x y z vs, runs tr m /\ tr = x ++ MFlush h :: y ++ MCopied h :: z /\ In (MDel h) tr /\ (forall g, ~ In (MFail g) tr) /\
  Forall2 packed vs (map pack vs) /\ log x = List.concat (map pack (firstn 1 vs)) /\ log tr = List.concat (map pack vs) /\ receive (sent h tr) = None /\ from_master (sent h tr) = [].
Proof.
  destruct busy_runs as [m R]. exists busy, m, 0, (firstn 6 busy), [MLog (pack r2); MLog (pack r3)], (skipn 10 busy), [r1; r2; r3].
  split; [exact R|]. split; [reflexivity|]. split; [unfold busy; cbn; auto 20|]. split; [unfold busy; cbn; intros g; intuition discriminate|]. split; [exact busy_packed|].
  split; [reflexivity|]. split; [reflexivity|]. assert (N : receive (sent 0 busy) = None) by (vm_compute; reflexivity). split; [exact N|]. unfold from_master. now rewrite N.
Qed.
Print Assumptions C68_torn_refuted.
(* A quiet master, and one whose replica is readable though a record came meanwhile. *)
Definition quiet : list event :=
  [MStart; MFile []; MLog (pack r1); MAccept 0; MPut 0; MPutDone 0; MFlush 0; MCopied 0; MOut 0 (le32 (blen (pack r1))); MOut 0 (pack r1); MDel 0; MDelDone 0].
Example C68_ex : (exists m, runs quiet m) /\ quiet = firstn 6 quiet ++ MFlush 0 :: [] ++ MCopied 0 :: skipn 8 quiet /\ In (MDel 0) (skipn 8 quiet) /\ Forall2 packed [r1] [pack r1] /\
  log (firstn 6 quiet) = List.concat [pack r1] /\ log quiet = List.concat [pack r1] /\ receive (sent 0 quiet) = Some [r1].
Proof.
  split; [|split; [reflexivity|split; [cbn; auto|split; [apply List.Forall2_cons; [packs|apply List.Forall2_nil]|split; [reflexivity|split; [reflexivity|vm_compute; reflexivity]]]]]].
  eexists. unfold runs, quiet. simp. go start_. go file_. go (log_ _ _ (pack r1) [] (mkPfile [] (pack r1) false false)). go accept. go put. go put_done. go (flush_ok_ _ 0 _ [] (mkPfile (pack r1) [] false false)).
  eapply exec_cons_tau; [split; [side|eapply (copy _ 0 _ _ (List.length (pack r1))); [simp; reflexivity|simp; reflexivity|simp; split; [vm_compute; lia|apply le_n]]]|]. simp. rewrite firstn_all.
  go (copied _ 0). go (head _ 0). go (body _ 0). go (del _ 0). go (del_done _ 0). apply exec_start.
Qed.

(* C69: stopping a master closes the connections of the replicas that were registered, except
   those that had been sent everything. *)
Theorem C69_closes_partial : forall x y m h, runs (x ++ MStop :: y) m -> In (MPutDone h) x -> In MStopped y -> m_open m h = false \/ In (MDelDone h) (x ++ MStop :: y).
Proof. exact stop_closes. Qed.
Print Assumptions C69_closes_partial.
(* Changes of the table of connections exclude each other. *)
Theorem C69_changes_exclusive : forall x a y m h, runs (x ++ a :: y) m -> (a = MPut h \/ a = MDel h) -> (forall b, b = MPutDone h \/ b = MDelDone h -> ~ In b y) ->
  forall h' b, b = MPut h' \/ b = MDel h' -> ~ In b y.
Proof. exact exclusive. Qed.
Print Assumptions C69_changes_exclusive.
(* The process can end in a crash only while Stop goes through the table that a replica's goroutine
   is changing. *)
Theorem C69_crash_races_partial : forall x y m, runs (x ++ MCrash :: y) m ->
  y = [] /\ In MStop x /\ ~ In MStopped x /\ exists h, (In (MPut h) x /\ ~ In (MPutDone h) x) \/ (In (MDel h) x /\ ~ In (MDelDone h) x).
Proof. exact crash_races. Qed.
Print Assumptions C69_crash_races_partial.
(* It begins to go through the table after the changes that had begun before it are done. *)
Theorem C69_waits_partial : forall x y a z m h, runs (x ++ MStop :: y ++ a :: z) m -> (exists g, a = MVisit g) \/ a = MStopped \/ a = MCrash ->
  (In (MPut h) x -> In (MPutDone h) (x ++ MStop :: y)) /\ (In (MDel h) x -> In (MDelDone h) (x ++ MStop :: y)).
Proof. exact stop_waits. Qed.
Print Assumptions C69_waits_partial.
(* A replica that Stop has disconnected, or that was given up, is sent nothing more. *)
Theorem C69_silent : forall x a y m h, runs (x ++ a :: y) m -> a = MVisit h \/ a = MFail h -> m_open m h = false /\ forall b, ~ In (MOut h b) y.
Proof. exact silent. Qed.
Print Assumptions C69_silent.
(* But C69 is false: that does happen, *)
Definition crashed : list event := [MStart; MFile []; MAccept 0; MStop; MPut 0; MCrash].
Theorem C69_crash_refuted : exists m, runs crashed m /\ m_crash m = true.
Proof. eexists. split; [unfold runs, crashed; simp; go start_; go file_; go accept; go stop_; hush stop_lock; hush stop_loop; go put; go stop_race; apply exec_start|reflexivity]. Qed.
Print Assumptions C69_crash_refuted.
(* and replicas are served after the stop. *)
Definition after_stop : list event := [MStart; MFile []; MLog (pack r1); MStop; MStopped; MAccept 0; MPut 0; MPutDone 0; MFlush 0; MCopied 0; MOut 0 (le32 (blen (pack r1))); MOut 0 (pack r1); MDel 0; MDelDone 0].
Theorem C69_served_after_refuted : exists m, runs after_stop m /\ before after_stop MStopped (MAccept 0) /\ receive (sent 0 after_stop) = Some [r1].
Proof.
  eexists. split; [|split; [exists (firstn 4 after_stop), [], (skipn 6 after_stop); reflexivity|vm_compute; reflexivity]].
  unfold runs, after_stop. simp. go start_. go file_. go (log_ _ _ (pack r1) [] (mkPfile [] (pack r1) false false)). go stop_. hush stop_lock. hush stop_loop. go stop_end.
  go accept. go put. go put_done. go (flush_ok_ _ 0 _ [] (mkPfile (pack r1) [] false false)).
  eapply exec_cons_tau; [split; [side|eapply (copy _ 0 _ _ (List.length (pack r1))); [simp; reflexivity|simp; reflexivity|simp; split; [vm_compute; lia|apply le_n]]]|]. simp. rewrite firstn_all.
  go (copied _ 0). go (head _ 0). go (body _ 0). go (del _ 0). go (del_done _ 0). apply exec_start.
Qed.
Print Assumptions C69_served_after_refuted.
Definition cut : list event := [MStart; MFile []; MAccept 0; MPut 0; MPutDone 0; MStop; MVisit 0; MStopped].
Example C69_ex : (exists m, runs cut m) /\ cut = firstn 5 cut ++ MStop :: skipn 6 cut /\ In (MPutDone 0) (firstn 5 cut) /\ In MStopped (skipn 6 cut) /\ crashed = firstn 5 crashed ++ MCrash :: [] /\
  (forall b, b = MPutDone 0 \/ b = MDelDone 0 -> ~ In b (skipn 5 crashed)).
Proof.
  split; [|split; [reflexivity|split; [cbn; auto 10|split; [cbn; auto|split; [reflexivity|intros b [-> | ->]; cbn; intuition discriminate]]]]].
  eexists. unfold runs, cut. simp. go start_. go file_. go accept. go put. go put_done. go stop_. hush stop_lock. hush stop_loop.
  eapply exec_cons; [split; [side|eapply (stop_visit _ 0); [simp; reflexivity|now left|auto]]|simp]. eapply exec_cons; [split; [side|eapply stop_end; [simp; reflexivity|simp; auto]]|]. apply exec_start.
Qed.
Definition waited : list event := [MStart; MFile []; MAccept 0; MPut 0; MStop; MPutDone 0; MVisit 0; MStopped].
Example C69_waits_ex : (exists m, runs waited m) /\ waited = firstn 4 waited ++ MStop :: [MPutDone 0] ++ MVisit 0 :: [MStopped] /\ In (MPut 0) (firstn 4 waited) /\ ~ In (MPutDone 0) (firstn 4 waited).
Proof.
  split; [|split; [reflexivity|split; [cbn; auto|cbn; intuition discriminate]]].
  eexists. unfold runs, waited. simp. go start_. go file_. go accept. go put. go stop_. go put_done. hush stop_lock. hush stop_loop.
  eapply exec_cons; [split; [side|eapply (stop_visit _ 0); [simp; reflexivity|now left|auto]]|simp]. eapply exec_cons; [split; [side|eapply stop_end; [simp; reflexivity|simp; auto]]|]. apply exec_start.
Qed.

(* C70: a replica that was sent everything is forgotten; and if there was a log file, the
   connection of a replica is closed when its goroutine is over. *)
Theorem C70_forgotten_partial : forall tr m h, runs tr m -> In (MDelDone h) tr -> ~ In h (m_conn m).
Proof. exact gone_not_there. Qed.
Print Assumptions C70_forgotten_partial.
Theorem C70_closed_partial : forall tr m h, runs tr m -> (exists x f y, tr = x ++ MFile f :: y /\ In (MAccept h) y) -> m_h m h = HOver -> m_open m h = false.
Proof. exact over_closed. Qed.
Print Assumptions C70_closed_partial.
(* But C70 is false: a replica that could not be sent everything is kept in the table forever, *)
Definition gave_up : list event := [MStart; MFile []; MAccept 0; MPut 0; MPutDone 0; MFail 0].
Theorem C70_kept_refuted : exists m, runs gave_up m /\ m_h m 0 = HOver /\ forall tr m', exec step m tr m' -> In 0 (m_conn m').
Proof.
  eexists. split; [unfold runs, gave_up; simp; go start_; go file_; go accept; go put; go put_done; go (fail _ 0); apply exec_start|]. split; [reflexivity|].
  apply kept_forever; [reflexivity|now left].
Qed.
Print Assumptions C70_kept_refuted.
(* and a master without a log file never closes a connection. *)
Theorem C70_open_refuted : exists m, runs [MStart; MAccept 0] m /\ m_h m 0 = HOver /\ forall tr m', exec step m tr m' -> m_open m' 0 = true.
Proof. eexists. split; [unfold runs; simp; go start_; go accept_none; apply exec_start|]. split; [reflexivity|]. apply open_forever; [reflexivity|reflexivity|intros []]. Qed.
Print Assumptions C70_open_refuted.
Example C70_ex : In (MDelDone 0) quiet /\ (exists x f y, gave_up = x ++ MFile f :: y /\ In (MAccept 0) y).
Proof. split; [cbn; auto 20|]. exists [MStart], [], (skipn 2 gave_up). split; [reflexivity|cbn; auto]. Qed.
