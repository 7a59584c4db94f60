(* C46: closing a connection, over every schedule of reads, writes, closes and the expiry. *)
From Coq Require Import List Arith Bool String.
From Verif Require Import Base Lts Conn ConnProofs.
Import ListNotations.
Local Open Scope string_scope.
Local Open Scope list_scope.

(* At most one Close returns nil; the others return ErrConnIsClosed, and only when someone (the
   expiry worker, a reader at end of stream, or another Close) is closing the connection. *)
Theorem C46_one_close : forall tr s i j, runs tr s -> In (ERet i OClose ROk) tr -> In (ERet j OClose ROk) tr -> i = j.
Proof. exact close_once. Qed.
Print Assumptions C46_one_close.
Theorem C46_close_answers : forall tr s i r, runs tr s -> In (ERet i OClose r) tr ->
  (r = ROk /\ In (EWin i) tr) \/ (r = RErrClosed /\ ~ In (EWin i) tr /\ exists j, In (EWin j) tr).
Proof. exact close_answers. Qed.
Print Assumptions C46_close_answers.
Theorem C46_one_closer : forall tr s i j, runs tr s -> In (EWin i) tr -> In (EWin j) tr -> i = j.
Proof. exact one_winner. Qed.
Print Assumptions C46_one_closer.
Theorem C46_no_crash : forall tr s, runs tr s -> ~ In EPanic tr.
Proof. exact no_panic. Qed.
Print Assumptions C46_no_crash.
(* A Write called after a Close has returned, with whatever result, answers ErrConnIsClosed and
   sends nothing. *)
Theorem C46_write_after_close : forall tr s j r i b, runs tr s -> before tr (ERet j OClose r) (ECall i (OWrite b)) ->
  (forall r', In (ERet i (OWrite b) r') tr -> r' = RErrClosed) /\ (forall p, ~ In (EOut i p) tr).
Proof. exact write_after_close. Qed.
Print Assumptions C46_write_after_close.
(* After a Close has returned nil nothing at all is sent. *)
Theorem C46_silent_after_close : forall tr s i j p, runs tr s -> ~ before tr (ERet i OClose ROk) (EOut j p).
Proof. exact silent_after_close. Qed.
Print Assumptions C46_silent_after_close.
(* A Write that returned nil sent exactly its bytes, once, between call and return. *)
Theorem C46_write_ok : forall tr s i b, runs tr s -> In (ERet i (OWrite b) ROk) tr -> filter (about i) tr = [ECall i (OWrite b); EOut i b; ERet i (OWrite b) ROk].
Proof. exact write_ok. Qed.
Print Assumptions C46_write_ok.

Tactic Notation "tau" uconstr(c) := eapply exec_cons_tau; [eapply c; try reflexivity; auto | cbn].
Tactic Notation "act" uconstr(c) := eapply exec_cons; [eapply c; try reflexivity; auto | cbn].
(* A write, then two closes at once, then a write that fails. *)
Example C46_ex : exists s, runs
  [ECall 1 (OWrite (bs "A")); EOut 1 (bs "A"); ERet 1 (OWrite (bs "A")) ROk; ECall 2 OClose; ECall 3 OClose; EWin 3; EOut 3 close_message;
   ERet 2 OClose RErrClosed; ERet 3 OClose ROk; ECall 4 (OWrite (bs "B")); ERet 4 (OWrite (bs "B")) RErrClosed] s.
Proof.
  eexists. unfold runs. act (call _ 1). tau (wr_chk _ 1). tau (reset_w _ 1). act (wr_all _ 1). act (ret_ _ 1). act (call _ 2). act (call _ 3). act (x_win _ 3).
  tau (x_lose _ 2). act (x_msg _ 3); [exists []; reflexivity|]. tau (x_tcp _ 3). act (ret_ _ 2). tau (x_chan _ 3). act (ret_ _ 3). act (call _ 4). tau (wr_chk _ 4). act (ret_ _ 4). apply exec_start.
Qed.

(* "No Write blocks forever" is false: a Write that passed the closed check before a Close waits
   for a worker that has gone; whatever happens afterwards, it never returns. *)
Definition race : list event := [ECall 1 (OWrite (bs "A")); ECall 2 OClose; EWin 2; EOut 2 close_message; ERet 2 OClose ROk].
Theorem C46_write_blocks_refuted : exists s, runs race s /\
  forall tr s', exec step s tr s' -> forall r, ~ In (ERet 1 (OWrite (bs "A")) r) (race ++ tr).
Proof.
  assert (R : exists s, runs race s /\ c_pc s 1 = PResetW (bs "A") /\ c_pc s 0 = PDone).
  { eexists. split.
    - unfold runs, race. act (call _ 1). tau (wr_chk _ 1). act (call _ 2). act (x_win _ 2). act (x_msg _ 2); [exists []; reflexivity|]. tau (x_tcp _ 2). tau (x_chan _ 2).
      act (ret_ _ 2). tau (w_closed _). apply exec_start.
    - split; reflexivity. }
  destruct R as (s & R & P1 & P0). exists s. split; [exact R|]. intros tr s' H r Hin. apply in_app_iff in Hin as [Hin|Hin].
  - cbn in Hin. repeat destruct Hin as [Hin|Hin]; try discriminate; contradiction.
  - destruct (blocked_forever s 1 (or_intror (ex_intro _ _ P1)) P0 _ _ H) as (_ & _ & N). exact (N _ _ Hin).
Qed.
Print Assumptions C46_write_blocks_refuted.
(* Nor does a Read called after the connection is closed ever return: Read does not check. *)
Definition late_read : list event := [ECall 2 OClose; EWin 2; EOut 2 close_message; ERet 2 OClose ROk; ECall 1 ORead].
Theorem C46_read_blocks_refuted : exists s, runs late_read s /\
  forall tr s', exec step s tr s' -> forall r, ~ In (ERet 1 ORead r) (late_read ++ tr).
Proof.
  assert (R : exists s, runs late_read s /\ c_pc s 1 = PResetR /\ c_pc s 0 = PDone).
  { eexists. split.
    - unfold runs, late_read. act (call _ 2). act (x_win _ 2). act (x_msg _ 2); [exists []; reflexivity|]. tau (x_tcp _ 2). tau (x_chan _ 2).
      act (ret_ _ 2). tau (w_closed _). act (call _ 1). apply exec_start.
    - split; reflexivity. }
  destruct R as (s & R & P1 & P0). exists s. split; [exact R|]. intros tr s' H r Hin. apply in_app_iff in Hin as [Hin|Hin].
  - cbn in Hin. repeat destruct Hin as [Hin|Hin]; try discriminate; contradiction.
  - destruct (blocked_forever s 1 (or_introl P1) P0 _ _ H) as (_ & _ & N). exact (N _ _ Hin).
Qed.
Print Assumptions C46_read_blocks_refuted.
(* What holds: until someone starts to close, or the expiry fires, a Write that was called has
   returned or can still return. *)
Theorem C46_write_returns_partial : forall tr s i b, runs tr s -> ~ In ETimer tr -> (forall j, ~ In (EWin j) tr) -> In (ECall i (OWrite b)) tr ->
  (exists r, In (ERet i (OWrite b) r) tr) \/ exists tr' s' r, runs (tr ++ tr' ++ [ERet i (OWrite b) r]) s'.
Proof. exact write_can_return. Qed.
Print Assumptions C46_write_returns_partial.
Example C46_write_ex : exists s, runs [ECall 1 (OWrite (bs "A"))] s /\ c_pc s 1 = PResetW (bs "A") /\ c_pc s 0 = PLoop.
Proof. eexists. split; [unfold runs; act (call _ 1); tau (wr_chk _ 1); apply exec_start|split; reflexivity]. Qed.
