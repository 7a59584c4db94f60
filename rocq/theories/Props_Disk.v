(* C96: what a failed write of the log file does. *)
From Coq Require Import List Bool Arith Lia String ZArith.
From Verif Require Import Base Lts Resp Command Db Engine Log Persist Recovery Server Process DiskProofs Props_Server Props_Process.
Import ListNotations.
Local Open Scope nat_scope.

(* C96: whatever the clients can see of a server, they can see of one whose disk takes nothing: with every
   record given to the file, the file is what it was. *)
Theorem C96_unharmed : forall clean d input f tr s, Server.runs clean d input tr s ->
  exists tr' x, Process.runs clean d input f tr' x /\ served tr' = tr /\ x_srv x = s /\ x_spawned x = false /\ x_pend x = [] /\ x_gone x = false /\ p_file (x_file x) = f /\ p_dead (x_file x) = false.
Proof. exact unharmed. Qed.
Print Assumptions C96_unharmed.
(* An error does not end the process. *)
Theorem C96_alive : forall f l ws p oks, (forall n, ~ In (WDie n) ws) -> steps (open_file f) l ws = (p, oks) -> p_dead p = false.
Proof.
  intros f l ws p oks N. refine (alive l (open_file f) ws p oks _ eq_refl). apply Forall_forall. intros [|n|n] H; cbn; auto. exact (N n H).
Qed.
Print Assumptions C96_alive.
(* After one every attempt fails, whatever the disk would do, ... *)
Theorem C96_reported : forall p l ws, p_err p = true -> p_dead p = false -> steps p l ws = (p, repeat false (List.length l)).
Proof. exact (fun p l ws => sticky p l ws). Qed.
Print Assumptions C96_reported.
(* ... and the file of the server stays as it is until the process ends. *)
Theorem C96_never_again : forall clean x tr x', p_err (x_file x) = true -> exec (Process.step clean) x tr x' -> p_file (x_file x') = p_file (x_file x).
Proof. exact never_again. Qed.
Print Assumptions C96_never_again.
(* C96 is false: the disk refuses one write and would take all later ones; nothing later is in the file. *)
Definition later : bytes := bs "later".
Theorem C96_recovers_refuted : exists l p oks, steps (open_file []) l [WFail 0] = (p, oks) /\ In (PWrite later) l /\ last l (PWrite []) = PFlush /\ p_file p = [] /\ p_dead p = false.
Proof. exists [PWrite (bs "first"); PFlush; PWrite later; PFlush]. eexists _, _. split; [vm_compute; reflexivity|]. cbn. auto 10. Qed.
Print Assumptions C96_recovers_refuted.
(* And a record was reported as written that never is. *)
Theorem C96_success_refuted : exists d p, d <> [] /\ steps (open_file []) [PWrite d; PFlush] [WFail 0] = (p, [true; false]) /\ p_file p = [].
Proof. exists later. eexists. split; [discriminate|]. split; vm_compute; reflexivity. Qed.
Print Assumptions C96_success_refuted.

(* A run of the server in which a SET is executed and answered; a file after an error. *)
Example C96_ex : (exists x, Process.runs true new_db pipelined [] lost x /\ Server.runs true new_db pipelined (served lost) (x_srv x)) /\
  p_err (fst (flush (mkPfile [] later false false) [WFail 2])) = true /\ p_file (fst (flush (mkPfile [] later false false) [WFail 2])) = bs "la" /\ p_dead (fst (flush (mkPfile [] later false false) [WFail 2])) = false.
Proof. split; [|vm_compute; auto]. destruct C67_lost_refuted as (x & R & _). exists x. split; [exact R|]. exact (ProcessProofs.served_runs _ _ _ _ _ _ R). Qed.
Print Assumptions C96_ex.
