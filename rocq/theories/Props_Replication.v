(* C35, C36: copying the log to a replica. *)
From Verif Require Import Base BaseFacts Resp Utf8 Utf8Spec Utf8Proofs Log LogSpec LogProofs Persist PersistSpec PersistProofs
  Replication ReplicationProofs Props_Log.
From Coq Require Import ZArith List Ascii String Bool Lia.
Import ListNotations.
Open Scope Z_scope.

(* C35: a log below 4 GiB arrives exactly. *)
Theorem C35_replica_gets_the_log : forall vs bss rest, Forall2 packed vs bss -> blen (List.concat bss) < 2 ^ 32 ->
  receive (replica_stream (List.concat bss) ++ rest) = Some vs.
Proof. exact replicate_whole. Qed.
Print Assumptions C35_replica_gets_the_log.
Example C35_whole_ex : receive (replica_stream (List.concat [pk rec_a; pk rec_b])) = Some [rec_a; rec_b].
Proof.
  pose proof (C35_replica_gets_the_log [rec_a; rec_b] [pk rec_a; pk rec_b] []) as H. rewrite app_nil_r in H. apply H; [|reflexivity].
  packs.
Qed.
(* A connection cut at any byte gives an error, and nothing is applied. *)
Theorem C35_cut_connection_applies_nothing : forall f p q, blen f < 2 ^ 32 -> replica_stream f = p ++ q -> q <> [] ->
  receive p = None /\ from_master p = [].
Proof. intros f p q H1 H2 H3. unfold from_master. rewrite (replicate_cut f p q H1 H2 H3). auto. Qed.
Print Assumptions C35_cut_connection_applies_nothing.
Example C35_cut_ex : exists p q, replica_stream (pk rec_a) = p ++ q /\ q <> [] /\ blen p = 20 /\ receive p = None.
Proof. exists (firstn 20 (replica_stream (pk rec_a))), (skipn 20 (replica_stream (pk rec_a))). vm_compute. repeat split; discriminate. Qed.
(* The master copies the file while writes go on: whatever prefix of the log the copy
   holds, the replica gets the first records or an error. *)
Theorem C35_copy_during_writes : forall vs bss p q, Forall2 packed vs bss -> List.concat bss = p ++ q -> blen p < 2 ^ 32 ->
  match receive (replica_stream p) with Some l => exists n, l = firstn n vs | None => True end.
Proof. exact replicate_prefix. Qed.
Print Assumptions C35_copy_during_writes.
Example C35_copy_ex : receive (replica_stream (pk rec_a ++ firstn 2 (pk rec_b))) = Some [rec_a] /\
  receive (replica_stream (pk rec_a ++ firstn 9 (pk rec_b))) = None.
Proof. vm_compute. auto. Qed.
(* The master flushes first, so everything written is sent. *)
Theorem C35_master_flushes : forall vs l ws p oks p' s, Forall2 packed vs (written_by l) -> blen (List.concat (written_by l)) < 2 ^ 32 ->
  steps (open_file []) l ws = (p, oks) -> serve_replica p [] = (p', Some s) -> receive s = Some vs.
Proof. exact flushed_and_sent. Qed.
Print Assumptions C35_master_flushes.
Example C35_master_ex : let '(p, _) := steps (open_file []) [PWrite (pk rec_a); PWrite (pk rec_b)] [] in
  p_file p = [] /\ exists p' s, serve_replica p [] = (p', Some s) /\ receive s = Some [rec_a; rec_b].
Proof.
  lazymatch goal with |- let '(_, _) := ?X in _ => let y := eval vm_compute in X in replace X with y by (vm_compute; reflexivity) end.
  split; [reflexivity|]. eexists. eexists. split; [reflexivity|vm_compute; reflexivity].
Qed.

(* C36 is false: there is a valid log of exactly 2^32 bytes which the replica takes for
   an empty one, without an error. *)
Theorem C36_any_size_refuted : exists v b, packed v b /\ receive (replica_stream b) = Some [] /\ [v] <> [].
Proof. exact big_not_replicated. Qed.
Print Assumptions C36_any_size_refuted.
(* Indeed no log of 4 GiB or more arrives. *)
Theorem C36_big_logs_refuted : forall vs bss, Forall2 packed vs bss -> 2 ^ 32 <= blen (List.concat bss) ->
  receive (replica_stream (List.concat bss)) <> Some vs.
Proof. exact replicate_big. Qed.
Print Assumptions C36_big_logs_refuted.
Example C36_big_ex : exists v b, packed v b /\ 2 ^ 32 <= blen b.
Proof. destruct big_packed as (b & H & E). exists (big_log 4294967286), b. split; [exact H|]. rewrite E. apply Z.le_refl. Qed.
