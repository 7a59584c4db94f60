(* C28, C29, C33, C34: log records, the log file and crashes. *)
From Verif Require Import Base BaseFacts Resp Utf8 Utf8Spec Utf8Proofs Log LogSpec LogProofs Persist PersistSpec PersistProofs.
From Coq Require Import ZArith List Ascii String Bool Lia.
Import ListNotations.
Open Scope Z_scope.

(* Two records and their packed forms, used by the examples. *)
Definition rec_a : vlog := mkVlog (bs "1") 1605600000000000000 (bs "10.0.0.1") (bs "set") 1 [bs "k"; bs "v"] (bs "raw").
Definition rec_b : vlog := mkVlog (bs "2") (-5) (bs "unknown") (bs "incr") (-1) [] [].
Definition pk (v : vlog) : bytes := match pack_log v with Some b => b | None => [] end.
Example rec_a_packed : packed rec_a (pk rec_a).
Proof. apply packed_intro; [reflexivity| | |]; vm_compute; auto; split; congruence. Qed.
Example rec_b_packed : packed rec_b (pk rec_b).
Proof. apply packed_intro; [reflexivity| | |]; vm_compute; auto; split; congruence. Qed.

Ltac packs := repeat (apply List.Forall2_cons; [apply rec_a_packed || apply rec_b_packed|]); apply List.Forall2_nil.

(* C28: a record whose texts are UTF-8 is packed, and the packed record reads back. *)
Theorem C28_packs : forall v, (exists b, pack_log v = Some b) <-> record_utf8 v /\ v <> empty_vlog.
Proof. exact pack_iff. Qed.
Print Assumptions C28_packs.
Example C28_packs_ex : record_utf8 rec_a /\ rec_a <> empty_vlog.
Proof. apply C28_packs. eexists. reflexivity. Qed.

Theorem C28_log_round_trip : forall v b rest, record_ok v -> pack_log v = Some b -> blen b < 2 ^ 32 + 4 ->
  read_log (b ++ rest) = LLog v rest.
Proof. exact read_packed. Qed.
Print Assumptions C28_log_round_trip.
Example C28_log_round_trip_ex : read_log (pk rec_a ++ bs "tail") = LLog rec_a (bs "tail").
Proof. destruct rec_a_packed as (H1 & H2 & H3). now apply C28_log_round_trip. Qed.

Theorem C28_sequence_round_trip : forall vs bss, Forall2 packed vs bss -> parse_log (List.concat bss) = (vs, false).
Proof. exact parse_concat. Qed.
Print Assumptions C28_sequence_round_trip.
Example C28_sequence_ex : parse_log (pk rec_a ++ pk rec_b ++ pk rec_a ++ []) = ([rec_a; rec_b; rec_a], false).
Proof.
  apply (C28_sequence_round_trip _ [pk rec_a; pk rec_b; pk rec_a]). packs.
Qed.

(* C29: whatever the disk does and whenever the process dies, the records recovered are
   the first n written, including those present at the start and those flushed. *)
Theorem C29_crash_prefix : forall vs0 bss0 vs l ws p oks,
  Forall2 packed vs0 bss0 -> Forall2 packed vs (written_by l) -> steps (open_file (List.concat bss0)) l ws = (p, oks) ->
  exists n e, parse_log (p_file p) = (firstn n (vs0 ++ vs), e) /\ (List.length vs0 <= n <= List.length vs0 + List.length vs)%nat /\
    (forall l1 l2, l = l1 ++ PFlush :: l2 -> nth (List.length l1) oks false = true -> (List.length vs0 + List.length (written_by l1) <= n)%nat).
Proof. exact recovered. Qed.
Print Assumptions C29_crash_prefix.
(* the process dies 50 bytes into the second flush *)
Example C29_crash_ex :
  let l := [PWrite (pk rec_a); PFlush; PWrite (pk rec_b); PWrite (pk rec_a); PFlush; PWrite (pk rec_b)] in
  let '(p, oks) := steps (open_file (pk rec_b)) l [WOk; WDie 50] in
  Forall2 packed [rec_a; rec_b; rec_a; rec_b] (written_by l) /\ oks = [true; true; true; true; false; false] /\
  parse_log (p_file p) = ([rec_b; rec_a; rec_b], true).
Proof.
  cbv zeta. lazymatch goal with |- let '(_, _) := ?X in _ => let y := eval vm_compute in X in replace X with y by (vm_compute; reflexivity) end.
  split; [cbn [written_by List.app]; packs|]. vm_compute. auto.
Qed.

Theorem C29_flushed_is_in_the_file : forall f l ws p oks, steps (open_file f) (l ++ [PFlush]) ws = (p, oks) ->
  nth (List.length l) oks false = true -> p_file p = f ++ List.concat (written_by l).
Proof. exact steps_flushed. Qed.
Print Assumptions C29_flushed_is_in_the_file.
Example C29_flushed_ex : let '(p, oks) := steps (open_file (bs "x")) ([PWrite (bs "abc"); PWrite (bs "d")] ++ [PFlush]) [] in
  nth 2 oks false = true /\ p_file p = bs "xabcd".
Proof. vm_compute. auto. Qed.

(* C33 is false: a torn record swallows the records appended after it. *)
Theorem C33_torn_tail_refuted : exists vs bss v b p q v2 b2,
  Forall2 packed vs bss /\ packed v b /\ b = p ++ q /\ packed v2 b2 /\
  parse_log (List.concat bss ++ p) = (vs, true) /\
  ~ In v2 (fst (parse_log ((List.concat bss ++ p) ++ b2))).
Proof.
  exists [rec_a], [pk rec_a], rec_a, (pk rec_a), (firstn 6 (pk rec_a)), (skipn 6 (pk rec_a)), rec_b, (pk rec_b).
  split; [packs|]. split; [apply rec_a_packed|]. split; [symmetry; apply firstn_skipn|].
  split; [apply rec_b_packed|]. split; [reflexivity|]. vm_compute. intros [H|H]; [discriminate|contradiction].
Qed.
Print Assumptions C33_torn_tail_refuted.
(* It fails for every record torn after its header and anything shorter than the missing
   part. *)
Theorem C33_torn_tail_loses_everything_refuted : forall vs bss v b p q x, Forall2 packed vs bss -> packed v b -> b = p ++ q ->
  4 <= blen p -> blen x < blen q -> parse_log (List.concat bss ++ p ++ x) = (vs, true).
Proof. exact torn_swallows. Qed.
Print Assumptions C33_torn_tail_loses_everything_refuted.
Definition rec_c : vlog := mkVlog [] 9 [] (bs "lpop") 1 [bs "k"] [].
Example C33_torn_ex : 4 <= blen (firstn 6 (pk rec_a)) /\ blen (pk rec_c) < blen (skipn 6 (pk rec_a)) /\
  parse_log (pk rec_a ++ firstn 6 (pk rec_a) ++ pk rec_c) = ([rec_a], true).
Proof. vm_compute. repeat split; congruence. Qed.
(* What does hold: records appended to an untorn log are recovered, and no append can
   lose the records before the tear. *)
Theorem C33_untorn_partial : forall vs bss vs2 bss2, Forall2 packed vs bss -> Forall2 packed vs2 bss2 ->
  parse_log (List.concat bss ++ List.concat bss2) = (vs ++ vs2, false).
Proof. intros vs bss vs2 bss2 H H2. rewrite (parse_packed _ _ H), (parse_concat _ _ H2). reflexivity. Qed.
Print Assumptions C33_untorn_partial.
Example C33_untorn_ex : Forall2 packed [rec_a] [pk rec_a] /\ Forall2 packed [rec_b] [pk rec_b].
Proof. split; packs. Qed.
Theorem C33_earlier_records_partial : forall vs bss rest, Forall2 packed vs bss ->
  exists l, fst (parse_log (List.concat bss ++ rest)) = vs ++ l.
Proof. exact parse_prefix_kept. Qed.
Print Assumptions C33_earlier_records_partial.
Example C33_earlier_ex : fst (parse_log (List.concat [pk rec_a; pk rec_b] ++ bs "garbage")) = [rec_a; rec_b] ++ [].
Proof. reflexivity. Qed.

(* C34 is false with replication off: Stop crashes before the flush, and what is in the
   buffer never reaches the file. *)
Theorem C34_stop_refuted : exists l p oks, steps (open_file []) l [] = (p, oks) /\ Forall (fun ok => ok = true) oks /\
  stop false (Some p) [] = Panic /\ p_file p = [] /\ written_by l <> [].
Proof.
  exists [PWrite (pk rec_a)]. eexists. eexists. split; [reflexivity|]. split; [repeat constructor|]. split; [reflexivity|].
  split; [reflexivity|discriminate].
Qed.
Print Assumptions C34_stop_refuted.
Theorem C34_stop_with_replication_partial : forall f l ws p oks, steps (open_file f) l ws = (p, oks) -> p_err p = false ->
  exists p', stop true (Some p) [] = Ret (p', []) /\ p_file p' = f ++ List.concat (written_by l).
Proof. exact stop_flushes. Qed.
Print Assumptions C34_stop_with_replication_partial.
Example C34_stop_ex : let '(p, _) := steps (open_file []) [PWrite (pk rec_a)] [] in p_err p = false /\ p_file p = [] /\
  exists p', stop true (Some p) [] = Ret (p', []) /\ p_file p' = pk rec_a.
Proof.
  lazymatch goal with |- let '(_, _) := ?X in _ => let y := eval vm_compute in X in replace X with y by (vm_compute; reflexivity) end.
  split; [reflexivity|]. split; [reflexivity|]. eexists. split; [reflexivity|vm_compute; reflexivity].
Qed.
