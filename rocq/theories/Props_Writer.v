(* C100: every method of the log file. *)
From Coq Require Import List Arith Bool Ascii String Lia.
From Verif Require Import Base Persist PersistSpec PersistProofs Writer WriterSpec WriterProofs.
Import ListNotations.
Local Open Scope nat_scope.

(* Every call returns. *)
Theorem C100_returns : forall fuel l f ws, enough fuel l -> exists p rs, calls fuel (open_file f) l ws = Some (p, rs) /\ List.length rs = List.length l.
Proof.
  intros fuel l f ws F. destruct (calls_end fuel l F _ ws (sane_open f)) as (p & rs & E). exists p, rs. split; [exact E|]. destruct (calls_held _ _ _ _ _ _ (sane_open f) E) as (_ & _ & _ & F2 & _). symmetry. exact (Forall2_len _ _ _ F2).
Qed.
Print Assumptions C100_returns.
(* Whatever the disk does, the file and the buffer together hold exactly what the calls report
   as taken, in order, after what was in the file; the file holds a beginning of it, no shorter
   than what it was.  A call that succeeds has taken all it was given, and no call takes more. *)
Theorem C100_stream : forall fuel l f ws p rs, calls fuel (open_file f) l ws = Some (p, rs) ->
  p_file p ++ p_buf p = f ++ all_taken l rs /\ begins f (p_file p) /\
  Forall2 (fun o r => fst r <= List.length (given o) /\ (snd r = true -> fst r = List.length (given o))) l rs.
Proof.
  intros fuel l f ws p rs E. destruct (calls_held _ _ _ _ _ _ (sane_open f) E) as (_ & Hh & B & F & _). unfold held in Hh. cbn [open_file p_file p_buf] in Hh. rewrite app_nil_r in Hh. auto.
Qed.
Print Assumptions C100_stream.
(* After a Flush that succeeds the file is what it was, followed by all that was given, however it
   was divided among the three methods. *)
Theorem C100_flushed : forall fuel f l ws p rs n, calls fuel (open_file f) (l ++ [CFlush]) ws = Some (p, rs ++ [(n, true)]) -> p_file p = f ++ all_given l /\ buffered p = 0.
Proof. exact flushed. Qed.
Print Assumptions C100_flushed.
(* Buffered and Available add up to Size, and Buffered is what is taken but not in the file. *)
Theorem C100_sizes : forall fuel l f ws p rs, calls fuel (open_file f) l ws = Some (p, rs) ->
  buffered p + available p = size p /\ size p = 4096 /\ List.length f + List.length (all_taken l rs) = List.length (p_file p) + buffered p.
Proof.
  intros fuel l f ws p rs E. destruct (calls_held _ _ _ _ _ _ (sane_open f) E) as ([S _] & Hh & _). split; [unfold buffered, available, size; lia|]. split; [reflexivity|].
  unfold held in Hh. cbn [open_file p_file p_buf] in Hh. rewrite app_nil_r in Hh. apply (f_equal (@List.length _)) in Hh. rewrite !app_length in Hh. unfold buffered. symmetry. exact Hh.
Qed.
Print Assumptions C100_sizes.
(* As much as is available can be given without a write to the disk, and is taken. *)
Theorem C100_room : forall fuel l f ws p rs o ws', calls fuel (open_file f) l ws = Some (p, rs) -> Forall (fun r => snd r = true) rs -> 0 < fuel -> o <> CFlush -> List.length (given o) <= available p ->
  exists p', do fuel p o ws' = Some (p', List.length (given o), true, ws') /\ p_file p' = p_file p /\ buffered p' = buffered p + List.length (given o).
Proof.
  intros fuel l f ws p rs o ws' E A F N L. destruct (calls_held _ _ _ _ _ _ (sane_open f) E) as (S & _). assert (Er : p_err p = false).
  { destruct l as [|o1 l1 _] using rev_ind; [injection E as <- _; reflexivity|]. destruct (calls_app _ _ _ _ _ _ _ E) as (p1 & rs1 & ws1 & rs2 & E1 & E2 & -> & _). cbn [calls] in E2. destruct (do fuel p1 o1 ws1) as [[[[p2 n2] ok2] ws2]|] eqn:D; [|discriminate]. injection E2 as -> <-.
    destruct (calls_held _ _ _ _ _ _ (sane_open f) E1) as (S1 & _). destruct (do_held _ _ _ _ _ _ _ _ S1 D) as (_ & _ & _ & _ & K & _). apply Forall_app in A as [_ A]. inversion A as [|? ? A1 _]; subst. cbn in A1. now destruct (p_err p). }
  eexists. split; [exact (do_room fuel p o ws' S F Er N L)|]. split; [reflexivity|]. unfold buffered. cbn [p_buf]. apply app_length.
Qed.
Print Assumptions C100_room.
(* After a call that failed, every call fails and takes nothing, and the file stays as it is. *)
Theorem C100_failed : forall fuel l1 l2 f ws p1 rs1 n p rs, 0 < fuel -> calls fuel (open_file f) l1 ws = Some (p1, rs1 ++ [(n, false)]) -> calls fuel (open_file f) (l1 ++ l2) ws = Some (p, rs) ->
  p = p1 /\ rs = (rs1 ++ [(n, false)]) ++ repeat (0, false) (List.length l2).
Proof.
  intros fuel l1 l2 f ws p1 rs1 n p rs F E1 E. destruct (calls_app _ _ _ _ _ _ _ E) as (p3 & rs3 & ws3 & rs4 & E3 & E4 & -> & _). rewrite E1 in E3. injection E3 as <- <-.
  enough (Er : p_err p1 = true). { rewrite (calls_err fuel l2 F p1 ws3 Er) in E4. injection E4 as <- <-. auto. }
  destruct (p_err p1) eqn:Er; [reflexivity|]. destruct (calls_held _ _ _ _ _ _ (sane_open f) E1) as (_ & _ & _ & _ & G). destruct (G Er) as (_ & A & _). apply Forall_app in A as [_ A]. inversion A as [|? ? A1 _]; subst. discriminate A1.
Qed.
Print Assumptions C100_failed.
(* The Write and Flush of C29 are these. *)
Theorem C100_write : forall fuel l f ws p rs d ws', calls fuel (open_file f) l ws = Some (p, rs) -> List.length d + 2 < fuel ->
  (exists n ws2, do fuel p (CWrite d) ws' = Some (fst (fst (step p (PWrite d) ws')), n, snd (fst (step p (PWrite d) ws')), ws2) /\ ws2 = snd (step p (PWrite d) ws')) /\
  exists n ws2, do fuel p CFlush ws' = Some (fst (fst (step p PFlush ws')), n, snd (fst (step p PFlush ws')), ws2) /\ ws2 = snd (step p PFlush ws').
Proof.
  intros fuel l f ws p rs d ws' E L. destruct (calls_held _ _ _ _ _ _ (sane_open f) E) as (S & _). unfold do, step. destruct (p_dead p); [split; cbn; eauto|]. split.
  - destruct (write_same fuel p d ws' S L) as [n ->]. destruct (write p d ws') as [p1 ws1]. cbn [fst snd]. eauto.
  - destruct (flush p ws') as [p1 ws1]. cbn [fst snd]. eauto.
Qed.
Print Assumptions C100_write.

(* A record of 4095 bytes, a byte, a text that does not fit, and a flush of which the disk takes
   three bytes; then nothing goes any more. *)
Definition mixed : list call := [CWrite (repeat "a"%char 4095); CByte "b"%char; CString (bs "cdefgh"); CFlush; CByte "i"%char; CFlush].
Example C100_ex : exists p, calls 5000 (open_file (bs "x")) mixed [WOk; WFail 3] = Some (p, [(4095, true); (1, true); (6, true); (0, false); (0, false); (0, false)]) /\
  p_file p = bs "x" ++ repeat "a"%char 4095 ++ bs "bcde" /\ buffered p = 3 /\ available p = 4093.
Proof. eexists. split; [vm_compute; reflexivity|]. split; [vm_compute; reflexivity|]. split; vm_compute; reflexivity. Qed.
Example C100_flushed_ex : exists p, calls 5000 (open_file (bs "x")) ([CString (bs "ab"); CWrite (bs "c"); CByte "d"%char] ++ [CFlush]) [] = Some (p, [(2, true); (1, true); (1, true)] ++ [(0, true)]) /\ p_file p = bs "xabcd".
Proof. eexists. split; vm_compute; reflexivity. Qed.
Example C100_enough_ex : enough 5000 mixed.
Proof. assert (H : forallb (fun o => List.length (given o) + 2 <? 5000) mixed = true) by (vm_compute; reflexivity). intros o Hin. rewrite forallb_forall in H. apply Nat.ltb_lt. exact (H o Hin). Qed.
