(* C90: damage to a record of the log. *)
From Verif Require Import Base BaseFacts Resp Command SpecDb Db Engine Log LogSpec LogProofs DamageProofs Recovery RecoverySpec Props_Recovery.
From Coq Require Import ZArith List Ascii String Bool Lia.
From stdpp Require Import gmap.
Open Scope Z_scope.

(* C90 for damage behind the length: whatever is found in place of the record, all others are
   read as before. *)
Theorem C90_confined_partial : forall vs bss v b m vs2 bss2, Forall2 packed vs bss -> packed v b -> blen m = blen b - 4 -> Forall2 packed vs2 bss2 ->
  exists l, parse_log (List.concat bss ++ firstn 4 b ++ m ++ List.concat bss2) = (vs ++ l ++ vs2, false) /\ (List.length l <= 1)%nat.
Proof. exact body_confined. Qed.
Print Assumptions C90_confined_partial.
Definition dm_1 : vlog := vof (en 1 ["SET"; "k"; "1"]%string).
Definition dm_2 : vlog := vof (en 2 ["SET"; "l"; "2"]%string).
Lemma dm_packed : Forall2 packed [dm_1; dm_2] [pack dm_1; pack dm_2].
Proof. packs. Qed.
Example C90_confined_ex : packed dm_1 (pack dm_1) /\ let m := repeat "255"%char (List.length (pack dm_1) - 4) in blen m = blen (pack dm_1) - 4 /\
  parse_log (List.concat [pack dm_2] ++ firstn 4 (pack dm_1) ++ m ++ List.concat [pack dm_2]) = ([dm_2] ++ [] ++ [dm_2], false).
Proof. pose proof dm_packed as P. inversion P; subst. split; [assumption|]. vm_compute. auto. Qed.
(* C90 is false of damage to the length: all that follows is lost, for every record and ... *)
Theorem C90_header_refuted : forall vs bss x rest, Forall2 packed vs bss -> blen x = 4 -> blen rest < le32_value x ->
  parse_log (List.concat bss ++ x ++ rest) = (vs, true).
Proof. exact header_loses. Qed.
Print Assumptions C90_header_refuted.
(* ... by one changed byte. *)
Definition change (n : nat) (c : ascii) (s : bytes) : bytes := firstn n s ++ c :: skipn (S n) s.
Example C90_header_ex : parse_log (change 2 "1"%char (pack dm_1 ++ pack dm_2)) = ([], true).
Proof. vm_compute. reflexivity. Qed.
(* And damage is not noticed: with one byte changed, the log is read without an error, and the database
   rebuilt from it holds another value. *)
Definition answer_from (f : bytes) (q : robj) : option (option robj) :=
  match recover (fun _ => as_is) f with Ret ds => match handle (mkEnv as_is []) (ds 1) q with Ret (_, r) => Some r | _ => None end | _ => None end.
Theorem C90_unnoticed_refuted : exists vs bss n c f, Forall2 packed vs bss /\ f = change n c (List.concat bss) /\ List.length f = List.length (List.concat bss) /\
  snd (parse_log f) = false /\ answer_from (List.concat bss) (rq ["GET"; "k"]%string) = Some (Some (RBulk (bs "1"))) /\
  answer_from f (rq ["GET"; "k"]%string) = Some (Some (RBulk (bs "7"))).
Proof.
  exists [dm_1; dm_2], [pack dm_1; pack dm_2], 38%nat, "7"%char. eexists. split; [exact dm_packed|]. split; [reflexivity|].
  split; [vm_compute; reflexivity|]. split; [vm_compute; reflexivity|]. split; vm_compute; reflexivity.
Qed.
Print Assumptions C90_unnoticed_refuted.
