(* C78, C79: what is logged. *)
From Coq Require Import ZArith List Ascii String Bool Lia.
From Verif Require Import Base Logging LoggingSpec LoggingProofs.
Import ListNotations.

(* C78: for each level but DEBUG, ... *)
Theorem C78_levels_partial : forall t l m, named t l -> l <> LDebug -> (enabled false t m = true <-> at_least l m).
Proof. exact levels. Qed.
Print Assumptions C78_levels_partial.
(* ... in debug mode all messages, and for any other text those of INFO and above. *)
Theorem C78_debug_mode : forall t m, enabled true t m = true.
Proof. exact debugging. Qed.
Print Assumptions C78_debug_mode.
Theorem C78_other_text : forall t m, (forall l, l <> LDebug -> ~ named t l) -> (enabled false t m = true <-> at_least LInfo m).
Proof. exact others. Qed.
Print Assumptions C78_other_text.
(* But C78 is false of DEBUG. *)
Theorem C78_debug_refuted : exists t m, named t LDebug /\ at_least LDebug m /\ enabled false t m = false.
Proof. exists (bs "DEBUG"), LDebug. split; [now left|]. split; [|reflexivity]. exists [], [LInfo; LWarn; LError; LDPanic; LPanic; LFatal]. split; [reflexivity|now left]. Qed.
Print Assumptions C78_debug_refuted.
Example C78_ex : named (bs "WARN") LWarn /\ enabled false (bs "WARN") LError = true /\ enabled false (bs "WARN") LInfo = false /\
  (forall l, l <> LDebug -> ~ named (bs "warn") l) /\ enabled false (bs "warn") LInfo = true.
Proof. split; [cbn; auto 6|]. do 2 (split; [reflexivity|]). split; [|reflexivity]. intros l _ H. cbn in H. repeat destruct H as [H|H]; inversion H. Qed.

(* C79: error messages read as they were written, ... *)
Theorem C79_errors : forall ps args, args <> [] -> holes ps = List.length args -> errorf (template ps) args = Some (filled ps args).
Proof. exact errors. Qed.
Print Assumptions C79_errors.
Theorem C79_errors_plain : forall b, ~ In "%"%char b -> errorf (template [Plain b]) [] = Some b.
Proof. exact errors_plain. Qed.
Print Assumptions C79_errors_plain.
(* ... but no other message that has arguments does: the first place gets the whole list in brackets, and the
   others a mark. *)
Theorem C79_others : forall ps args, args <> [] -> holes ps = List.length args ->
  infof (template ps) args = Some (first_only ps (listed args)) /\ infof (template ps) args <> Some (filled ps args).
Proof. intros ps args N H. split; [rewrite <- brackets_listed; apply infos; destruct args; [contradiction|rewrite H; discriminate]|now apply infos_wrong]. Qed.
Print Assumptions C79_others.
(* A message without places that is not an error's gets the list, even an empty one, at its end. *)
Theorem C79_no_place : forall ps args, template ps <> [] -> holes ps = 0%nat ->
  infof (template ps) args = Some (filled ps [] ++ bs "%!(EXTRA []interface {}=" ++ listed args ++ bs ")").
Proof. exact infos_none. Qed.
Print Assumptions C79_no_place.
(* An error message with more arguments than places shows them at its end; one with fewer has marks. *)
Theorem C79_more : forall ps args more, template ps <> [] -> holes ps = List.length args -> more <> [] ->
  errorf (template ps) (args ++ more) = Some (filled ps args ++ unused more).
Proof. exact errors_more. Qed.
Print Assumptions C79_more.
Theorem C79_fewer : forall ps args, args <> [] -> (List.length args <= holes ps)%nat -> errorf (template ps) args = Some (partly ps args).
Proof. exact errors_fewer. Qed.
Print Assumptions C79_fewer.
Example C79_fit_ex : infof (bs "stopped") [] = Some (bs "stopped%!(EXTRA []interface {}=[])") /\
  errorf (bs "addr=%s") [bs "a:1"; bs "x"; bs "y"] = Some (bs "addr=a:1%!(EXTRA string=x, string=y)") /\
  errorf (bs "addr=%s, err=%s") [bs "a:1"] = Some (bs "addr=a:1, err=%!s(MISSING)").
Proof. vm_compute. auto. Qed.
Theorem C79_refuted : exists t args, infof t args <> Some (filled [Plain (bs "client "); Hole; Plain (bs " is join")] args) /\ t = bs "client %s is join" /\ args = [bs "a:1"] /\
  infof t args = Some (bs "client [a:1] is join").
Proof. exists (bs "client %s is join"), [bs "a:1"]. repeat split; discriminate. Qed.
Print Assumptions C79_refuted.
Definition joins : list piece := [Plain (bs "addr="); Hole; Plain (bs ", err="); Hole].
Example C79_ex : errorf (template joins) [bs "a:1"; bs "100% full"] = Some (bs "addr=a:1, err=100% full") /\
  infof (template joins) [bs "a:1"; bs "100% full"] = Some (bs "addr=[a:1 100% full], err=%!s(MISSING)") /\
  holes joins = 2%nat /\ template joins = bs "addr=%s, err=%s".
Proof. vm_compute. auto. Qed.
