(* C86: what reading a request takes. *)
From Verif Require Import Base IntParse Resp Memory MemorySpec MemoryProofs.
From Coq Require Import ZArith List Ascii String Bool Lia.
Import ListNotations.
Local Open Scope nat_scope.

(* C86: no multiple of the bytes sent bounds what is kept of them: *)
Theorem C86_memory_refuted : forall K, exists s o, parse s = POk o [] /\ K * List.length s < held o.
Proof.
  intros K. exists (encode (nested K)), (nested K). split; [apply nested_parse|]. rewrite nested_encode, nested_held. nia.
Qed.
Print Assumptions C86_memory_refuted.
(* 4 bytes for each level of nesting are enough, and every level holds all that is below it. *)
Theorem C86_square_refuted : forall n, exists s o, parse s = POk o [] /\ List.length s = 4 * (n + 1) /\ depth o = n + 1 /\ held o = 4 * (n + 1) * (n + 2).
Proof. intros n. exists (encode (nested n)), (nested n). split; [apply nested_parse|]. rewrite nested_encode, nested_depth, nested_held. auto. Qed.
Print Assumptions C86_square_refuted.
(* It is bounded by the bytes and the nesting, which 4 bytes a level pay for; *)
Theorem C86_bounded : forall s o r, parse s = POk o r -> held o <= (2 * depth o + 3) * (List.length s - List.length r) /\ 4 * depth o <= List.length s - List.length r.
Proof. intros s o r H. split; [exact (parse_held s o r H)|]. apply parse_sizes in H. lia. Qed.
Print Assumptions C86_bounded.
(* for what commands take, arrays without arrays in them, five times the bytes are enough. *)
Theorem C86_flat : forall s o r, parse s = POk o r -> flat o -> held o <= 5 * (List.length s - List.length r).
Proof.
  intros s o r H F. etransitivity; [exact (parse_held s o r H)|]. apply Nat.mul_le_mono_r. pose proof (flat_depth o F). lia.
Qed.
Print Assumptions C86_flat.
(* An object is never longer than what it was read from. *)
Theorem C86_shorter : forall s o r, parse s = POk o r -> List.length (encode o) <= List.length s - List.length r.
Proof. intros s o r H. apply parse_sizes in H. lia. Qed.
Print Assumptions C86_shorter.
Example C86_ex : parse (bs "*+02" ++ CRLF ++ bs "$3" ++ CRLF ++ bs "GET" ++ CRLF ++ bs "+k" ++ CRLF ++ bs "*") = POk (RArr [RBulk (bs "GET"); RSimple (bs "k")]) (bs "*") /\
  flat (RArr [RBulk (bs "GET"); RSimple (bs "k")]) /\ held (RArr [RBulk (bs "GET"); RSimple (bs "k")]) = 64.
Proof. split; [vm_compute; reflexivity|]. split; [cbn; auto|vm_compute; reflexivity]. Qed.
