(* C91: what the clients see is explained by one sequential history. *)
From Coq Require Import List Arith Bool String ZArith Lia.
From Verif Require Import Base Lts Resp RequestSpec Engine EngineProofs Db Server ServerSpec ServerProofs LinSpec LinProofs SpecDb Process Signals Master System Props_Server.
From Verif Require ProcessProofs SystemProofs.
Import ListNotations.
Local Open Scope nat_scope.

Theorem C91_linearizable : forall cl d input tr s h0 rs0, Server.runs cl d input tr s -> run new_db h0 = Ret (d, rs0) ->
  Forall (fun x => env_ok (fst x)) (h0 ++ turns_of tr) -> (requests_size (map snd (h0 ++ turns_of tr)) < 2 ^ 62)%Z ->
  exists h, explains input (map snd h0) rs0 tr h.
Proof. intros. eexists. eapply linear; eassumption. Qed.
Print Assumptions C91_linearizable.
(* The same of the whole program, with its log, replicas and signals. *)
Theorem C91_program : forall d input f tr y h0 rs0, System.runs d input f tr y -> run new_db h0 = Ret (d, rs0) ->
  let tr' := served (of_proc (hosts tr)) in
  Forall (fun x => env_ok (fst x)) (h0 ++ turns_of tr') -> (requests_size (map snd (h0 ++ turns_of tr')) < 2 ^ 62)%Z ->
  exists h, explains input (map snd h0) rs0 tr' h.
Proof. intros d input f tr y h0 rs0 R R0 tr' He Hs. eexists. eapply linear; [exact (SystemProofs.server_part _ _ _ _ _ R)|eassumption..]. Qed.
Print Assumptions C91_program.
(* Two requests sent at once (C44) are explained by the order in which they were answered. *)
Lemma plain_ok : env_ok plain.
Proof. intros m l. apply Permutation.Permutation_refl. Qed.
Example C91_ex : (exists s, Server.runs true new_db pipelined swapped s) /\ run new_db [] = Ret (new_db, []) /\
  Forall (fun x => env_ok (fst x)) ([] ++ turns_of swapped) /\ (requests_size (map snd ([] ++ turns_of swapped)) < 2 ^ 62)%Z /\
  explains pipelined [] [] swapped [mkCall 0 1 q1 (Some RNullBulk); mkCall 0 0 q0 (Some (RSimple (bs "OK")))].
Proof.
  assert (E : Forall (fun x => env_ok (fst x)) ([] ++ turns_of swapped)) by (repeat constructor; exact plain_ok).
  assert (S : (requests_size (map snd ([] ++ turns_of swapped)) < 2 ^ 62)%Z) by (vm_compute; reflexivity).
  split; [exact swapped_runs|]. split; [reflexivity|]. split; [exact E|]. split; [exact S|].
  destruct swapped_runs as (s & R). exact (linear true new_db pipelined swapped s [] [] R eq_refl E S).
Qed.
(* The condition on time excludes the other order for one who waits. *)
Example C91_wait_ex : forall h, explains pipelined [] [] waiting h -> forall o o', In (mkCall 0 0 q0 o) h -> In (mkCall 0 1 q1 o') h -> before h (mkCall 0 0 q0 o) (mkCall 0 1 q1 o').
Proof. intros h X o o' H H'. apply (e_real_time _ _ _ _ _ X _ _ 3 (RSimple (bs "OK")) 2 H H'). exact (proj2 C44_waiting_ex). Qed.
