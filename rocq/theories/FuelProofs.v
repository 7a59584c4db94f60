(* The engine's loops end: no state of a server that began with data made by requests lets a
   request run out of the model's fuel. *)
From Coq Require Import List Arith ZArith.
From Verif Require Import Base Resp RequestSpec Engine Db EngineProofs EngineFacts ServerSpec NodeProofs.
Import ListNotations.

Lemma turn_run d h d' : in_turn d h d' -> exists rs, run d (map fst h) = Ret (d', rs).
Proof.
  induction 1 as [|l d1 e q o d2 H [rs IH] Hd]; [exists []; reflexivity|].
  rewrite map_app, run_app, IH. cbn. rewrite Hd. cbn. eauto.
Qed.
Theorem never_fuel h0 d rs0 h d' e q : run new_db h0 = Ret (d, rs0) -> in_turn d h d' -> Forall (fun x => env_ok (fst x)) (h0 ++ map fst h ++ [(e, q)]) ->
  (requests_size (map snd (h0 ++ map fst h ++ [(e, q)])) < 2 ^ 62)%Z -> handle e d' q <> NoFuel.
Proof.
  intros R T F S N. destruct (turn_run _ _ _ T) as [rs R']. pose proof (runs_refine _ F S) as H. rewrite run_app, R in H. cbn [fst snd rbind] in H. rewrite run_app, R' in H. cbn [fst snd rbind run] in H.
  rewrite N in H. cbn in H. exact H.
Qed.
