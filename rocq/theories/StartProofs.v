From Coq Require Import ZArith List Ascii String Bool Lia.
From Verif Require Import Base Db Persist Recovery Node Start StartSpec.
Import ListNotations.
Open Scope Z_scope.

Lemma listen_iff w p : listen w p = true <-> can_listen w p.
Proof. unfold listen, can_listen. rewrite !andb_true_iff, !Z.leb_le. tauto. Qed.
Lemma up_inv o1 o2 w c n : init_server o1 o2 w c = Ret (Some n) ->
  can_listen w (port c) /\ n_port n = port c /\ n_replica n = new_engine w (engine_port c) /\
  n_file n = (match source_of w c with Opened b => Some b | _ => None end) /\ sync_external o1 o2 (source_of w c) (master_of w c) = Ret (n_dbs n).
Proof.
  unfold init_server. destruct (listen w (port c)) eqn:L; [|discriminate]. apply listen_iff in L.
  destruct (sync_external o1 o2 (source_of w c) (master_of w c)) as [ds| |]; try discriminate. cbn [rbind]. intros E. inversion E; subst. cbn. auto.
Qed.
Lemma wanted_iff c p : enable_replica c = true -> (engine_port c = p <-> wanted c p).
Proof.
  intros E. unfold engine_port, wanted. rewrite E. destruct (Z.leb_spec (replica_port c) 0) as [L|L]; cbn [orb].
  - split; [intros <-; auto|]. intros [(A & _)|(_ & A)]; lia.
  - destruct (Z.eqb_spec (port c) (replica_port c)) as [Q|Q]; split; try (intros <-); try lia; intros [(A & B & C)|(A & B)]; lia.
Qed.
Theorem replica_iff o1 o2 w c n p : init_server o1 o2 w c = Ret (Some n) ->
  (n_replica n = Some p <-> enable_replica c = true /\ wanted c p /\ can_listen w p) /\ (n_replica n = Some p -> p <> n_port n).
Proof.
  intros H. destruct (up_inv _ _ _ _ _ H) as (L & E1 & E2 & _). rewrite E1, E2. unfold new_engine.
  assert (Z : (if (0 <? engine_port c) && listen w (engine_port c) then Some (engine_port c) else None) = Some p <-> enable_replica c = true /\ wanted c p /\ can_listen w p).
  { destruct (enable_replica c) eqn:R.
    - rewrite <- (wanted_iff c p R). split.
      + destruct (_ && _) eqn:B; [|discriminate]. intros Q. inversion Q; subst. apply andb_true_iff in B as [_ B]. apply listen_iff in B. auto.
      + intros (_ & <- & B). apply listen_iff in B. rewrite B. replace (0 <? engine_port c) with true; [reflexivity|]. symmetry. apply Z.ltb_lt.
        unfold engine_port. rewrite R. destruct L as [[L _] _]. destruct (Z.leb_spec (replica_port c) 0); cbn [orb]; [lia|]. destruct (port c =? replica_port c); lia.
    - unfold engine_port. rewrite R. cbn. split; [discriminate|]. intros (Q & _). discriminate. }
  split; [exact Z|]. intros Q. apply Z in Q as (_ & W & _). unfold wanted in W. lia.
Qed.
Theorem no_port o1 o2 w c : w_log w (log_path c) = true -> ~ can_listen w (port c) -> launch o1 o2 w c = Exited 1.
Proof. intros Lg N. unfold launch, init_server. rewrite Lg. destruct (listen w (port c)) eqn:L; [|reflexivity]. apply listen_iff in L. contradiction. Qed.
Theorem listens o1 o2 w c n : launch o1 o2 w c = Serving n -> n_port n = port c /\ can_listen w (port c).
Proof.
  unfold launch. destruct (w_log w (log_path c)); [|discriminate]. destruct (init_server o1 o2 w c) as [[m|]| |] eqn:E; try discriminate. intros Q. inversion Q; subst.
  destruct (up_inv _ _ _ _ _ E) as (A & B & _). auto.
Qed.
Lemma launched o1 o2 w c n : launch o1 o2 w c = Serving n -> init_server o1 o2 w c = Ret (Some n).
Proof. unfold launch. destruct (w_log w (log_path c)); [|discriminate]. destruct (init_server o1 o2 w c) as [[m|]| |]; try discriminate. intros Q. inversion Q; subst. reflexivity. Qed.
Theorem file_iff o1 o2 w c n f : init_server o1 o2 w c = Ret (Some n) -> (n_file n = Some f <-> database_file c <> [] /\ w_file w (database_file c) = Some f).
Proof.
  intros H. destruct (up_inv _ _ _ _ _ H) as (_ & _ & _ & E & _). rewrite E. unfold source_of. destruct (database_file c) as [|x t] eqn:D.
  - split; [discriminate|]. intros [Q _]. congruence.
  - destruct (w_file w (x :: t)) as [b|] eqn:W; split; try discriminate; try (intros Q; inversion Q; subst; split; congruence); intros [_ Q]; congruence.
Qed.
Theorem clean_iff o1 o2 w c n : init_server o1 o2 w c = Ret (Some n) ->
  (clean n = true <-> (exists p, enable_replica c = true /\ wanted c p /\ can_listen w p) /\ exists f, database_file c <> [] /\ w_file w (database_file c) = Some f).
Proof.
  intros H. assert (Z : clean n = true <-> (exists p, n_replica n = Some p) /\ exists f, n_file n = Some f).
  { unfold clean, stop. destruct (n_replica n) as [p|], (n_file n) as [f|]; cbn; split; try discriminate; try (intros [[? ?] [? ?]]; congruence); intros _. split; eauto. }
  rewrite Z. split; intros [[p P] [f F]].
  - split; [exists p; now apply (replica_iff _ _ _ _ _ p H)|exists f; now apply (file_iff _ _ _ _ _ f H)].
  - split; [exists p; now apply (replica_iff _ _ _ _ _ p H)|exists f; now apply (file_iff _ _ _ _ _ f H)].
Qed.
