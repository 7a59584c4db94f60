(* How many bytes a record takes in the log. *)
From Verif Require Import Base Resp RespSpec RespProofs BaseFacts Command SpecDb RequestSpec Db DbProofs Engine EngineProofs SpecFacts StringFacts Utf8Spec Log LogSpec LogProofs Recovery RecoverySpec RecoveryProofs SizeSpec SizeProofs LogSizeSpec.
From Coq Require Import ZArith List Ascii String Bool Lia.
From stdpp Require Import gmap.
Open Scope Z_scope.

Lemma args_packed l : blen (List.concat (map (put_string 6) (map Resp.encode l))) <= 2 * blen (List.concat (map Resp.encode l)) .
Proof.
  induction l as [|o l IH]; cbn [map List.concat]; [vm_compute; discriminate|]. rewrite !blen_app. unfold put_string at 1. rewrite !blen_app.
  change (blen (put_tag 6 2)) with 1. pose proof (encode_min o).
  assert (blen (varint (blen (Resp.encode o))) <= blen (Resp.encode o) - 1); [|lia].
  destruct (Z.lt_ge_cases (blen (Resp.encode o)) 128) as [L|L].
  - unfold varint. cbn [put_varint]. apply Z.ltb_lt in L. rewrite L. unfold blen at 1. cbn [List.length]. lia.
  - pose proof (varint_size (blen (Resp.encode o))). lia.
Qed.
Lemma record_bytes (x : entry) v b : log_of (h_stamp x) (h_req x) = Some v -> pack_log v = Some b -> blen b <= record_bound x.
Proof.
  intros H P. apply log_of_spec in H as (o & name & args & w & c & Hq & Hn & _ & _ & _ & Hv). unfold record_bound. rewrite Hq.
  apply pack_inv in P as (m & Hm & _ & ->). rewrite blen_app, blen_le32. unfold marshal in Hm. destruct (_ && _); [|discriminate]. injection Hm as <-.
  rewrite !blen_app. subst v. unfold new_log. cbn [v_id v_host v_name v_raw v_args v_time v_index tl].
  repeat match goal with |- context [blen (put_string_nz ?n ?s)] => lazymatch goal with K : blen (put_string_nz n s) <= _ |- _ => fail | _ => pose proof (put_string_nz_size n s) end end.
  pose proof (put_int_nz_size 2 (t_time (h_stamp x))). pose proof (put_int_nz_size 5 (wrap32 1)).
  pose proof (args_packed args). pose proof (array_blen (o :: args)) as B. cbn [map List.concat] in B. rewrite blen_app in B.
  pose proof (str_blen o name Hn). pose proof (blen_nonneg (Resp.encode o)).
  set (T := blen (put_int_nz 2 (t_time (h_stamp x)))) in *. set (U := blen (put_int_nz 5 (wrap32 1))) in *.
  set (Q := blen (List.concat (map Resp.encode args))) in *. set (N := Resp.encode (RArr (o :: args))) in *.
  lia.
Qed.

Lemma record_raw (x : entry) v b : log_of (h_stamp x) (h_req x) = Some v -> pack_log v = Some b -> blen (Resp.encode (h_req x)) <= blen b.
Proof.
  intros H P. apply log_of_spec in H as (o & name & args & w & c & Hq & Hn & _ & _ & _ & Hv). rewrite Hq.
  apply pack_inv in P as (m & Hm & _ & ->). rewrite blen_app, blen_le32. unfold marshal in Hm. destruct (_ && _); [|discriminate]. injection Hm as <-.
  rewrite !blen_app. subst v. unfold new_log. cbn [v_id v_host v_name v_raw v_args v_time v_index tl].
  assert (A : forall n s, blen s <= blen (put_string_nz n s)).
  { intros n [|c0 s]; [vm_compute; discriminate|]. unfold put_string_nz, put_string. rewrite !blen_app. pose proof (blen_nonneg (put_tag n 2)). pose proof (blen_nonneg (varint (blen (c0 :: s)))). lia. }
  pose proof (A 255 (Resp.encode (RArr (o :: args)))).
  repeat match goal with |- context [blen (put_string_nz ?n ?s)] => lazymatch goal with K : 0 <= blen (put_string_nz n s) |- _ => fail | _ => pose proof (blen_nonneg (put_string_nz n s)) end end.
  pose proof (blen_nonneg (put_int_nz 2 (t_time (h_stamp x)))). pose proof (blen_nonneg (put_int_nz 5 (wrap32 1))).
  pose proof (blen_nonneg (List.concat (map (put_string 6) (map Resp.encode args)))).
  set (T := blen (put_int_nz 2 (t_time (h_stamp x)))) in *. set (U := blen (put_int_nz 5 (wrap32 1))) in *. lia.
Qed.
Lemma log_bytes_app a b : log_bytes (a ++ b) = log_bytes a + log_bytes b.
Proof. unfold log_bytes. induction a as [|v a IH]; cbn [app sum]; lia. Qed.
Lemma log_bytes_nonneg a : 0 <= log_bytes a.
Proof. unfold log_bytes. induction a as [|v a IH]; cbn [sum]; [lia|]. pose proof (blen_nonneg (pack v)). lia. Qed.
Lemma log_bytes_perm a b : Permutation a b -> log_bytes a = log_bytes b.
Proof. unfold log_bytes. induction 1; cbn [sum]; lia. Qed.
Lemma record_bound_nonneg x : 0 <= record_bound x.
Proof. unfold record_bound. pose proof (blen_nonneg (t_id (h_stamp x))). pose proof (blen_nonneg (t_host (h_stamp x))). pose proof (blen_nonneg (Resp.encode (h_req x))). lia. Qed.
Lemma records_bytes h : log_bytes (records h) <= sum record_bound h.
Proof.
  unfold log_bytes. induction h as [|x h IH]; cbn [records sum]; [lia|]. pose proof (record_bound_nonneg x).
  destruct (log_of (h_stamp x) (h_req x)) as [v|] eqn:E; [|lia]. cbn [sum]. unfold pack at 1. destruct (pack_log v) as [b|] eqn:P.
  - pose proof (record_bytes x v b E P). lia.
  - change (blen []) with 0. lia.
Qed.
Theorem log_bound a : lreach a -> log_bytes (l_log a) <= sum record_bound (l_executed a).
Proof.
  intros H. destruct (log_permutation a H) as (dr & P & _). apply log_bytes_perm in P. rewrite !log_bytes_app in P.
  pose proof (records_bytes (l_executed a)). pose proof (log_bytes_nonneg (l_pending a)). pose proof (log_bytes_nonneg dr). lia.
Qed.

Theorem log_grows a b : lstep a b -> log_bytes (l_log a) <= log_bytes (l_log b).
Proof.
  intros H. destruct H; cbn [l_log]; try lia. rewrite log_bytes_app. pose proof (log_bytes_nonneg [v]). lia.
Qed.
Definition one_held : sdb := mkSdb {[bs "k" := bs "v"]} ∅ ∅ ∅.
Lemma one_held_fits : fits one_held.
Proof.
  constructor; intros k x H; cbn [one_held ss sl st] in H.
  - rewrite lookup_singleton_Some in H. destruct H as [_ <-]. vm_compute. reflexivity.
  - now rewrite lookup_empty in H.
  - now rewrite lookup_empty in H.
Qed.
Ltac spelt := repeat first [apply sp_nil | apply sp_same; [vm_compute; split; discriminate|]].
Lemma one_write_held d s : good some_env d s -> with_ss s (<[bs "k" := bs "v"]> (ss s)) = one_held ->
  exists d', handle some_env d (h_req one_write) = Ret (d', Some (RSimple (bs "OK"))) /\ good some_env d' one_held.
Proof.
  intros G E. destruct (set_ok some_env d s (h_req one_write) (bs "k") (bs "v") G) as (d' & H & R).
  { apply (str_req_request (bs "set") "set" [bs "k"; bs "v"]). spelt. }
  exists d'. split; [exact H|]. rewrite E in R. split; [exact some_env_ok|]. split; [exact R|exact one_held_fits].
Qed.
Lemma one_again : with_ss one_held (<[bs "k" := bs "v"]> (ss one_held)) = one_held.
Proof. unfold with_ss, one_held. cbn [ss sl sh st]. now rewrite insert_singleton. Qed.
Lemma writes_held n : forall d, good some_env d one_held ->
  exists d' rs, run d (requests (repeat one_write n)) = Ret (d', rs) /\ good some_env d' one_held.
Proof.
  induction n as [|n IH]; intros d G; [exists d, []; split; [reflexivity|exact G]|]. cbn [repeat]. unfold requests. cbn [map run].
  destruct (one_write_held d one_held G one_again) as (d1 & H & G1). change (h_env one_write) with some_env. rewrite H. cbn [rbind fst snd].
  destruct (IH d1 G1) as (d2 & rs & E & G2). unfold requests in E. rewrite E. eexists. eexists. split; [reflexivity|exact G2].
Qed.
Lemma writes_logged n : exists g, lreach (mkLstate (repeat one_write n) [] g) /\ Z.of_nat n <= log_bytes g.
Proof.
  induction n as [|n (g & H & L)]; [exists []; split; [constructor|vm_compute; discriminate]|].
  destruct (log_of (h_stamp one_write) (h_req one_write)) as [v|] eqn:E; [|vm_compute in E; discriminate E].
  destruct (pack_log v) as [b|] eqn:P; [|injection E as <-; vm_compute in P; discriminate P].
  exists (g ++ [v]). split.
  - cbn [repeat]. rewrite repeat_cons. eapply lr_step; [eapply lr_step; [exact H|apply l_handle]|]. rewrite E. cbn [app]. exact (l_write v [] [] _ g b P).
  - rewrite log_bytes_app. assert (1 <= log_bytes [v]); [|lia]. unfold log_bytes. cbn [sum]. unfold pack. rewrite P.
    pose proof (record_raw one_write v b E P). pose proof (encode_min (h_req one_write)). lia.
Qed.
Theorem log_unbounded (n : nat) : exists a d rs s, lreach a /\ l_pending a = [] /\ l_executed a = repeat one_write (S n) /\ Z.of_nat n <= log_bytes (l_log a) /\
  run new_db (requests (l_executed a)) = Ret (d, rs) /\ db_rel d s /\ data_size s = 4.
Proof.
  destruct (writes_logged (S n)) as (g & H & L). destruct (one_write_held new_db empty_sdb some_good eq_refl) as (d1 & H1 & G1).
  destruct (writes_held n d1 G1) as (d2 & rs & E & (_ & R & _)).
  exists (mkLstate (repeat one_write (S n)) [] g), d2, (Some (RSimple (bs "OK")) :: rs), one_held. cbn [l_pending l_executed l_log].
  split; [exact H|]. split; [reflexivity|]. split; [reflexivity|]. split; [lia|]. split; [|split; [exact R|vm_compute; reflexivity]].
  cbn [repeat]. unfold requests in *. cbn [map run]. change (h_env one_write) with some_env. rewrite H1. cbn [rbind fst snd]. rewrite E. reflexivity.
Qed.
