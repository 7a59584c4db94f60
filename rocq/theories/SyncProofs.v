(* What a replica of a server at work has. *)
From Verif Require Import ProcessProofs.
From Verif Require SignalProofs MasterProofs SystemProofs.
From Verif Require Import Base Lts Resp HashC HashProofs StringC Command RequestSpec CommandProofs EngineProofs IdealSpec Db DbProofs Engine Log LogSpec LogProofs Persist PersistSpec PersistProofs Replication Recovery RecoverySpec RecoveryProofs Node NodeProofs OrderSpec ServerSpec Server Process Signals Master System RestartSpec RestartProofs SystemSpec.
From Coq Require Import ZArith List Bool Lia.
From stdpp Require Import gmap.
Local Open Scope nat_scope.

Lemma careful_sys d input f tr y : careful_runs d input f tr y -> System.runs d input f tr y.
Proof. unfold careful_runs, System.runs. induction 1 as [|tr s1 s2 H IH [St _]|tr s1 a s2 H IH [St _]]; [apply exec_start|eapply exec_tau; eauto|eapply exec_act; eauto]. Qed.
(* The process takes part in a patient way. *)
Lemma host_patient d input f tr x l x' : pruns true d input f (of_proc tr) (h_proc x) -> Signals.step true x l x' ->
  (forall c k q v, l = Some (HProc (XSpawn c k q v)) -> forall w t q', In w (x_pend (h_proc x)) -> log_of t q' = Some w -> ~ clash q' q) ->
  pruns true d input f (of_proc (match l with Some a => tr ++ [a] | None => tr end)) (h_proc x').
Proof.
  intros R St Pt. destruct St; cbn [h_proc option_map] in *; try (rewrite SignalProofs.of_app; cbn; rewrite app_nil_r); try exact R.
  - destruct l as [a|]; cbn; [rewrite SignalProofs.of_app; eapply exec_act|eapply exec_tau]; try exact R; (split; [eassumption|]); [|discriminate]. intros c k q v E. inversion E; subst. now apply (Pt c k q v).
  - destruct l as [a|]; cbn; [rewrite SignalProofs.of_app; eapply exec_act|eapply exec_tau]; try exact R; (split; [eassumption|]); [|discriminate]. intros c k q v E. inversion E; subst. now apply (Pt c k q v).
Qed.
Theorem careful_proc d input f tr y : careful_runs d input f tr y -> pruns true d input f (of_proc (hosts tr)) (h_proc (y_host y)).
Proof.
  unfold careful_runs. intros H.
  assert (K : forall tr s1 l s2, pruns true d input f (of_proc (hosts tr)) (h_proc (y_host s1)) -> careful s1 l s2 -> pruns true d input f (of_proc (hosts (match l with Some a => tr ++ [a] | None => tr end))) (h_proc (y_host s2))).
  { clear. intros tr s1 l s2 R [[_ M] Pt].
    destruct M as [x l x' m St H|x m l m' St H Fe|x x' m m' v dd St Pk Sm Fe|x x' m m' h b St Sv Hh Hb Sm Fe|x m m' X Sm|x x' m St X X' So]; cbn [y_host y_mast] in *.
    - pose proof (host_patient _ _ _ _ _ _ _ R St) as Q. destruct l as [a|]; cbn [option_map] in *; [rewrite SystemProofs.hosts_app; cbn [hosts flat_map app]|]; apply Q; [|discriminate].
      intros c k q v E. inversion E; subst. apply (Pt c k q v). reflexivity.
    - destruct l as [a|]; cbn [option_map]; [rewrite SystemProofs.hosts_app; cbn; rewrite app_nil_r|]; exact R.
    - rewrite SystemProofs.hosts_app. cbn [hosts flat_map app]. apply (host_patient _ _ _ _ _ _ _ R St). discriminate.
    - rewrite SystemProofs.hosts_app. cbn [hosts flat_map app]. apply (host_patient _ _ _ _ _ _ _ R St). discriminate.
    - rewrite SystemProofs.hosts_app. cbn. rewrite app_nil_r. exact R.
    - rewrite SystemProofs.hosts_app. cbn [hosts flat_map app]. apply (host_patient _ _ _ _ _ _ _ R St). discriminate. }
  induction H as [|tr s1 s2 H IH St|tr s1 a s2 H IH St]; [apply exec_start| |].
  - exact (K tr s1 None s2 IH St).
  - exact (K tr s1 (Some a) s2 IH St).
Qed.

(* A flush for a replica, and the end of the copy, in the run of the program. *)
Lemma masters_split f tr b a z : masters f tr = b ++ a :: z -> (forall g, a <> MFile g) ->
  exists x e y, tr = x ++ e :: y /\ (e = YMaster a \/ exists c, e = YBoth c a) /\ masters f x = b /\ z = flat_map (fun e => match e with YMaster b | YBoth _ b => [b] | YHost _ => [] end) y.
Proof.
  intros E N. destruct b as [|b0 b]; [cbn in E; inversion E; subst; exfalso; now apply (N f)|]. unfold masters in E. cbn [app] in E. inversion E as [[E1 E2]]. subst b0. clear E. unfold masters.
  revert b E2. induction tr as [|e tr IH]; intros b E2; [destruct b; discriminate|]. cbn [flat_map] in E2. destruct e as [c|c|c0 c]; cbn [app] in E2.
  - destruct (IH _ E2) as (x & e & y & -> & A & B & C). exists (YHost c :: x), e, y. split; [reflexivity|]. split; [exact A|]. split; [|exact C]. cbn. exact B.
  - destruct b as [|b1 b]; cbn [app] in E2; inversion E2; subst.
    + exists [], (YMaster a), tr. split; [reflexivity|]. auto.
    + match goal with Q : flat_map _ _ = _ |- _ => destruct (IH _ Q) as (x & e & y & -> & A & B & C) end. exists (YMaster b1 :: x), e, y. split; [reflexivity|]. split; [exact A|]. split; [|exact C]. cbn. inversion B. congruence.
  - destruct b as [|b1 b]; cbn [app] in E2; inversion E2; subst.
    + exists [], (YBoth c0 a), tr. split; [reflexivity|]. split; [right; eauto|]. auto.
    + match goal with Q : flat_map _ _ = _ |- _ => destruct (IH _ Q) as (x & e & y & -> & A & B & C) end. exists (YBoth c0 b1 :: x), e, y. split; [reflexivity|]. split; [exact A|]. split; [|exact C]. cbn. inversion B. congruence.
Qed.
Lemma flush_shown d input f x e z y h : System.runs d input f (x ++ e :: z) y -> (e = YMaster (MFlush h) \/ exists c, e = YBoth c (MFlush h)) -> e = YBoth (HProc XFlush) (MFlush h).
Proof.
  intros R E. destruct (exec_split _ _ _ _ _ _ R) as (s1 & s2 & _ & [_ M] & _). destruct E as [->|(c & ->)]; inversion M; subst; try (destruct l; discriminate); [|reflexivity].
  destruct l as [a|]; [|discriminate]. cbn [option_map] in *. match goal with Q : Some (YMaster _) = Some _ |- _ => inversion Q; subst end. contradiction.
Qed.

Theorem replica_has hs f ords0 ds input tr y h1 d1 rs1 o1 o2 h p l : lives hs f -> whole f -> (forall i, orders_ok (ords0 i)) -> recover ords0 f = Ret ds ->
  careful_runs (ds 1%Z) input f tr y -> history (of_proc (hosts tr)) h1 -> run (ds 1%Z) (requests h1) = Ret (d1, rs1) ->
  Forall (Forall loggable) (hs ++ [h1]) -> Forall (Forall (fun x => ~ trims (h_req x) /\ ~ pops (h_req x))) (hs ++ [h1]) -> (requests_size (map h_req (List.concat (hs ++ [h1]))) < 2 ^ 62)%Z -> (forall i, orders_ok (o2 i)) ->
  (blen (f ++ List.concat (map pack (logged (of_proc (hosts tr))))) < 2 ^ 32)%Z ->
  begins p (Master.sent h (masters f tr)) -> receive p = Some l ->
  exists h0 h' m d rs ds2 s u v, survives hs h0 /\ reordered free_entries (writes h1) h' /\ run new_db (requests (h0 ++ firstn m h')) = Ret (d, rs) /\
    sync_external o1 o2 (Opened []) (Some p) = Ret ds2 /\ db_rel d s /\ db_rel (ds2 1%Z) s /\
    tr = u ++ YBoth (HProc XFlush) (MFlush h) :: v /\ (exists l', records (firstn m h') = logged (of_proc (hosts u)) ++ l') /\
    (x_pend (h_proc (y_host y)) = [] -> logged (of_proc (hosts v)) = [] -> db_rel d1 s).
Proof.
  intros Lv Wf HO0 Rec CR Hh Run1 Hl Hk Hs HO Sz Bp Rp. pose proof (careful_sys _ _ _ _ _ CR) as R. pose proof (careful_proc _ _ _ _ _ CR) as PR. fold (RestartProofs.total (List.concat (hs ++ [h1]))) in Hs.
  apply List.Forall_app in Hl as [Hl1 Hl2]. inversion Hl2 as [|? ? Hl3 _]; subst. apply List.Forall_app in Hk as [Hk1 Hk2]. inversion Hk2 as [|? ? Hk3 _]; subst.
  rewrite List.concat_app, total_app in Hs. cbn [List.concat] in Hs. rewrite app_nil_r in Hs. fold (size_of hs) in Hs.
  pose proof (total_nonneg h1). destruct (lives_kept _ _ Lv Hl1 Hk1 ltac:(lia) o2 HO) as (h0 & d0 & rs0 & ds0 & s0 & Sv & R0 & _ & _ & _ & WF). specialize (WF Wf). pose proof (survives_size _ _ Sv).
  pose proof (survives_all _ _ _ Sv Hl1) as L0. pose proof (survives_all _ _ _ Sv Hk1) as K0.
  pose proof Rec as Rec'. pose proof PR as PR'. rewrite WF in Rec', PR'.
  destruct (life_order h0 ds true input _ (h_proc (y_host y)) h1 PR' Hh Hl3) as (hl & hp & RO & E1 & LL & RL & HP & RF).
  destruct (SystemProofs.system_parts _ _ _ _ _ R) as (_ & Rm & _).
  assert (PK : Forall2 packed (records (h0 ++ hl)) (map pack (records (h0 ++ hl)))) by (apply packs_all; apply List.Forall_app; auto).
  assert (LE : forall u, f ++ List.concat (map pack (logged (of_proc (hosts u)))) = List.concat (map pack (records h0 ++ logged (of_proc (hosts u))))) by (intros u; rewrite map_app, List.concat_app, <- WF; reflexivity).
  assert (LG : Master.log (masters f tr) = List.concat (map pack (records (h0 ++ hl)))) by (rewrite (SystemProofs.one_log _ _ _ _ _ R), LE, records_app, E1; reflexivity).
  destruct (MasterProofs.received _ _ h _ _ p l Rm PK LG ltac:(rewrite (SystemProofs.one_log _ _ _ _ _ R); exact Sz) Bp Rp) as (bx & by_ & bz & n & Em & El & Kn).
  destruct (masters_split f tr bx (MFlush h) _ Em ltac:(discriminate)) as (u & e & v & Et & Ee & Mu & _).
  rewrite Et in R. pose proof (flush_shown _ _ _ _ _ _ _ _ R Ee) as ->. destruct (exec_split _ _ _ _ _ _ R) as (su & _ & Ru & _).
  set (k := length (logged (of_proc (hosts u)))).
  assert (LU : exists w, logged (of_proc (hosts tr)) = logged (of_proc (hosts u)) ++ w).
  { rewrite Et, SystemProofs.hosts_app, SignalProofs.of_app, logged_app. eexists. reflexivity. }
  destruct LU as [w LU].
  assert (N : length (records h0) + k <= n).
  { apply Kn.
    - rewrite records_app, app_length, E1, LU, app_length. unfold k. lia.
    - rewrite <- Mu, (SystemProofs.one_log _ _ _ _ _ Ru), LE, firstn_map. do 2 f_equal. rewrite records_app, E1, LU, firstn_app, firstn_all2 by lia. f_equal.
      rewrite firstn_app. unfold k. replace (length (records h0) + length (logged (of_proc (hosts u))) - length (records h0)) with (length (logged (of_proc (hosts u)))) by lia. now rewrite firstn_all, Nat.sub_diag, firstn_O, app_nil_r. }
  set (m := Nat.min (n - length (records h0)) (length hl)).
  destruct (life_cut h0 d0 rs0 ords0 ds h1 d1 rs1 R0 HO0 Rec' Run1 L0 K0 Hl3 Hk3 ltac:(lia) hl hp m o2 RO ltac:(unfold m; lia) HO) as (d2 & rs2 & ds2 & s & R2 & B & D1 & D2 & Full).
  assert (FR : records (firstn m hl) = firstn (n - length (records h0)) (records hl)).
  { rewrite RF. unfold m. destruct (Nat.min_spec (n - length (records h0)) (length hl)) as [[_ ->]|[Q ->]]; [reflexivity|]. rewrite !firstn_all2 by lia. reflexivity. }
  assert (LV : l = records (h0 ++ firstn m hl)) by (rewrite El, !records_app, FR, firstn_app, firstn_all2 by lia; reflexivity).
  assert (FM : firstn m hl = firstn m (hl ++ hp)) by (rewrite firstn_app; replace (m - length hl) with 0 by (unfold m; lia); now rewrite firstn_O, app_nil_r).
  exists h0, (hl ++ hp), m, d2, rs2, ds2, s, u, v. rewrite <- FM. split; [exact Sv|]. split; [exact RO|]. split; [exact R2|]. split; [|split; [exact D1|split; [exact D2|split; [exact Et|split]]]].
  - unfold sync_external, recover, from_file, from_master. rewrite Rp, LV. exact B.
  - exists (firstn (n - length (records h0) - k) w). rewrite FR, E1, LU, firstn_app. f_equal. apply firstn_all2. unfold k in *. lia.
  - intros Pd Lz. apply Full. rewrite (HP Pd), app_nil_r. apply firstn_all2. unfold m. apply Nat.min_glb; [|lia]. rewrite <- RL, E1, Et, SystemProofs.hosts_app, SignalProofs.of_app, logged_app, app_length.
    change (hosts (YBoth (HProc XFlush) (MFlush h) :: v)) with (HProc XFlush :: hosts v). change (of_proc (HProc XFlush :: hosts v)) with (XFlush :: of_proc (hosts v)). change (logged (XFlush :: of_proc (hosts v))) with (logged (of_proc (hosts v))). rewrite Lz. cbn [length]. unfold k in *. lia.
Qed.
