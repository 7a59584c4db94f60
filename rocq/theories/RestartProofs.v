(* What comes back when processes end anywhere and are started again. *)
From Verif Require Import Base BaseFacts Lts IntSpec Resp RespSpec StringC HashC HashProofs Command SpecDb RequestSpec IdealSpec Db DbProofs Engine EngineProofs SpecFacts EngineFacts
  Log LogSpec LogProofs Persist PersistSpec PersistProofs Recovery RecoverySpec RecoveryProofs NodeProofs OrderSpec OrderProofs ServerSpec Server ServerProofs Process ProcessProofs RestartSpec.
From Coq Require Import ZArith List Permutation Bool Lia.
From stdpp Require Import gmap.
Local Open Scope nat_scope.

Notation ext := ProcessProofs.ext.
Notation flat_one := ProcessProofs.flat_one.
Notation one := ProcessProofs.one.
Lemma pruns_runs cl d input f tr x : pruns cl d input f tr x -> Process.runs cl d input f tr x.
Proof. unfold pruns, Process.runs. induction 1 as [|tr s1 s2 H IH [St _]|tr s1 a s2 H IH [St _]]; [apply exec_start|eapply exec_tau; eauto|eapply exec_act; eauto]. Qed.
Lemma pruns_ind cl d input f (I : list Process.event -> process -> Prop) : I [] (start d input f) ->
  (forall tr x l x', pruns cl d input f tr x -> I tr x -> patient cl x l x' -> I (ext tr l) x') -> forall tr x, pruns cl d input f tr x -> I tr x.
Proof.
  intros H0 Hs tr x H. unfold pruns in H. induction H as [|tr s1 s2 H IH St|tr s1 a s2 H IH St]; [exact H0| |].
  - exact (Hs tr s1 None s2 H IH St).
  - exact (Hs tr s1 (Some a) s2 H IH St).
Qed.

(* ---- every run has a history ---- *)
Definition exec_of (a : Process.event) : list (env * robj) := match a with XSrv (SHandle _ _ e q _) => [(e, q)] | _ => [] end.
Definition spawn_of (a : Process.event) : list vlog := match a with XSpawn _ _ _ v => [v] | _ => [] end.
Lemma executed_ext tr l : executed (ext tr l) = executed tr ++ one exec_of l.
Proof. unfold executed. apply flat_one. Qed.
Lemma spawned_ext tr l : spawned (ext tr l) = spawned tr ++ one spawn_of l.
Proof. unfold spawned. apply flat_one. Qed.
Lemma quiet_srv l : ~ handles l -> one exec_of (option_map XSrv l) = [] /\ one spawn_of (option_map XSrv l) = [].
Proof. destruct l as [[]|]; cbn; auto. intros H. exfalso. now apply H. Qed.
Definition hist_inv (tr : list Process.event) (x : process) : Prop :=
  exists h, requests h = executed tr /\
    (x_spawned x = false /\ records h = spawned tr \/
     x_spawned x = true /\ exists c k q, s_eng (x_srv x) = EHas c k q /\
       (records h = spawned tr /\ (forall t, log_of t q = None) \/
        exists t v, log_of t q = Some v /\ spawned tr = records h ++ [v] /\ In (XSpawn c k q v) tr)).
Lemma no_log t q : log_of t q = None -> forall t', log_of t' q = None.
Proof. intros E t'. destruct (log_of t' q) as [w|] eqn:E'; [|reflexivity]. destruct (log_of_stamp _ t _ _ E') as (v & X). congruence. Qed.
Lemma hist cl d input f tr x : Process.runs cl d input f tr x -> hist_inv tr x.
Proof.
  apply (ProcessProofs.runs_ind' cl d input f hist_inv).
  { exists []. split; [reflexivity|]. left. auto. }
  intros tr0 x0 l x' R (h & E & I) St.
  assert (Frame : one exec_of l = [] -> one spawn_of l = [] -> x_spawned x' = x_spawned x0 -> (forall c k q, s_eng (x_srv x0) = EHas c k q -> s_eng (x_srv x') = EHas c k q) -> hist_inv (ext tr0 l) x').
  { intros N1 N2 F G. exists h. rewrite executed_ext, spawned_ext, N1, N2, !app_nil_r, F. split; [exact E|].
    destruct I as [I|(A & c & k & q & B & C)]; [left; exact I|right]. split; [exact A|]. exists c, k, q. split; [auto|].
    destruct C as [C|(t & v & C1 & C2 & C3)]; [left; exact C|right]. exists t, v. auto using ProcessProofs.in_ext. }
  destruct St as [s l s' b p fl a [_ M] NH _|s p fl a c k q t v _ G L|s p fl a c k q t _ G L|s l s' p fl a [_ M] Hd|s b p1 v p2 fl a dd ws f' ws' _ _ _|s b p1 v p2 fl a _ _|s b p fl a ws f' ws' _ _|s s' b p fl a ws f' ws' [_ M] _ _ _|s b p fl _ _|s b p fl _ _];
    cbn [x_spawned x_srv] in *; try (apply Frame; cbn; congruence || reflexivity || auto; fail).
  - destruct (quiet_srv l NH) as [N1 N2]. apply Frame; auto. intros c k q Q. destruct (step_has _ _ _ _ _ _ _ M Q) as [(e & o & X)|X]; [|exact X]. now apply not_handles in X.
  - exists h. rewrite executed_ext, spawned_ext. cbn [one exec_of spawn_of x_spawned x_srv]. rewrite app_nil_r. split; [exact E|]. right. split; [reflexivity|].
    destruct I as [[_ I]|[I _]]; [|discriminate]. exists c, k, q. split; [exact G|]. right. exists t, v. split; [exact L|]. rewrite I. split; [reflexivity|]. cbn [ext]. apply in_app_iff. right. now left.
  - exists h. rewrite executed_ext, spawned_ext. cbn [one exec_of spawn_of x_spawned x_srv]. rewrite !app_nil_r. split; [exact E|]. right. split; [reflexivity|].
    destruct I as [[_ I]|[I _]]; [|discriminate]. exists c, k, q. split; [exact G|]. left. split; [exact I|]. exact (no_log _ _ L).
  - destruct I as [[I _]|(_ & c & k & q & Q & I)]; [discriminate|]. destruct (step_has _ _ _ _ _ _ _ M Q) as [(e & o & ->)|X].
    2:{ destruct l as [[]|]; try easy. exfalso. inversion M; subst; cbn in X; try (destruct l; discriminate). destruct o; discriminate. }
    unfold hist_inv. rewrite executed_ext, spawned_ext. cbn [one exec_of spawn_of x_spawned option_map]. rewrite app_nil_r.
    destruct I as [[I1 I2]|(t & v & I1 & I2 & I3)].
    + exists (h ++ [mkEntry e (mkStamp [] 0 []) q]). rewrite requests_app, E. split; [reflexivity|]. left. split; [reflexivity|].
      rewrite records_app, records_one. cbn [h_stamp h_req]. rewrite I2, app_nil_r. exact I1.
    + exists (h ++ [mkEntry e t q]). rewrite requests_app, E. split; [reflexivity|]. left. split; [reflexivity|].
      rewrite records_app, records_one. cbn [h_stamp h_req]. rewrite I1. now symmetry.
  - apply Frame; auto. intros c k q Q. destruct (step_has _ _ _ _ _ _ _ M Q) as [(e & o & X)|X]; [discriminate|exact X].
Qed.
Lemma busy_fresh cl d input f tr x c k q : Process.runs cl d input f tr x -> s_eng (x_srv x) = EHas c k q -> forall e q' o, ~ In (XSrv (SHandle c k e q' o)) tr.
Proof. intros R G e q' o H. apply served_in in H. eapply handled_fresh; [exact (served_runs _ _ _ _ _ _ R)|exact G|exact H]. Qed.
Theorem has_history cl d input f tr x e : Process.runs cl d input f tr x -> exists h, history tr h /\
  (requests h = executed tr \/ exists q, requests h = executed tr ++ [(e, q)]) /\ (x_spawned x = false -> requests h = executed tr).
Proof.
  intros R. destruct (hist _ _ _ _ _ _ R) as (h & E & [[A I]|(A & c & k & q & Q & [[I _]|(t & v & L & S & H)])]).
  - exists h. split; [split; auto|]. auto.
  - exists h. split; [split; auto|]. auto.
  - exists (h ++ [mkEntry e t q]). split; [split|].
    + rewrite records_app, records_one. cbn [h_stamp h_req]. rewrite L. now symmetry.
    + right. exists h, (mkEntry e t q), c, k, v. cbn [h_stamp h_req]. repeat split; auto. eapply busy_fresh; eassumption.
    + split; [|congruence]. right. exists q. now rewrite requests_app, E.
Qed.

(* ---- the log goroutines of patient runs ---- *)
Lemma same_logs h : forall h', requests h = requests h' -> length (records h) = length (records h').
Proof.
  induction h as [|x h IH]; intros [|y h'] E; try discriminate E; [reflexivity|]. cbn in E. injection E as _ E1 E2. cbn [records].
  destruct (log_of (h_stamp x) (h_req x)) as [v|] eqn:L.
  - destruct (log_of_stamp _ (h_stamp y) _ _ L) as (w & L'). rewrite <- E1, L'. cbn [length]. f_equal. auto.
  - rewrite <- E1, (no_log _ _ L). auto.
Qed.
Lemma history_same tr l h : one exec_of l = [] -> one spawn_of l = [] -> history (ext tr l) h -> history tr h.
Proof.
  intros N1 N2. unfold history. rewrite executed_ext, spawned_ext, N1, N2, !app_nil_r. intros [A [B|(h0 & x & c & k & v & B1 & B2 & B3 & B4 & B5)]]; [auto|].
  split; [exact A|]. right. exists h0, x, c, k, v. split; [exact B1|]. split; [exact B2|]. split; [exact B3|]. split.
  - apply in_ext_inv in B4 as [B4| ->]; [exact B4|]. discriminate N2.
  - intros e q o H. apply (B5 e q o). now apply ProcessProofs.in_ext.
Qed.
Lemma idle_history cl d input f tr x h : Process.runs cl d input f tr x -> x_spawned x = false -> history tr h -> requests h = executed tr.
Proof.
  intros R F [A [B|(h0 & y & c & k & v & -> & B2 & B3 & _)]]; [exact B|]. exfalso.
  destruct (hist _ _ _ _ _ _ R) as (h1 & E & [[_ I]|[I _]]); [|congruence]. rewrite <- E in B2. pose proof (same_logs _ _ B2) as L.
  rewrite I, <- A, records_app, records_one, B3, app_length in L. cbn [length] in L. lia.
Qed.
Lemma requests_snoc h l e q : requests h = l ++ [(e, q)] -> exists h1 y, h = h1 ++ [y] /\ requests h1 = l /\ h_env y = e /\ h_req y = q.
Proof.
  destruct h as [|y h1 _] using rev_ind; intros E; [destruct l; discriminate E|]. rewrite requests_app in E. cbn in E. apply app_inj_tail in E as [<- E]. injection E as <- <-. exists h1, y. auto.
Qed.
Lemma lp_same a b : lpatient a -> lstep a b -> l_executed b = l_executed a -> lpatient b.
Proof. intros H S E. apply (lp_step a b H S). intros q Q. rewrite E in Q. apply (f_equal length) in Q. rewrite app_length in Q. cbn in Q. lia. Qed.
Theorem patient_logs cl d input f tr x : pruns cl d input f tr x -> forall h, history tr h -> lpatient (mkLstate h (x_pend x) (logged tr)).
Proof.
  apply (pruns_ind cl d input f (fun tr x => forall h, history tr h -> lpatient (mkLstate h (x_pend x) (logged tr)))).
  { intros h [A [B|(h0 & y & c & k & v & _ & _ & _ & B & _)]]; [|destruct B]. destruct h; [apply lp_init|discriminate B]. }
  intros tr0 x0 l x' PR IH [St Pt] h Hh. pose proof (pruns_runs _ _ _ _ _ _ PR) as R.
  assert (RN : Process.runs cl d input f (ext tr0 l) x') by (destruct l; [eapply exec_act|eapply exec_tau]; eassumption).
  assert (Frame : one exec_of l = [] -> one spawn_of l = [] -> lpatient (mkLstate h (x_pend x0) (logged tr0))) by (intros N1 N2; apply IH; eapply history_same; eassumption).
  assert (LE : logged (ext tr0 l) = logged tr0 ++ one (fun a => match a with XLog v => [v] | _ => [] end) l) by (unfold logged; apply flat_one). rewrite LE.
  destruct St as [s l s' b p fl a [_ M] NH _|s p fl a c k q t v _ G L|s p fl a c k q t _ G L|s l s' p fl a [_ M] Hd|s b p1 v p2 fl a dd ws f' ws' _ PL _|s b p1 v p2 fl a _ PL|s b p fl a ws f' ws' _ _|s s' b p fl a ws f' ws' [_ M] _ _ _|s b p fl _ _|s b p fl _ _];
    cbn [x_spawned x_srv x_pend one option_map] in *; rewrite ?app_nil_r; try (apply Frame; reflexivity).
  - destruct (quiet_srv l NH) as [N1 N2]. specialize (Frame N1 N2). destruct l; cbn; rewrite ?app_nil_r; exact Frame.
  - destruct Hh as [A B]. cbn [ext] in A. unfold spawned in A. rewrite flat_map_app in A. fold (spawned tr0) in A. cbn in A.
    destruct (hist _ _ _ _ _ _ R) as (h0 & E & [[_ I]|[I _]]); [|discriminate].
    destruct B as [B|(h1 & y & c' & k' & w & -> & B2 & B3 & B4 & B5)].
    { exfalso. cbn [ext] in B. unfold executed in B. rewrite flat_map_app in B. fold (executed tr0) in B. cbn in B. rewrite app_nil_r, <- E in B. apply same_logs in B. rewrite A, I, app_length in B. cbn in B. lia. }
    cbn [ext] in B2. unfold executed in B2. rewrite flat_map_app in B2. fold (executed tr0) in B2. cbn in B2. rewrite app_nil_r in B2.
    rewrite records_app, records_one, B3 in A. apply app_inj_tail in A as [A ->].
    assert (h_req y = q) as EQ.
    { cbn [ext] in B4. apply in_app_iff in B4 as [B4|[B4|[]]]; [|congruence]. exfalso.
      destruct (once _ _ _ _ _ _ R) as (_ & _ & C & _). destruct (C c' k') as [(e' & q' & o' & H)|[H _]]; [|eapply (B5 e' q' o'); apply ProcessProofs.in_ext; apply served_in; exact H|discriminate H].
      apply in_flat_map. eexists. split; [exact B4|]. now left. }
    pose proof (lp_step (mkLstate h1 p (logged tr0)) (mkLstate (h1 ++ [y]) (p ++ match log_of (h_stamp y) (h_req y) with Some v => [v] | None => [] end) (logged tr0))) as K.
    rewrite B3 in K. apply K; clear K.
    + apply IH. split; auto.
    + pose proof (l_handle y h1 p (logged tr0)) as K. rewrite B3 in K. exact K.
    + cbn [l_executed l_pending]. intros q1 E1 _ z w Hz Lz Hw. apply app_inj_tail in E1 as [_ <-]. unfold free_entries. rewrite EQ.
      eapply Pt; [reflexivity|apply elem_of_list_In; exact Hw|exact Lz].
  - destruct (hist _ _ _ _ _ _ R) as (h0 & E & [[I _]|(_ & c & k & q & Q & I)]); [discriminate|]. cbn [x_srv] in Q. destruct (step_has _ _ _ _ _ _ _ M Q) as [(e & o & ->)|X].
    2:{ destruct l as [[]|]; try easy. exfalso. inversion M; subst; cbn in X; try (destruct l; discriminate). destruct o; discriminate. }
    cbn [option_map ext one] in *. rewrite app_nil_r. pose proof (idle_history _ _ _ _ _ _ _ RN eq_refl Hh) as HE. pose proof Hh as [A _].
    unfold spawned in A. rewrite flat_map_app in A. fold (spawned tr0) in A. cbn in A. rewrite app_nil_r in A.
    unfold executed in HE. rewrite flat_map_app in HE. fold (executed tr0) in HE. cbn in HE. apply requests_snoc in HE as (h1 & y & -> & E1 & Ee & Eq).
    rewrite records_app, records_one in A. destruct I as [[I1 I2]|(t & v & I1 & I2 & I3)].
    + rewrite Eq, I2, app_nil_r in A.
      pose proof (lp_step (mkLstate h1 p (logged tr0)) (mkLstate (h1 ++ [y]) (p ++ match log_of (h_stamp y) (h_req y) with Some v => [v] | None => [] end) (logged tr0))) as K.
      rewrite Eq, I2, app_nil_r in K. apply K; clear K.
      * apply IH. split; auto.
      * pose proof (l_handle y h1 p (logged tr0)) as K. rewrite Eq, I2, app_nil_r in K. exact K.
      * cbn [l_executed]. intros q1 E2 L1. apply app_inj_tail in E2 as [_ <-]. unfold OrderSpec.logs in L1. rewrite Eq, I2 in L1. discriminate L1.
    + apply IH. split; [now rewrite records_app, records_one|]. right. destruct (log_of_stamp _ (h_stamp y) _ _ I1) as (w & L). rewrite Eq, L, I2 in A.
      apply app_inj_tail in A as [_ ->]. exists h1, y, c, k, v. rewrite Eq. repeat split; auto. eapply busy_fresh; eassumption.
  - specialize (Frame eq_refl eq_refl). refine (lp_same _ _ Frame (l_write v p1 p2 h (logged tr0) dd PL) eq_refl).
  - specialize (Frame eq_refl eq_refl). refine (lp_same _ _ Frame (l_drop v p1 p2 h (logged tr0) PL) eq_refl).
Qed.

(* ---- one life after others ---- *)
Lemma packs_all h : Forall loggable h -> Forall2 packed (records h) (map pack (records h)).
Proof.
  induction 1 as [|x h Hx _ IH]; cbn [records map]; [constructor|]. destruct (log_of (h_stamp x) (h_req x)) as [v|] eqn:L; [|exact IH].
  destruct (loggable_packed _ _ Hx L) as (b & Hb). cbn [map]. constructor; [|exact IH]. unfold pack. destruct Hb as (? & E & ?). rewrite E. split; auto.
Qed.
Lemma packed_pack vs bss : Forall2 packed vs bss -> bss = map pack vs.
Proof. induction 1 as [|v b vs bss (_ & E & _) _ IH]; [reflexivity|]. cbn [map]. unfold pack at 1. rewrite E. now f_equal. Qed.
Lemma reordered_app2 {A} (R : A -> A -> Prop) l0 l l' : reordered R l l' -> reordered R (l0 ++ l) (l0 ++ l').
Proof. intros H. pose proof (reordered_app R l0 [] _ _ H) as K. now rewrite !app_nil_r in K. Qed.
Lemma all_logged_records h : Forall (fun x => OrderSpec.logs x = true) h -> length (records h) = length h.
Proof. induction 1 as [|x h Hx _ IH]; [reflexivity|]. cbn [records]. unfold OrderSpec.logs in Hx. destruct (log_of _ _); [|discriminate]. cbn [length]. now f_equal. Qed.
Lemma writes_logged h : Forall (fun x => OrderSpec.logs x = true) (writes h).
Proof. apply List.Forall_forall. intros x Hx. now apply List.filter_In in Hx as [_ Hx]. Qed.
Lemma logged_app y z : logged (y ++ z) = logged y ++ logged z.
Proof. apply flat_map_app. Qed.

Definition total (h : list entry) : Z := requests_size (map h_req h).
Lemma total_app h1 h2 : total (h1 ++ h2) = (total h1 + total h2)%Z.
Proof. unfold total. now rewrite map_app, requests_size_app. Qed.
Lemma total_nonneg h : (0 <= total h)%Z.
Proof. apply requests_size_nonneg. Qed.

Section Life.
  Context (h0 : list entry) (d0 : db) (rs0 : list (option robj)) (ords : nat -> orders) (ds : dbs).
  Context (cl : bool) (input : nat -> bytes) (tr : list Process.event) (x : process) (h : list entry) (d1 : db) (rs1 : list (option robj)).
  Let f := List.concat (map pack (records h0)).
  Context (Run0 : run new_db (requests h0) = Ret (d0, rs0)) (HO : forall i, orders_ok (ords i)) (Rec : recover ords f = Ret ds).
  Context (PR : pruns cl (ds 1%Z) input f tr x) (Hh : history tr h) (Run1 : run (ds 1%Z) (requests h) = Ret (d1, rs1)).
  Context (L0 : Forall loggable h0) (K0 : Forall plain h0) (L1 : Forall loggable h) (K1 : Forall plain h) (Sz : (total h0 + total h < 2 ^ 62)%Z).

  Lemma life_joined : exists d2 rs2 s, run new_db (requests (h0 ++ h)) = Ret (d2, rs2) /\ db_rel d2 s /\ db_rel d1 s.
  Proof.
    pose proof (total_nonneg h) as T1. pose proof (total_nonneg h0) as T0. unfold total in *.
    destruct (rebuilt ords h0 _ d0 rs0 HO L0 K0 ltac:(lia) Run0 (packs_all _ L0)) as (ds' & s & R & D1 & D2). fold f in R. rewrite Rec in R. injection R as <-.
    destruct (same_run h0 0 new_db new_db empty_sdb d0 rs0 (loggable_env _ L0) K0 new_db_rel new_db_rel bounded_empty ltac:(lia) ltac:(lia) Run0) as (d0' & rs0' & s' & E0' & D1' & _ & B).
    rewrite (db_rel_fun _ _ _ D1' D1) in B.
    destruct (same_run h _ (ds 1%Z) d0 s d1 rs1 (loggable_env _ L1) K1 D2 D1 B ltac:(lia) ltac:(lia) Run1) as (d4 & rs4 & s4 & E4 & R1 & R4 & _).
    exists d4, (rs0 ++ rs4), s4. rewrite requests_app, run_app, Run0. cbn [rbind fst snd]. rewrite E4. cbn [rbind fst snd]. auto.
  Qed.
  Lemma life_writes : exists d2 rs2 s, run new_db (requests (h0 ++ writes h)) = Ret (d2, rs2) /\ db_rel d2 s /\ db_rel d1 s.
  Proof.
    pose proof (total_nonneg h) as T1. pose proof (total_nonneg h0) as T0. unfold total in *.
    destruct (rebuilt ords h0 _ d0 rs0 HO L0 K0 ltac:(lia) Run0 (packs_all _ L0)) as (ds' & s & R & D1 & D2). fold f in R. rewrite Rec in R. injection R as <-.
    destruct (same_run h0 0 new_db new_db empty_sdb d0 rs0 (loggable_env _ L0) K0 new_db_rel new_db_rel bounded_empty ltac:(lia) ltac:(lia) Run0) as (d0' & rs0' & s' & E0' & D1' & _ & B).
    rewrite (db_rel_fun _ _ _ D1' D1) in B.
    destruct (writes_run_n h _ (ds 1%Z) d0 s d1 rs1 (loggable_env _ L1) K1 D2 D1 B ltac:(lia) ltac:(lia) Run1) as (d4 & rs4 & s4 & E4 & R1 & R4).
    exists d4, (rs0 ++ rs4), s4. rewrite requests_app, run_app, Run0. cbn [rbind fst snd]. rewrite E4. cbn [rbind fst snd]. auto.
  Qed.

  Theorem life_next : exists hl hp m e, reordered free_entries (writes h) (hl ++ hp) /\ records hl = logged tr /\ records hp = x_pend x /\ m <= length hl /\
    parse_log (p_file (x_file x)) = (records (h0 ++ firstn m hl), e) /\
    (forall y z, tr = y ++ XFlush :: z -> p_err (x_file x) = false -> exists l, records (firstn m hl) = logged y ++ l).
  Proof.
    destruct (patient_order _ (patient_logs _ _ _ _ _ _ PR h Hh) L1) as (hl & hp & RO & E1 & E2 & _ & LG). cbn [l_executed l_log l_pending] in *.
    assert (LA : Forall loggable (hl ++ hp)) by (apply (Permutation.Permutation_Forall (reordered_perm _ _ _ RO)); now apply writes_all).
    assert (LL : Forall loggable hl) by (now apply List.Forall_app in LA as [? _]).
    assert (GL : Forall (fun x => OrderSpec.logs x = true) hl).
    { assert (G : Forall (fun x => OrderSpec.logs x = true) (hl ++ hp)) by (apply (Permutation.Permutation_Forall (reordered_perm _ _ _ RO)); apply writes_logged). now apply List.Forall_app in G as [? _]. }
    pose proof (pruns_runs _ _ _ _ _ _ PR) as R. pose proof (file_prefix _ _ _ _ _ _ R) as [t FP]. unfold stream in FP.
    assert (PK : Forall2 packed (records (h0 ++ hl)) (map pack (records (h0 ++ hl)))) by (apply packs_all; apply List.Forall_app; auto).
    assert (FE : List.concat (map pack (records (h0 ++ hl))) = p_file (x_file x) ++ t) by (rewrite <- FP; rewrite records_app, map_app, List.concat_app, E1; reflexivity).
    destruct (parse_prefix _ _ _ _ PK FE) as (n & e & P & Pk & Pn & _). rewrite records_app, app_length in Pn, Pk.
    assert (N0 : length (records h0) <= n).
    { apply Pk; [lia|]. destruct (later_grows _ _ _ _ _ _ (exec_start _ _) _ _ R) as [[u G] _]. cbn [start x_file open_file p_file] in G. exists u. rewrite G. f_equal.
      rewrite map_app, firstn_app, firstn_all2 by (rewrite map_length; lia). rewrite map_length, Nat.sub_diag, firstn_O, app_nil_r. reflexivity. }
    pose proof (all_logged_records _ GL) as RL.
    assert (RF : forall m, records (firstn m hl) = firstn m (records hl)).
    { clear -GL. induction GL as [|a hl Ha _ IH]; intros [|m]; try reflexivity. cbn [firstn records]. unfold OrderSpec.logs in Ha. destruct (log_of _ _) as [v|]; [|discriminate]. cbn [firstn]. f_equal. apply IH. }
    exists hl, hp, (n - length (records h0)), e. split; [exact RO|]. split; [exact E1|]. split; [exact E2|]. split; [lia|]. split.
    - rewrite P. f_equal. rewrite !records_app, RF, firstn_app, firstn_all2 by lia. reflexivity.
    - intros y z Et Er. rewrite RF, E1. rewrite Et, logged_app. set (k := length (logged y)).
      assert (K : length (records h0) + k <= n).
      { rewrite Et in R. destruct (flushed _ _ _ _ _ _ _ R Er) as [u FL]. unfold stream in FL. apply Pk.
        - rewrite E1, Et, logged_app, app_length. unfold k. lia.
        - exists u. rewrite FL. f_equal. unfold f. rewrite <- List.concat_app, <- map_app, firstn_map. do 2 f_equal.
          rewrite firstn_app, firstn_all2 by lia. f_equal. rewrite E1, Et, logged_app, firstn_app. unfold k.
          replace (length (records h0) + length (logged y) - length (records h0)) with (length (logged y)) by lia. rewrite Nat.sub_diag, firstn_O, app_nil_r. now rewrite firstn_all. }
      exists (firstn (n - length (records h0) - k) (logged (XFlush :: z))). rewrite firstn_app. f_equal. apply firstn_all2. unfold k in *. lia.
  Qed.

  (* What comes back. *)
  Theorem life_recovered ords2 : (forall i, orders_ok (ords2 i)) -> exists h' m d2 rs2 ds2 s, reordered free_entries (writes h) h' /\
    run new_db (requests (h0 ++ firstn m h')) = Ret (d2, rs2) /\ recover ords2 (p_file (x_file x)) = Ret ds2 /\ db_rel d2 s /\ db_rel (ds2 1%Z) s /\
    (whole (p_file (x_file x)) -> p_file (x_file x) = List.concat (map pack (records (h0 ++ firstn m h')))) /\
    (forall y z, tr = y ++ XFlush :: z -> p_err (x_file x) = false -> exists l, records (firstn m h') = logged y ++ l) /\
    (forall y z, tr = y ++ XFlush :: z -> p_err (x_file x) = false -> logged z = [] -> x_pend x = [] -> whole (p_file (x_file x)) /\ db_rel d1 s).
  Proof.
    intros HO2. destruct life_next as (hl & hp & m & e & RO & E1 & E2 & Hm & P & FL).
    destruct life_writes as (d2 & rs2 & s & RW & S1 & S2).
    assert (LA : Forall loggable (hl ++ hp)) by (apply (Permutation.Permutation_Forall (reordered_perm _ _ _ RO)); now apply writes_all).
    assert (KA : Forall plain (hl ++ hp)) by (apply (Permutation.Permutation_Forall (reordered_perm _ _ _ RO)); now apply writes_all).
    assert (GA : Forall (fun x => OrderSpec.logs x = true) (hl ++ hp)) by (apply (Permutation.Permutation_Forall (reordered_perm _ _ _ RO)); apply writes_logged).
    pose proof (reordered_app2 free_entries h0 _ _ RO) as RO'.
    assert (LW : Forall loggable (h0 ++ writes h)) by (apply List.Forall_app; split; [exact L0|now apply writes_all]).
    assert (KW : Forall plain (h0 ++ writes h)) by (apply List.Forall_app; split; [exact K0|now apply writes_all]).
    assert (SW : (total (h0 ++ writes h) < 2 ^ 62)%Z) by (rewrite total_app; pose proof (writes_size h); unfold total in *; lia).
    destruct (reordered_run (h0 ++ writes h) (h0 ++ hl ++ hp) d2 rs2 (loggable_env _ LW)) as (d3 & rs3 & s3 & R3 & D2 & D3); auto.
    { eapply List.Forall_impl; [|exact KW]. intros y [_ Hy]. exact Hy. }
    rewrite (db_rel_fun _ _ _ D2 S1) in D3.
    assert (FM : firstn m hl = firstn m (hl ++ hp)) by (rewrite firstn_app; replace (m - length hl) with 0 by lia; now rewrite firstn_O, app_nil_r).
    assert (FH : h0 ++ firstn m hl = firstn (length h0 + m) (h0 ++ hl ++ hp)).
    { rewrite firstn_app, (firstn_all2 h0) by lia. replace (length h0 + m - length h0) with m by lia. now rewrite FM. }
    destruct (run_firstn (length h0 + m) _ _ _ _ R3) as (d4 & rs4 & R4). rewrite <- FH in R4.
    assert (L4 : Forall loggable (h0 ++ firstn m hl)) by (rewrite FH; apply Forall_take; apply List.Forall_app; auto).
    assert (K4 : Forall plain (h0 ++ firstn m hl)) by (rewrite FH; apply Forall_take; apply List.Forall_app; auto).
    assert (S4 : (total (h0 ++ firstn m hl) < 2 ^ 62)%Z).
    { pose proof (size_perm _ _ (Permutation_map h_req (reordered_perm _ _ _ RO'))) as Q. fold (total (h0 ++ writes h)) in Q. fold (total (h0 ++ hl ++ hp)) in Q.
      rewrite Q in SW. rewrite <- (firstn_skipn (length h0 + m) (h0 ++ hl ++ hp)), total_app, <- FH in SW. pose proof (total_nonneg (skipn (length h0 + m) (h0 ++ hl ++ hp))). lia. }
    destruct (replay_n ords2 HO2 (h0 ++ firstn m hl) 0 0 new_db empty_sdb no_dbs d4 rs4 L4 K4 new_db_rel bounded_empty ltac:(lia) ltac:(unfold total in S4; lia) new_db_rel R4) as (ds2 & s4 & B & D4 & D5).
    exists (hl ++ hp), m, d4, rs4, ds2, s4. rewrite <- FM. split; [exact RO|]. split; [exact R4|]. split; [unfold recover, from_file; rewrite P; exact B|]. split; [exact D4|]. split; [exact D5|]. split; [|split; [exact FL|]].
    - intros (vs & bss & HP & EF). rewrite EF, (parse_concat _ _ HP) in P. assert (vs = records (h0 ++ firstn m hl)) as <- by congruence. rewrite EF. now rewrite <- (packed_pack _ _ HP).
    - intros y z Et Er Lz Pd. rewrite Pd in E2. assert (hp = []) as Ehp.
      { destruct hp as [|a hp']; [reflexivity|]. apply List.Forall_app in GA as [_ GA]. inversion GA as [|? ? Ga _]; subst. cbn [records] in E2. unfold OrderSpec.logs in Ga. destruct (log_of _ _); discriminate. }
      destruct (FL y z Et Er) as (l & Q). assert (GL : Forall (fun x => OrderSpec.logs x = true) hl) by (now apply List.Forall_app in GA as [? _]).
      assert (QL : length hl <= length (firstn m hl)).
      { rewrite <- (all_logged_records hl GL), <- (all_logged_records (firstn m hl)) by (now apply Forall_take). rewrite Q, E1, Et, logged_app, !app_length.
        change (logged (XFlush :: z)) with (logged z). rewrite Lz. cbn [length]. lia. }
      rewrite firstn_length in QL. assert (EM : firstn m hl = hl) by (apply firstn_all2; lia). rewrite EM in *. subst hp. rewrite app_nil_r in *.
      rewrite R3 in R4. injection R4 as <- <-. rewrite (db_rel_fun _ _ _ D4 D3). split; [|exact S2].
      rewrite Et in PR. pose proof (pruns_runs _ _ _ _ _ _ PR) as R. destruct (flushed _ _ _ _ _ _ _ R Er) as [u1 F1]. destruct (file_prefix _ _ _ _ _ _ R) as [u2 F2].
      rewrite logged_app in F2. change (logged (XFlush :: z)) with (logged z) in F2. rewrite Lz, app_nil_r in F2. rewrite F1 in F2. rewrite <- app_assoc in F2. rewrite <- (app_nil_r (stream f (logged y))) in F2 at 1.
      apply app_inv_head in F2. symmetry in F2. apply app_eq_nil in F2 as [-> _]. rewrite app_nil_r in F1. rewrite F1.
      exists (records (h0 ++ hl)), (map pack (records (h0 ++ hl))). split; [apply packs_all; apply List.Forall_app; split; [exact L0|exact LA]|].
      unfold stream, f. rewrite records_app, map_app, List.concat_app, E1, Et, logged_app. change (logged (XFlush :: z)) with (logged z). now rewrite Lz, app_nil_r.
  Qed.
  (* A first part of the log, read by a replica. *)
  Lemma life_order : exists hl hp, reordered free_entries (writes h) (hl ++ hp) /\ records hl = logged tr /\ Forall loggable hl /\ length (records hl) = length hl /\
    (x_pend x = [] -> hp = []) /\ forall m, records (firstn m hl) = firstn m (records hl).
  Proof.
    destruct (patient_order _ (patient_logs _ _ _ _ _ _ PR h Hh) L1) as (hl & hp & RO & E1 & E2 & _ & LG). cbn [l_executed l_log l_pending] in *. exists hl, hp. split; [exact RO|]. split; [exact E1|].
    assert (LA : Forall loggable (hl ++ hp)) by (apply (Permutation.Permutation_Forall (reordered_perm _ _ _ RO)); now apply writes_all).
    assert (GL : Forall (fun x => OrderSpec.logs x = true) (hl ++ hp)) by (apply (Permutation.Permutation_Forall (reordered_perm _ _ _ RO)); apply writes_logged).
    apply List.Forall_app in LA as [LA _]. apply List.Forall_app in GL as [GL GP]. split; [exact LA|]. split; [exact (all_logged_records _ GL)|]. split.
    { intros Pd. rewrite Pd in E2. destruct hp as [|a hp']; [reflexivity|]. inversion GP as [|? ? Ga _]; subst. cbn [records] in E2. unfold OrderSpec.logs in Ga. destruct (log_of _ _); discriminate. }
    clear -GL. induction GL as [|a hl Ha _ IH]; intros [|m]; try reflexivity. cbn [firstn records]. unfold OrderSpec.logs in Ha. destruct (log_of _ _) as [v|]; [|discriminate]. cbn [firstn]. f_equal. apply IH.
  Qed.
  Lemma life_cut hl hp m ords2 : reordered free_entries (writes h) (hl ++ hp) -> m <= length hl -> (forall i, orders_ok (ords2 i)) -> exists d2 rs2 ds2 s, run new_db (requests (h0 ++ firstn m hl)) = Ret (d2, rs2) /\
    build no_dbs (zip (map ords2 (seq 0 (length (records (h0 ++ firstn m hl))))) (records (h0 ++ firstn m hl))) = Ret ds2 /\ db_rel d2 s /\ db_rel (ds2 1%Z) s /\
    (firstn m hl = hl ++ hp -> db_rel d1 s).
  Proof.
    intros RO Hm HO2. destruct life_writes as (d2 & rs2 & s & RW & S1 & S2).
    assert (LA : Forall loggable (hl ++ hp)) by (apply (Permutation.Permutation_Forall (reordered_perm _ _ _ RO)); now apply writes_all).
    assert (KA : Forall plain (hl ++ hp)) by (apply (Permutation.Permutation_Forall (reordered_perm _ _ _ RO)); now apply writes_all).
    pose proof (reordered_app2 free_entries h0 _ _ RO) as RO'.
    assert (LW : Forall loggable (h0 ++ writes h)) by (apply List.Forall_app; split; [exact L0|now apply writes_all]).
    assert (KW : Forall plain (h0 ++ writes h)) by (apply List.Forall_app; split; [exact K0|now apply writes_all]).
    assert (SW : (total (h0 ++ writes h) < 2 ^ 62)%Z) by (rewrite total_app; pose proof (writes_size h); unfold total in *; lia).
    destruct (reordered_run (h0 ++ writes h) (h0 ++ hl ++ hp) d2 rs2 (loggable_env _ LW)) as (d3 & rs3 & s3 & R3 & D2 & D3); auto.
    { eapply List.Forall_impl; [|exact KW]. intros y [_ Hy]. exact Hy. }
    assert (FM : firstn m hl = firstn m (hl ++ hp)) by (rewrite firstn_app; replace (m - length hl) with 0 by lia; now rewrite firstn_O, app_nil_r).
    assert (FH : h0 ++ firstn m hl = firstn (length h0 + m) (h0 ++ hl ++ hp)).
    { rewrite firstn_app, (firstn_all2 h0) by lia. replace (length h0 + m - length h0) with m by lia. now rewrite FM. }
    destruct (run_firstn (length h0 + m) _ _ _ _ R3) as (d4 & rs4 & R4). rewrite <- FH in R4.
    assert (L4 : Forall loggable (h0 ++ firstn m hl)) by (rewrite FH; apply Forall_take; apply List.Forall_app; auto).
    assert (K4 : Forall plain (h0 ++ firstn m hl)) by (rewrite FH; apply Forall_take; apply List.Forall_app; auto).
    assert (S4 : (total (h0 ++ firstn m hl) < 2 ^ 62)%Z).
    { pose proof (size_perm _ _ (Permutation_map h_req (reordered_perm _ _ _ RO'))) as Q. fold (total (h0 ++ writes h)) in Q. fold (total (h0 ++ hl ++ hp)) in Q.
      rewrite Q in SW. rewrite <- (firstn_skipn (length h0 + m) (h0 ++ hl ++ hp)), total_app, <- FH in SW. pose proof (total_nonneg (skipn (length h0 + m) (h0 ++ hl ++ hp))). lia. }
    destruct (replay_n ords2 HO2 (h0 ++ firstn m hl) 0 0 new_db empty_sdb no_dbs d4 rs4 L4 K4 new_db_rel bounded_empty ltac:(lia) ltac:(unfold total in S4; lia) new_db_rel R4) as (ds2 & s4 & B & D4 & D5).
    exists d4, rs4, ds2, s4. split; [exact R4|]. split; [exact B|]. split; [exact D4|]. split; [exact D5|].
    intros EM. rewrite EM, R3 in R4. injection R4 as <- <-. now rewrite (db_rel_fun _ _ _ D4 D3), (db_rel_fun _ _ _ D2 S1).
  Qed.
End Life.

(* ---- many lives ---- *)
Definition size_of (hs : list (list entry)) : Z := total (List.concat hs).
Lemma survives_all (P : entry -> Prop) hs h : survives hs h -> Forall (Forall P) hs -> Forall P h.
Proof.
  induction 1 as [|hs h h1 h2 m _ IH RO]; intros F; [constructor|]. apply List.Forall_app in F as [F1 F2]. inversion F2 as [|? ? F3 _]; subst.
  apply List.Forall_app. split; [auto|]. apply Forall_take. apply (Permutation.Permutation_Forall (reordered_perm _ _ _ RO)). now apply writes_all.
Qed.
Lemma survives_size hs h : survives hs h -> (total h <= size_of hs)%Z.
Proof.
  unfold size_of. induction 1 as [|hs h h1 h2 m _ IH RO]; [cbn; lia|]. rewrite List.concat_app, !total_app. cbn [List.concat]. rewrite app_nil_r.
  pose proof (size_perm _ _ (Permutation_map h_req (reordered_perm _ _ _ RO))) as Q. pose proof (writes_size h1) as W. rewrite Q in W. fold (total h2) in W. fold (total h1) in W.
  rewrite <- (firstn_skipn m h2), total_app in W. pose proof (total_nonneg (skipn m h2)). lia.
Qed.
Lemma lives_kept hs f : lives hs f -> Forall (Forall loggable) hs -> Forall (Forall plain) hs -> (size_of hs < 2 ^ 62)%Z -> forall ords, (forall i, orders_ok (ords i)) ->
  exists h d rs ds s, survives hs h /\ run new_db (requests h) = Ret (d, rs) /\ recover ords f = Ret ds /\ db_rel d s /\ db_rel (ds 1%Z) s /\ (whole f -> f = List.concat (map pack (records h))).
Proof.
  induction 1 as [|hs f ords0 ds cl input tr x h1 d1 rs1 Lv IH Wf HO0 Rec PR Hh Run1]; intros Hl Hk Hs ords HO.
  { exists [], new_db, [], no_dbs, empty_sdb. split; [constructor|]. split; [reflexivity|]. split; [reflexivity|]. split; [exact new_db_rel|]. split; [exact new_db_rel|]. intros _. reflexivity. }
  apply List.Forall_app in Hl as [Hl1 Hl2]. inversion Hl2 as [|? ? Hl3 _]; subst. apply List.Forall_app in Hk as [Hk1 Hk2]. inversion Hk2 as [|? ? Hk3 _]; subst.
  assert (SS : size_of (hs ++ [h1]) = (size_of hs + total h1)%Z) by (unfold size_of; rewrite List.concat_app, total_app; cbn [List.concat]; now rewrite app_nil_r). rewrite SS in Hs.
  pose proof (total_nonneg h1). destruct (IH Hl1 Hk1 ltac:(lia) ords HO) as (h0 & d0 & rs0 & ds0 & s0 & Sv & R0 & _ & _ & _ & WF). specialize (WF Wf). pose proof (survives_size _ _ Sv).
  rewrite WF in Rec, PR.
  destruct (life_recovered h0 d0 rs0 ords0 ds cl input tr x h1 d1 rs1 R0 HO0 Rec PR Hh Run1 (survives_all _ _ _ Sv Hl1) (survives_all _ _ _ Sv Hk1) Hl3 Hk3 ltac:(lia) ords HO)
    as (h' & m & d2 & rs2 & ds2 & s2 & RO & R2 & E2 & D1 & D2 & W2 & _).
  exists (h0 ++ firstn m h'), d2, rs2, ds2, s2. split; [now constructor|]. auto.
Qed.
Theorem lives_recovered hs f ords : lives hs f -> Forall (Forall loggable) hs -> Forall (Forall plain) hs -> (requests_size (map h_req (List.concat hs)) < 2 ^ 62)%Z -> (forall i, orders_ok (ords i)) ->
  exists h d rs ds s, survives hs h /\ run new_db (requests h) = Ret (d, rs) /\ recover ords f = Ret ds /\ db_rel d s /\ db_rel (ds 1%Z) s.
Proof. intros H1 H2 H3 H4 H5. destruct (lives_kept _ _ H1 H2 H3 H4 ords H5) as (h & d & rs & ds & s & A & B & C & D & E & _). eauto 10. Qed.
(* ... and what was flushed in the last life is there *)
Theorem lives_flushed hs f ords0 ds cl input tr x h1 d1 rs1 ords : lives hs f -> whole f -> (forall i, orders_ok (ords0 i)) -> recover ords0 f = Ret ds ->
  pruns cl (ds 1%Z) input f tr x -> history tr h1 -> run (ds 1%Z) (requests h1) = Ret (d1, rs1) ->
  Forall (Forall loggable) (hs ++ [h1]) -> Forall (Forall plain) (hs ++ [h1]) -> (requests_size (map h_req (List.concat (hs ++ [h1]))) < 2 ^ 62)%Z -> (forall i, orders_ok (ords i)) ->
  exists h h' m d rs ds2 s, survives hs h /\ reordered free_entries (writes h1) h' /\ run new_db (requests (h ++ firstn m h')) = Ret (d, rs) /\
    recover ords (p_file (x_file x)) = Ret ds2 /\ db_rel d s /\ db_rel (ds2 1%Z) s /\
    forall y z, tr = y ++ XFlush :: z -> p_err (x_file x) = false -> exists l, records (firstn m h') = logged y ++ l.
Proof.
  intros Lv Wf HO0 Rec PR Hh Run1 Hl Hk Hs HO. fold (total (List.concat (hs ++ [h1]))) in Hs.
  apply List.Forall_app in Hl as [Hl1 Hl2]. inversion Hl2 as [|? ? Hl3 _]; subst. apply List.Forall_app in Hk as [Hk1 Hk2]. inversion Hk2 as [|? ? Hk3 _]; subst.
  rewrite List.concat_app, total_app in Hs. cbn [List.concat] in Hs. rewrite app_nil_r in Hs. fold (size_of hs) in Hs.
  pose proof (total_nonneg h1). destruct (lives_kept _ _ Lv Hl1 Hk1 ltac:(lia) ords HO) as (h0 & d0 & rs0 & ds0 & s0 & Sv & R0 & _ & _ & _ & WF). specialize (WF Wf). pose proof (survives_size _ _ Sv).
  rewrite WF in Rec, PR.
  destruct (life_recovered h0 d0 rs0 ords0 ds cl input tr x h1 d1 rs1 R0 HO0 Rec PR Hh Run1 (survives_all _ _ _ Sv Hl1) (survives_all _ _ _ Sv Hk1) Hl3 Hk3 ltac:(lia) ords HO)
    as (h' & m & d2 & rs2 & ds2 & s2 & RO & R2 & E2 & D1 & D2 & _ & FL & _).
  exists h0, h', m, d2, rs2, ds2, s2. auto 10.
Qed.
(* ... and if nothing was left to write, all of it is *)
Lemma turn_run d l d' : in_turn d l d' -> run d (map fst l) = Ret (d', map snd l).
Proof. induction 1 as [|l d1 e q o d2 _ IH H]; [reflexivity|]. rewrite !map_app, run_app, IH. cbn [map fst snd run rbind]. rewrite H. reflexivity. Qed.
Lemma executed_turns tr : executed tr = map fst (map hturn (handled (served tr))).
Proof.
  unfold executed, handled, served. induction tr as [|a tr IH]; [reflexivity|]. cbn [flat_map]. destruct a as [a| | | |]; try exact IH. cbn [app flat_map].
  destruct a; try exact IH. cbn [handled_of app map fst hturn]. now f_equal.
Qed.
Theorem executed_run cl d input f tr x : Process.runs cl d input f tr x -> exists rs, run d (executed tr) = Ret (s_db (x_srv x), rs).
Proof. intros R. rewrite executed_turns. eexists. apply turn_run. exact (runs_turn _ _ _ _ _ (served_runs _ _ _ _ _ _ R)). Qed.
Theorem lives_complete hs f ords0 ds cl input tr x h1 ords y z : lives hs f -> whole f -> (forall i, orders_ok (ords0 i)) -> recover ords0 f = Ret ds ->
  pruns cl (ds 1%Z) input f tr x -> history tr h1 -> requests h1 = executed tr ->
  Forall (Forall loggable) (hs ++ [h1]) -> Forall (Forall plain) (hs ++ [h1]) -> (requests_size (map h_req (List.concat (hs ++ [h1]))) < 2 ^ 62)%Z -> (forall i, orders_ok (ords i)) ->
  tr = y ++ XFlush :: z -> logged z = [] -> x_pend x = [] -> p_err (x_file x) = false ->
  whole (p_file (x_file x)) /\ exists ds2 s, recover ords (p_file (x_file x)) = Ret ds2 /\ db_rel (s_db (x_srv x)) s /\ db_rel (ds2 1%Z) s.
Proof.
  intros Lv Wf HO0 Rec PR Hh He Hl Hk Hs HO Et Lz Pd Er. fold (total (List.concat (hs ++ [h1]))) in Hs.
  destruct (executed_run _ _ _ _ _ _ (pruns_runs _ _ _ _ _ _ PR)) as (rs1 & Run1). rewrite <- He in Run1.
  apply List.Forall_app in Hl as [Hl1 Hl2]. inversion Hl2 as [|? ? Hl3 _]; subst. apply List.Forall_app in Hk as [Hk1 Hk2]. inversion Hk2 as [|? ? Hk3 _]; subst.
  rewrite List.concat_app, total_app in Hs. cbn [List.concat] in Hs. rewrite app_nil_r in Hs. fold (size_of hs) in Hs.
  pose proof (total_nonneg h1). destruct (lives_kept _ _ Lv Hl1 Hk1 ltac:(lia) ords HO) as (h0 & d0 & rs0 & ds0 & s0 & Sv & R0 & _ & _ & _ & WF). specialize (WF Wf). pose proof (survives_size _ _ Sv).
  rewrite WF in Rec, PR.
  destruct (life_recovered h0 d0 rs0 ords0 ds cl input _ x h1 _ rs1 R0 HO0 Rec PR Hh Run1 (survives_all _ _ _ Sv Hl1) (survives_all _ _ _ Sv Hk1) Hl3 Hk3 ltac:(lia) ords HO)
    as (h' & m & d2 & rs2 & ds2 & s2 & RO & R2 & E2 & D1 & D2 & _ & _ & CM).
  destruct (CM y z eq_refl Er Lz Pd) as [W S]. split; [exact W|]. exists ds2, s2. auto.
Qed.
