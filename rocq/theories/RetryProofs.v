(* C102: sending a request again. *)
From Verif Require Import Base BaseFacts IntSpec IndexSpec ListSpec Resp Command SpecDb RequestSpec CommandProofs Db DbProofs Engine EngineProofs IdealSpec SpecFacts EngineFacts SizeProofs Recovery RecoverySpec RecoveryProofs OrderProofs NodeProofs HashProofs RetrySpec.
From Coq Require Import ZArith List Lia.
From stdpp Require Import gmap.
Open Scope Z_scope.

(* What is left of the command after it was executed with result [o]. *)
Definition reflects (c : cmd) (s : sdb) (o : robj + cerr) : Prop :=
  match c with
  | CSet k v => ss s !! k = Some v /\ o = inl r_ok
  | CMset ks vs => if bool_decide (ks = []) then o = inr EInternal else (forall k, k ∈ ks -> put_pairs ∅ (zip ks vs) !! k = ss s !! k) /\ o = inl r_ok
  | CLset k i v =>
      match sl s !! k with
      | None => o = inr ENoKey
      | Some l => let p := position i (Z.of_nat (length l)) in
          if (0 <=? p) && (p <? Z.of_nat (length l)) then l !! Z.to_nat p = Some v /\ o = inl r_ok else o = inr ERange
      end
  | CLrem k n v =>
      match sl s !! k with
      | None => True
      | Some l => v ∉ l /\ (v = reserved -> l = [])
      end
  | CHset k fs vs => k <> [] /\ exists h, sh s !! k = Some h /\ (fs = [] -> o = inr EArg) /\ forall f, f ∈ fs -> put_pairs ∅ (zip fs vs) !! f = h !! f
  | CHdel k fs => match sh s !! k with None => True | Some h => forall f, f ∈ fs -> h !! f = None end
  | CSadd k vs => k <> [] /\ exists X, st s !! k = Some X /\ list_to_set vs ⊆ X
  | CSrem k vs => k <> [] /\ exists X, st s !! k = Some X /\ X ∩ list_to_set vs = ∅
  | _ => True
  end.
Definition shows (c : cmd) (o o' : robj + cerr) : Prop :=
  match c with
  | CHset _ (_ :: _) _ | CHdel _ _ | CSadd _ _ | CSrem _ _ | CLrem _ _ _ => o' = inl (RInt 0)
  | CSet _ _ | CMset _ _ | CLset _ _ _ | CHset _ [] _ => o' = o
  | _ => False
  end.
Lemma zip_covers (ks : list bytes) : forall vs : list bytes, length ks = length vs -> (zip ks vs).*1 = ks.
Proof. induction ks as [|k ks IH]; intros [|v vs] E; try discriminate E; [reflexivity|]. cbn. f_equal. apply IH. now injection E. Qed.
Lemma put_pairs_any (l : list (bytes * bytes)) : forall m m' k, k ∈ l.*1 -> put_pairs m l !! k = put_pairs m' l !! k.
Proof.
  induction l as [|[a b] l IH]; intros m m' k H; [inversion H|]. cbn [put_pairs]. destruct (decide (k ∈ l.*1)) as [I|N]; [now apply IH|]. cbn in H. apply elem_of_cons in H as [->|H]; [|contradiction]. rewrite !put_pairs_other by exact N. now rewrite !lookup_insert.
Qed.
Lemma put_pairs_stays (ks vs : list bytes) (m : gmap bytes bytes) : length ks = length vs -> (forall k, k ∈ ks -> put_pairs ∅ (zip ks vs) !! k = m !! k) -> put_pairs m (zip ks vs) = m.
Proof.
  intros L H. apply map_eq. intros k. destruct (decide (k ∈ ks)) as [I|N].
  - rewrite <- (H _ I). apply put_pairs_any. now rewrite (zip_covers _ _ L).
  - apply put_pairs_other. now rewrite (zip_covers _ _ L).
Qed.
Lemma removed (v : bytes) (l : list bytes) : forall n, (length l <= n)%nat -> v ∉ remove_first n v l.
Proof.
  induction l as [|x l IH]; intros [|n] H; cbn in *; try apply not_elem_of_nil; [lia|]. destruct (bytes_eqb x v) eqn:E; [apply IH; lia|]. apply not_elem_of_cons. split; [|apply IH; lia]. intros ->. now rewrite bytes_eqb_refl in E.
Qed.
Lemma nothing_removed (v : bytes) (l : list bytes) : v ∉ l -> forall n, remove_first n v l = l.
Proof.
  induction l as [|x l IH]; intros H [|n]; try reflexivity. cbn. apply not_elem_of_cons in H as [N H]. destruct (bytes_eqb x v) eqn:E; [apply bytes_eqb_eq in E; congruence|]. f_equal. now apply IH.
Qed.
Lemma settles (s : sdb) (c : cmd) s1 o : repeatable c -> cmd_wf c -> spec s c (Some (s1, o)) -> reflects c s1 o.
Proof.
  intros R W H. destruct c; cbn [reflects]; try exact I; cbn [spec repeatable cmd_wf] in *.
  - injection H as -> ->. split; [apply lookup_insert|reflexivity].
  - case_bool_decide; [now injection H as -> ->|]. injection H as -> ->. split; [|reflexivity]. intros j Hj. cbn. apply put_pairs_any. now rewrite (zip_covers _ _ W).
  - destruct (sl s !! k) as [l|] eqn:E; [|injection H as -> ->; now rewrite E]. cbv zeta in *. destruct ((0 <=? _) && _) eqn:B in H; injection H as -> ->.
    + cbn. rewrite lookup_insert, insert_length, B. split; [|reflexivity]. apply list_lookup_insert. apply andb_true_iff in B as [B1 B2]. apply Z.leb_le in B1. apply Z.ltb_lt in B2. lia.
    + now rewrite E, B.
  - subst. destruct (sl s !! k) as [l|] eqn:E; [|injection H as -> ->; now rewrite E]. cbv zeta in H. change (0 =? - 2 ^ 63) with false in H. cbv iota in H. change (0 =? 0) with true in H. case_bool_decide as V.
    + case_bool_decide as L; cbn in H; [|discriminate H]. injection H as -> ->. rewrite E. subst. split; [apply not_elem_of_nil|auto].
    + injection H as -> ->. cbn. rewrite lookup_insert. split; [apply removed; lia|contradiction].
  - case_bool_decide as K; [discriminate H|]. cbv zeta in H. split; [exact K|]. case_bool_decide as F; injection H as -> ->.
    + subst. cbn. rewrite lookup_insert. eexists. split; [reflexivity|]. split; [auto|]. intros f Hf. inversion Hf.
    + cbn. rewrite lookup_insert. eexists. split; [reflexivity|]. split; [contradiction|]. intros f Hf. apply put_pairs_any. now rewrite (zip_covers _ _ W).
  - destruct (sh s !! k) as [h|] eqn:E; [|injection H as -> ->; now rewrite E]. destruct H as (h' & Hh & H). injection H as -> ->. cbn. rewrite lookup_insert. intros f Hf. rewrite Hh. now rewrite bool_decide_true.
  - case_bool_decide as K; [discriminate H|]. cbv zeta in H. split; [exact K|]. injection H as -> ->. cbn. rewrite lookup_insert. eexists. split; [reflexivity|]. set_solver.
  - case_bool_decide as K; [discriminate H|]. cbv zeta in H. split; [exact K|]. injection H as -> ->. cbn. rewrite lookup_insert. eexists. split; [reflexivity|]. set_solver.
Qed.
Lemma stays (c : cmd) (s s' : sdb) o : (forall k, k ∈ written c -> same_at (kind_of c) k s s') -> reflects c s o -> reflects c s' o.
Proof.
  intros S H. destruct c; cbn [reflects kind_of written same_at] in *; try exact I; try (rewrite <- (S _ (elem_of_list_here _ _)); exact H).
  case_bool_decide; [exact H|]. destruct H as [H E]. split; [|exact E]. intros j Hj. rewrite <- (S _ Hj). auto.
Qed.
Lemma once_more (c : cmd) (s : sdb) o out : repeatable c -> cmd_wf c -> reflects c s o -> spec s c out -> exists o', out = Some (s, o') /\ shows c o o'.
Proof.
  intros R W F H. destruct c; cbn [repeatable] in R; try contradiction; cbn [spec reflects shows cmd_wf] in *.
  - destruct F as [F ->]. subst out. rewrite insert_id by exact F. rewrite with_ss_id. eexists. split; reflexivity.
  - case_bool_decide; [subst; eexists; split; reflexivity|]. destruct F as [F ->]. subst out. rewrite (put_pairs_stays _ _ _ W F), with_ss_id. eexists. split; reflexivity.
  - destruct (sl s !! k) as [l|] eqn:E; [|subst; eexists; split; reflexivity]. cbv zeta in *. destruct ((0 <=? _) && _); [|subst; eexists; split; reflexivity]. destruct F as [F ->]. subst out. rewrite (list_insert_id _ _ _ F), (insert_id _ _ _ E), with_sl_id. eexists. split; reflexivity.
  - subst. destruct (sl s !! k) as [l|] eqn:E; [|subst; eexists; split; reflexivity]. cbv zeta in H. change (0 =? - 2 ^ 63) with false in H. cbv iota in H. change (0 =? 0) with true in H. destruct F as [F1 F2]. case_bool_decide as V.
    + rewrite bool_decide_true in H by auto. cbn in H. subst out. eexists. split; reflexivity.
    + unfold lrem_spec in H. change (0 =? 0) with true in H. cbv iota in H. rewrite (nothing_removed _ _ F1), (insert_id _ _ _ E), with_sl_id, Z.sub_diag in H. subst. eexists. split; reflexivity.
  - destruct F as (K & h & E & F1 & F2). rewrite bool_decide_false in H by exact K. cbv zeta in H. rewrite E in H. unfold default, id in H; cbn [from_option] in H. case_bool_decide as F.
    + subst. rewrite (insert_id _ _ _ E), with_sh_id. eexists. split; [reflexivity|]. symmetry. auto.
    + rewrite (put_pairs_stays _ _ _ W F2), (insert_id _ _ _ E), with_sh_id in H. subst out. eexists. split; [reflexivity|]. destruct fs as [|f fs]; [contradiction|]. unfold r_nat. do 2 f_equal. apply (f_equal Z.of_nat (y := 0%nat)). apply size_empty_iff. apply leibniz_equiv_iff. apply set_eq. intros x. split; [|set_solver]. intros Hx. exfalso. apply elem_of_difference in Hx as [Hx N]. apply N, elem_of_dom. rewrite <- F2 by set_solver. assert (I : x ∈ (zip (f :: fs) vs).*1) by (rewrite (zip_covers _ _ W); set_solver). apply elem_of_dom. rewrite put_pairs_dom. set_solver.
  - destruct (sh s !! k) as [h|] eqn:E; [|subst; eexists; split; reflexivity]. destruct H as (h' & Hh & H). assert (h' = h) as ->.
    { apply map_eq. intros f. rewrite Hh. case_bool_decide as I; [|reflexivity]. symmetry. now apply F. }
    rewrite (insert_id _ _ _ E), with_sh_id in H. subst out. eexists. split; [reflexivity|]. unfold r_nat. do 2 f_equal. apply (f_equal Z.of_nat (y := 0%nat)). apply size_empty_iff. apply leibniz_equiv_iff. apply set_eq. intros x. split; [|set_solver]. intros Hx. exfalso. apply elem_of_intersection in Hx as [Hx N]. apply elem_of_dom in N as [y N]. rewrite F in N by set_solver. discriminate.
  - destruct F as (K & X & E & F). rewrite bool_decide_false in H by exact K. cbv zeta in H. unfold set_or_empty in H. rewrite E in H. unfold default, id in H; cbn [from_option] in H. assert (E1 : X ∪ list_to_set vs = X) by set_solver. assert (E2 : list_to_set vs ∖ X = ∅) by set_solver. rewrite E1, E2, (insert_id _ _ _ E), with_st_id, size_empty in H. subst. eexists. split; reflexivity.
  - destruct F as (K & X & E & F). rewrite bool_decide_false in H by exact K. cbv zeta in H. unfold set_or_empty in H. rewrite E in H. unfold default, id in H; cbn [from_option] in H. assert (E1 : X ∖ list_to_set vs = X) by set_solver. rewrite E1, F, (insert_id _ _ _ E), with_st_id, size_empty in H. subst. eexists. split; reflexivity.
Qed.
Lemma says_again (c : cmd) o o' r r' : repeatable c -> shows c o o' ->
  match o with inl x => r = x | inr er => error_text er r end -> match o' with inl x => r' = x | inr er => error_text er r' end -> again c r r'.
Proof.
  intros R S T T'. assert (Q : o' = o -> r' = r \/ (is_internal_error r /\ is_internal_error r')).
  { intros ->. destruct o as [x|er]; [subst; now left|]. destruct er; cbn in *; subst; auto. }
  destruct c; cbn [repeatable] in R; try contradiction; cbn [shows again] in *; try (subst o'; exact T'); try (now apply Q).
  destruct fs; [now apply Q|subst o'; exact T'].
Qed.
Lemma answers_kept (l : list robj) (t : kind) (k : bytes) : Forall (fun q => ~ writes q t k) l -> forall s s' rs, answers s l (Some (s', rs)) -> same_at t k s s'.
Proof.
  induction 1 as [|q l Hq _ IH]; intros s s' rs A; inversion A; subst; [destruct t; reflexivity|]. eapply same_at_trans; [eapply answer_frame; eassumption|eauto].
Qed.
Theorem retried (h m : list (env * robj)) (e e' : env) (q : robj) (c : cmd) (d : db) (rs : list (option robj)) :
  Forall (fun x => env_ok (fst x)) (h ++ (e, q) :: m) -> env_ok e' -> requests_size (map snd (h ++ (e, q) :: m)) < 2 ^ 62 ->
  asks q c -> repeatable c -> Forall (fun x => forall k, k ∈ written c -> ~ writes (snd x) (kind_of c) k) m ->
  run new_db (h ++ (e, q) :: m) = Ret (d, rs) ->
  exists r d' r', nth_error rs (length h) = Some (Some r) /\ run new_db ((h ++ (e, q) :: m) ++ [(e', q)]) = Ret (d', rs ++ [Some r']) /\
    (exists s, db_rel d s /\ db_rel d' s) /\ again c r r'.
Proof.
  intros E E' S A R N H. pose proof (runs_refine _ E S) as Q. rewrite H in Q. destruct Q as (s & D & F & Q). rewrite map_app in Q. cbn [map snd] in Q. apply answers_app in Q as (s0 & rs0 & rs1 & -> & Q0 & Q1).
  inversion Q1 as [| |? ? ? s1 r s2 rs2 A1 Q2|]; subst. pose proof (asks_answer _ _ _ _ A A1) as S1. cbn in S1. destruct r as [r|]; [|contradiction].
  destruct (asks_wf _ _ A) as [W _].
  assert (P : exists o, spec s0 c (Some (s1, o)) /\ match o with inl x => r = x | inr er => error_text er r end) by (destruct S1 as [S1|(er & S1 & T)]; eexists; (split; [exact S1|]); [reflexivity|exact T]). destruct P as (o & S2 & T).
  assert (G : reflects c s o).
  { eapply stays; [|eapply settles; eassumption]. intros k Hk. eapply answers_kept; [|exact Q2]. apply Forall_map. eapply Forall_impl; [exact N|]. intros x Hx. exact (Hx _ Hk). }
  pose proof (handle_asks e' d s q c E' D F A) as K. destruct (handle e' d q) as [[d' [r'|]]| |] eqn:Hh; try contradiction.
  - destruct K as (s' & D' & K). assert (P : exists o', spec s c (Some (s', o')) /\ match o' with inl x => r' = x | inr er => error_text er r' end) by (destruct K as [K|(er & K & T')]; eexists; (split; [exact K|]); [reflexivity|exact T']). destruct P as (o' & K' & T').
    destruct (once_more c s o _ R W G K') as (o2 & E2 & S3). injection E2 as -> <-. exists r, d', r'. split.
    + rewrite nth_error_app2 by (rewrite (answers_length _ _ _ _ Q0), map_length; lia). rewrite (answers_length _ _ _ _ Q0), map_length, Nat.sub_diag. reflexivity.
    + split; [rewrite run_app, H; cbn; now rewrite Hh|]. split; [eauto|]. eapply says_again; eassumption.
  - destruct (once_more c s o _ R W G K) as (o2 & E2 & _). discriminate.
Qed.
