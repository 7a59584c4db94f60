(* C104: a command with several arguments and its arguments one by one. *)
From Verif Require Import Base BaseFacts IntSpec IndexSpec ListSpec Resp Command SpecDb RequestSpec CommandProofs Db DbProofs Engine EngineProofs IdealSpec SpecFacts EngineFacts SizeProofs Recovery RecoverySpec RecoveryProofs OrderProofs DetSpec DetProofs RetryProofs EmptyProofs EachSpec.
From Coq Require Import String ZArith List Lia.
From stdpp Require Import gmap.
Open Scope Z_scope.

(* Commands one after the other on the specification. *)
Fixpoint specs (s : sdb) (cs : list cmd) (o : option (sdb * list (robj + cerr))) : Prop :=
  match cs with
  | [] => o = Some (s, [])
  | c :: cs' => (spec s c None /\ o = None) \/
      exists s1 r, spec s c (Some (s1, r)) /\ ((specs s1 cs' None /\ o = None) \/ exists s2 rs, specs s1 cs' (Some (s2, rs)) /\ o = Some (s2, r :: rs))
  end.
Definition texts (r : option robj) (x : robj + cerr) : Prop := exists y, r = Some y /\ match x with inl z => z = y | inr e => error_text e y end.
Lemma answers_specs qs : forall cs s o, Forall2 asks qs cs -> answers s qs o ->
  exists o', specs s cs o' /\ match o, o' with Some (s1, rs), Some (s2, xs) => s1 = s2 /\ Forall2 texts rs xs | None, None => True | _, _ => False end.
Proof.
  induction qs as [|q qs IH]; intros cs s o F A; inversion F; subst; inversion A; subst; cbn [specs].
  - eexists. split; [reflexivity|]. split; [reflexivity|constructor].
  - match goal with H : asks q ?c, K : answer s q _ |- _ => pose proof (asks_answer _ _ _ _ H K) as Q end. exists None. split; [left; auto|exact I].
  - match goal with H : asks q ?c, K : answer s q _ |- _ => pose proof (asks_answer _ _ _ _ H K) as Q end.
    match goal with H : Forall2 asks qs _, K : answers _ qs _ |- _ => destruct (IH _ _ _ H K) as ([[s3 xs]|] & S & O) end; [|destruct O]. destruct O as [<- O].
    match goal with r : option robj |- _ => destruct r as [r0|]; [|destruct Q] end.
    assert (K : exists x, texts (Some r0) x /\ spec s y (Some (s1, x))) by (destruct Q as [Q|(er & Q & E)]; eexists; (split; [|exact Q]); exists r0; auto).
    destruct K as (x & T & Q1). exists (Some (s2, x :: xs)). split; [right; exists s1, x; split; [exact Q1|right; eauto]|]. split; [reflexivity|now constructor].
  - match goal with H : asks q ?c, K : answer s q _ |- _ => pose proof (asks_answer _ _ _ _ H K) as Q end.
    match goal with H : Forall2 asks qs _, K : answers _ qs _ |- _ => destruct (IH _ _ _ H K) as ([[s3 xs]|] & S & O) end; [destruct O|].
    match goal with r : option robj |- _ => destruct r as [r0|]; [|destruct Q] end.
    exists None. split; [|exact I]. right. destruct Q as [Q|(er & Q & E)]; eexists _, _; (split; [exact Q|left; auto]).
Qed.

Notation result := (robj + cerr)%type.
Lemma by_steps {A} (one : A -> cmd) (all : list A -> cmd) (J : list result -> result -> Prop) :
  (forall s a o, spec s (one a) o -> match o with None => forall l, spec s (all (a :: l)) None | Some (s', r) => exists r', spec s (all [a]) (Some (s', r')) /\ J [r] r' end) ->
  (forall s a b l s1 r o, spec s (one a) (Some (s1, r)) -> spec s1 (all (b :: l)) o ->
     match o with None => spec s (all (a :: b :: l)) None | Some (s2, r2) => exists r', spec s (all (a :: b :: l)) (Some (s2, r')) /\ forall rs, J rs r2 -> J (r :: rs) r' end) ->
  forall l s o, l <> [] -> specs s (map one l) o -> match o with None => spec s (all l) None | Some (s', rs) => exists r, spec s (all l) (Some (s', r)) /\ J rs r end.
Proof.
  intros H1 H2. induction l as [|a l IH]; intros s o N S; [congruence|]. cbn [map specs] in S. destruct S as [[S ->]|(s1 & r & S & K)]; [exact (H1 _ _ _ S l)|].
  destruct l as [|b l].
  - cbn [map specs] in K. destruct K as [[K _]|(s2 & rs & K & ->)]; [discriminate K|]. injection K as -> ->. exact (H1 _ _ _ S).
  - destruct K as [[K ->]|(s2 & rs & K & ->)].
    + specialize (IH s1 None ltac:(discriminate) K). exact (H2 _ _ _ _ _ _ _ S IH).
    + specialize (IH s1 _ ltac:(discriminate) K). cbn beta iota in IH. destruct IH as (r2 & IH & J2). destruct (H2 _ _ _ _ _ _ _ S IH) as (r' & S' & J'). eauto.
Qed.

Definition j_oks (rs : list result) (r : result) := Forall (eq (inl r_ok)) rs /\ r = inl r_ok.
Definition j_array (rs : list result) (r : result) := exists xs, rs = map inl xs /\ r = inl (RArr xs).
Definition j_arrays (rs : list result) (r : result) := exists xs, rs = map (fun x => inl (RArr [x])) xs /\ r = inl (RArr xs).
Definition j_total (rs : list result) (r : result) := exists ns, rs = map (fun n => inl (RInt n)) ns /\ r = inl (RInt (sum_of ns)).
Definition j_push (rs : list result) (r : result) := (exists xs n, rs = map inl xs ++ [inl (RInt n)] /\ r = inl (RInt n)) \/ (Forall (eq (inr EInternal)) rs /\ r = inr EInternal).
Lemma j_total_one (n : nat) (r : result) : r = inl (r_nat n) -> j_total [r] r.
Proof. intros ->. exists [Z.of_nat n]. split; [reflexivity|]. cbn. unfold r_nat. now rewrite Z.add_0_r. Qed.
Lemma j_total_cons (n m k : nat) : (k = n + m)%nat -> forall rs, j_total rs (inl (r_nat m)) -> j_total (inl (r_nat n) :: rs) (inl (r_nat k)).
Proof. intros -> rs (ns & -> & E). unfold r_nat in *. injection E as E. exists (Z.of_nat n :: ns). split; [reflexivity|]. unfold sum_of in *. cbn [fold_right]. rewrite <- E. do 2 f_equal. lia. Qed.

Lemma each_mset l s o : l <> [] -> specs s (map (fun p => CSet (fst p) (snd p)) l) o -> match o with None => spec s (CMset l.*1 l.*2) None | Some (s', rs) => exists r, spec s (CMset l.*1 l.*2) (Some (s', r)) /\ j_oks rs r end.
Proof.
  refine (by_steps (fun p => CSet (fst p) (snd p)) (fun l => CMset l.*1 l.*2) j_oks _ _ l s o).
  - intros s0 [k v] o0 H. cbn [spec fst snd] in H. subst o0. cbn. eexists. split; [reflexivity|]. split; [repeat constructor|reflexivity].
  - intros s0 [k v] [k' v'] l0 s1 r o0 H K. cbn [spec fst snd] in H. unfold says in H. injection H as -> ->. cbn [spec fmap list_fmap fst snd] in K. rewrite bool_decide_false in K by discriminate. subst o0. cbn [says]. eexists. split.
    + cbn [spec fmap list_fmap fst snd]. rewrite bool_decide_false by discriminate. reflexivity.
    + intros rs [J _]. split; [now constructor|reflexivity].
Qed.
Lemma each_mget l s o : l <> [] -> specs s (map CGet l) o -> match o with None => spec s (CMget l) None | Some (s', rs) => exists r, spec s (CMget l) (Some (s', r)) /\ j_array rs r end.
Proof.
  refine (by_steps CGet CMget j_array _ _ l s o).
  - intros s0 k o0 H. cbn [spec] in H. subst o0. cbn. eexists. split; [reflexivity|]. exists [r_opt (ss s0 !! k)]. auto.
  - intros s0 k k' l0 s1 r o0 H K. cbn [spec] in H, K. unfold says in H. injection H as -> ->. subst o0. cbn. eexists. split; [reflexivity|]. intros rs (xs & -> & E). injection E as <-. eexists (_ :: _). split; reflexivity.
Qed.
Lemma each_exists l s o : l <> [] -> specs s (map (fun k => CExists [k]) l) o -> match o with None => spec s (CExists l) None | Some (s', rs) => exists r, spec s (CExists l) (Some (s', r)) /\ j_total rs r end.
Proof.
  refine (by_steps (fun k => CExists [k]) CExists j_total _ _ l s o).
  - intros s0 k o0 H. cbn [spec] in H. subst o0. cbn [says]. eexists. split; [reflexivity|]. now eapply j_total_one.
  - intros s0 k k' l0 s1 r o0 H K. cbn [spec] in H, K. unfold says in H. injection H as -> ->. subst o0. cbn [says]. eexists. split; [reflexivity|].
    apply j_total_cons. rewrite (filter_cons _ k (k' :: l0)), (filter_cons _ k []). cbn [filter list_filter]. destruct (decide (is_Some (ss s0 !! k))); cbn [length]; lia.
Qed.
Lemma each_push (left : bool) k l s o : l <> [] -> let C := if left then CLpush else CRpush in specs s (map (fun v => C k [v]) l) o -> match o with None => spec s (C k l) None | Some (s', rs) => exists r, spec s (C k l) (Some (s', r)) /\ j_push rs r end.
Proof.
  intros N C. refine (by_steps (fun v => C k [v]) (C k) j_push _ _ l s o N); subst C; destruct left.
  - intros s0 v o0 H. cbn [spec] in *. case_bool_decide; subst o0; cbn [says errs]; eexists; (split; [reflexivity|]); [right; split; [repeat constructor|reflexivity]|left; exists [], (Z.of_nat (length (rev [v] ++ list_or_nil s0 k))); split; reflexivity].
  - intros s0 v o0 H. cbn [spec] in *. case_bool_decide; subst o0; cbn [says errs]; eexists; (split; [reflexivity|]); [right; split; [repeat constructor|reflexivity]|left; exists [], (Z.of_nat (length (list_or_nil s0 k ++ [v]))); split; reflexivity].
  - intros s0 v v' l0 s1 r o0 H K. cbn [spec] in *. case_bool_decide as E.
    + injection H as -> ->. subst o0. cbn [errs]. eexists. split; [reflexivity|]. intros rs [(xs & n & _ & X)|[J _]]; [discriminate X|]. right. split; [now constructor|reflexivity].
    + injection H as -> ->. subst o0. cbn [says]. eexists. split.
      * unfold says. f_equal. apply f_equal2; [|reflexivity]. unfold with_sl. cbn [ss sl sh st]. f_equal; unfold list_or_nil; cbn [sl]; rewrite ?lookup_insert, ?insert_insert; cbn [default from_option rev app]; now rewrite <- ?app_assoc.
      * intros rs [(xs & n & -> & X)|[_ X]]; [|discriminate X]. left. eexists (_ :: xs), n. split; [reflexivity|]. rewrite <- X. unfold r_nat, list_or_nil. cbn [sl with_sl]. rewrite lookup_insert. cbn [default from_option]. apply (f_equal (fun n => inl (RInt (Z.of_nat n)))). cbn [rev]. rewrite ?app_length. unfold id. cbn [length]. rewrite ?app_length. cbn [length]. lia.
  - intros s0 v v' l0 s1 r o0 H K. cbn [spec] in *. case_bool_decide as E.
    + injection H as -> ->. subst o0. cbn [errs]. eexists. split; [reflexivity|]. intros rs [(xs & n & _ & X)|[J _]]; [discriminate X|]. right. split; [now constructor|reflexivity].
    + injection H as -> ->. subst o0. cbn [says]. eexists. split.
      * unfold says. f_equal. apply f_equal2; [|reflexivity]. unfold with_sl. cbn [ss sl sh st]. f_equal; unfold list_or_nil; cbn [sl]; rewrite ?lookup_insert, ?insert_insert; cbn [default from_option app]; unfold id; now rewrite <- ?app_assoc.
      * intros rs [(xs & n & -> & X)|[_ X]]; [|discriminate X]. left. eexists (_ :: xs), n. split; [reflexivity|]. rewrite <- X. unfold r_nat, list_or_nil. cbn [sl with_sl]. rewrite lookup_insert. cbn [default from_option]. apply (f_equal (fun n => inl (RInt (Z.of_nat n)))). cbn [rev]. rewrite ?app_length. unfold id. cbn [length]. rewrite ?app_length. cbn [length]. lia.
Qed.
Lemma each_hmget k l s o : l <> [] -> specs s (map (fun f => CHmget k [f]) l) o -> match o with None => spec s (CHmget k l) None | Some (s', rs) => exists r, spec s (CHmget k l) (Some (s', r)) /\ j_arrays rs r end.
Proof.
  refine (by_steps (fun f => CHmget k [f]) (CHmget k) j_arrays _ _ l s o).
  - intros s0 f o0 H. cbn [spec] in H. subst o0. cbn. eexists. split; [reflexivity|]. eexists [_]. split; reflexivity.
  - intros s0 f f' l0 s1 r o0 H K. cbn [spec] in H, K. unfold says in H. injection H as -> ->. subst o0. cbn. eexists. split; [reflexivity|]. intros rs (xs & -> & E). injection E as <-. eexists (_ :: _). split; reflexivity.
Qed.
Lemma size_split (X Y : gset bytes) : size X = (size (X ∩ Y) + size (X ∖ Y))%nat.
Proof. rewrite <- size_union by set_solver. f_equal. apply set_eq. intros x. destruct (decide (x ∈ Y)); set_solver. Qed.
Lemma each_sadd k l s o : l <> [] -> specs s (map (fun v => CSadd k [v]) l) o -> match o with None => spec s (CSadd k l) None | Some (s', rs) => exists r, spec s (CSadd k l) (Some (s', r)) /\ j_total rs r end.
Proof.
  refine (by_steps (fun v => CSadd k [v]) (CSadd k) j_total _ _ l s o).
  - intros s0 v o0 H. cbn [spec] in *. case_bool_decide; subst o0; [reflexivity|]. cbn [says]. eexists. split; [reflexivity|]. now eapply j_total_one.
  - intros s0 v v' l0 s1 r o0 H K. cbn [spec] in *. case_bool_decide as E; [discriminate H|]. injection H as -> ->. subst o0. cbn [says]. eexists. split.
    + unfold says. f_equal. apply f_equal2; [|reflexivity]. cbn [with_st ss sl sh st]. unfold with_st. cbn [ss sl sh st]. f_equal. rewrite insert_insert. f_equal. unfold set_or_empty. cbn [st with_st]. rewrite lookup_insert. cbn [default from_option]. set_solver.
    + apply j_total_cons. unfold set_or_empty at 3. cbn [st with_st]. rewrite lookup_insert. cbn [default from_option]. rewrite (size_split _ (list_to_set [v])). f_equal; f_equal; set_solver.
Qed.
Lemma each_srem k l s o : l <> [] -> specs s (map (fun v => CSrem k [v]) l) o -> match o with None => spec s (CSrem k l) None | Some (s', rs) => exists r, spec s (CSrem k l) (Some (s', r)) /\ j_total rs r end.
Proof.
  refine (by_steps (fun v => CSrem k [v]) (CSrem k) j_total _ _ l s o).
  - intros s0 v o0 H. cbn [spec] in *. case_bool_decide; subst o0; [reflexivity|]. cbn [says]. eexists. split; [reflexivity|]. now eapply j_total_one.
  - intros s0 v v' l0 s1 r o0 H K. cbn [spec] in *. case_bool_decide as E; [discriminate H|]. injection H as -> ->. subst o0. cbn [says]. eexists. split.
    + unfold says. f_equal. apply f_equal2; [|reflexivity]. unfold with_st. cbn [ss sl sh st]. f_equal. rewrite insert_insert. f_equal. unfold set_or_empty. cbn [st with_st]. rewrite lookup_insert. cbn [default from_option]. set_solver.
    + apply j_total_cons. unfold set_or_empty at 3. cbn [st with_st]. rewrite lookup_insert. cbn [default from_option]. rewrite (size_split _ (list_to_set [v])). f_equal; f_equal; set_solver.
Qed.
Lemma each_hdel k l s o : l <> [] -> specs s (map (fun f => CHdel k [f]) l) o -> match o with None => spec s (CHdel k l) None | Some (s', rs) => exists r, spec s (CHdel k l) (Some (s', r)) /\ j_total rs r end.
Proof.
  refine (by_steps (fun f => CHdel k [f]) (CHdel k) j_total _ _ l s o).
  - intros s0 f o0 H. pose proof H as H0. cbn [spec] in H0. destruct (sh s0 !! k) as [h|].
    + destruct H0 as (h' & G & ->). cbn [says]. eexists. split; [exact H|]. now eapply j_total_one.
    + subst o0. cbn [says]. eexists. split; [exact H|]. now apply (j_total_one 0).
  - intros s0 f f' l0 s1 r o0 H K. cbn [spec] in *. destruct (sh s0 !! k) as [h|] eqn:E.
    + destruct H as (h1 & G & X). injection X as -> ->. cbn [with_sh sh] in K. rewrite lookup_insert in K. destruct K as (h2 & G2 & ->). cbn [says]. eexists. split.
      * exists h2. split; [|unfold says; f_equal; apply f_equal2; [unfold with_sh; cbn [ss sl sh st]; now rewrite insert_insert|reflexivity]].
        intros g. rewrite G2, G. repeat case_bool_decide; try reflexivity; exfalso; set_solver.
      * assert (D : dom h1 = dom h ∖ list_to_set [f]).
        { apply set_eq. intros g. rewrite elem_of_difference, !elem_of_dom, G, elem_of_list_to_set. case_bool_decide as F; split; intros W; try tauto; destruct W as [? W]; discriminate W. }
        rewrite D. apply j_total_cons. rewrite (size_split _ (list_to_set [f])). f_equal; f_equal; [set_solver|]. apply set_eq. intros x. destruct (decide (x = f)); set_solver.
    + injection H as -> ->. rewrite E in K. subst o0. cbn [says]. eexists. split; [reflexivity|]. now apply (j_total_cons 0 0 0).
Qed.
Lemma put_pairs_dom l : forall m : gmap bytes bytes, dom (put_pairs m l) = dom m ∪ list_to_set l.*1.
Proof. induction l as [|[k v] l IH]; intros m; cbn [put_pairs fmap list_fmap fst list_to_set]; [set_solver|]. rewrite IH, dom_insert_L. set_solver. Qed.
Lemma each_hset k l s o : l <> [] -> specs s (map (fun p => CHset k [fst p] [snd p]) l) o -> match o with None => spec s (CHset k l.*1 l.*2) None | Some (s', rs) => exists r, spec s (CHset k l.*1 l.*2) (Some (s', r)) /\ j_total rs r end.
Proof.
  refine (by_steps (fun p => CHset k [fst p] [snd p]) (fun l => CHset k l.*1 l.*2) j_total _ _ l s o).
  - intros s0 [f v] o0 H. cbn [spec fmap list_fmap fst snd] in *. case_bool_decide; subst; [reflexivity|]. cbv zeta in *. rewrite bool_decide_false in H by discriminate. subst o0. cbn [says]. eexists. split; [rewrite bool_decide_false by discriminate; reflexivity|]. now eapply j_total_one.
  - intros s0 [f v] [f' v'] l0 s1 r o0 H K. cbn [spec fmap list_fmap fst snd] in *. case_bool_decide as E; [discriminate H|]. cbv zeta in *. rewrite bool_decide_false in H, K by discriminate. injection H as -> ->. subst o0. cbn [says]. eexists. split.
    + rewrite bool_decide_false by discriminate. unfold says. f_equal. apply f_equal2; [|reflexivity]. unfold with_sh. cbn [ss sl sh st]. f_equal. rewrite insert_insert. f_equal. rewrite lookup_insert. cbn [default from_option zip zip_with put_pairs]. reflexivity.
    + apply j_total_cons. cbn [with_sh sh]. rewrite lookup_insert. cbn [default from_option zip zip_with put_pairs]. unfold id. rewrite dom_insert_L. rewrite (size_split _ (list_to_set [f])). f_equal; f_equal; set_solver.
Qed.

Lemma combine_zip (a b : list bytes) : combine a b = zip a b.
Proof. revert b. induction a as [|x a IH]; intros [|y b]; cbn; try reflexivity; now rewrite <- IH. Qed.
Lemma zip_snd (ks : list bytes) : forall vs : list bytes, length ks = length vs -> (zip ks vs).*2 = vs.
Proof. induction ks as [|k ks IH]; intros [|v vs] H; cbn in *; try discriminate; try reflexivity. now rewrite IH by lia. Qed.
Definition j_any (c : cmd) : list result -> result -> Prop :=
  match c with
  | CMset _ _ => j_oks | CMget _ => j_array | CHmget _ _ => j_arrays | CLpush _ _ | CRpush _ _ => j_push | _ => j_total
  end.
Lemma each_one c s o : cmd_wf c -> singly c <> [] -> specs s (singly c) o ->
  match o with None => spec s c None | Some (s', rs) => exists r, spec s c (Some (s', r)) /\ j_any c rs r end.
Proof.
  assert (M : forall A B (f : A -> B) l, map f l <> [] -> l <> []) by (intros A B f [|a l]; cbn; congruence).
  intros W N S. destruct c; cbn [singly] in N, S; try congruence; pose proof (M _ _ _ _ N) as N'; cbn [j_any].
  all: try (cbn [cmd_wf] in W; rewrite combine_zip in *).
  - pose proof (each_mset _ _ _ N' S) as R. rewrite zip_covers, zip_snd in R by exact W. exact R.
  - exact (each_mget _ _ _ N' S).
  - exact (each_exists _ _ _ N' S).
  - exact (each_push true _ _ _ _ N' S).
  - exact (each_push false _ _ _ _ N' S).
  - pose proof (each_hset _ _ _ _ N' S) as R. rewrite zip_covers, zip_snd in R by exact W. exact R.
  - exact (each_hmget _ _ _ _ N' S).
  - exact (each_hdel _ _ _ _ N' S).
  - exact (each_sadd _ _ _ _ N' S).
  - exact (each_srem _ _ _ _ N' S).
Qed.
Lemma texts_inl rs xs : Forall2 texts rs (map inl xs) -> rs = map Some xs.
Proof. revert rs. induction xs as [|x xs IH]; intros rs H; inversion H; subst; [reflexivity|]. match goal with K : texts _ _ |- _ => destruct K as (y & -> & <-) end. cbn. f_equal. auto. Qed.
Lemma texts_internal rs xs : Forall (eq (inr EInternal)) xs -> Forall2 texts rs xs -> exists ys, rs = map Some ys /\ Forall is_internal_error ys.
Proof.
  intros F. revert rs. induction F as [|x xs <- _ IH]; intros rs H; inversion H; subst; [exists []; split; [reflexivity|constructor]|].
  match goal with K : texts _ _ |- _ => destruct K as (y & -> & Y) end. match goal with K : Forall2 texts _ _ |- _ => destruct (IH _ K) as (ys & -> & I) end. exists (y :: ys). split; [reflexivity|now constructor].
Qed.
(* From results to replies. *)
Lemma each_joined c xs x rs : singly c <> [] -> j_any c xs x -> Forall2 texts rs xs ->
  exists ys, rs = map Some ys /\ (forall y, texts (Some y) x -> joined c ys y) /\ (forall y y', texts (Some y) x -> is_internal_error y' -> is_internal_error y -> joined c ys y').
Proof.
  intros N J T.
  assert (E : forall t y, t = inl y -> (forall t', y <> RErr t') -> forall ys, joined c ys y -> (forall y0, texts (Some y0) t -> joined c ys y0) /\ (forall y0 y', texts (Some y0) t -> is_internal_error y' -> is_internal_error y0 -> joined c ys y')).
  { intros t y -> Y ys Q. split; [intros y0 (z & Z1 & Z2); injection Z1 as <-; subst; exact Q|]. intros y0 y' (z & Z1 & Z2) _ [t0 W]. injection Z1 as <-. subst. destruct (Y _ eq_refl). }
  assert (P : j_total xs x -> counts c -> exists ys, rs = map Some ys /\ (forall y, texts (Some y) x -> joined c ys y) /\ (forall y y', texts (Some y) x -> is_internal_error y' -> is_internal_error y -> joined c ys y')).
  { intros (ns & -> & ->) Q. rewrite <- (map_map RInt inl) in T. apply texts_inl in T. subst. eexists. split; [reflexivity|]. eapply E; [reflexivity|discriminate|]. now apply j_sum. }
  assert (U : j_push xs x -> pushes c -> exists ys, rs = map Some ys /\ (forall y, texts (Some y) x -> joined c ys y) /\ (forall y y', texts (Some y) x -> is_internal_error y' -> is_internal_error y -> joined c ys y')).
  { intros [(zs & n & -> & ->)|[F ->]] Q.
    - change [inl (RInt n) : robj + cerr] with (map (@inl robj cerr) [RInt n]) in T. rewrite <- map_app in T. apply texts_inl in T. subst. eexists. split; [reflexivity|]. eapply E; [reflexivity|discriminate|]. now apply j_last.
    - destruct (texts_internal _ _ F T) as (ys & -> & I). exists ys. split; [reflexivity|]. split; [|intros; now apply j_refused]. intros y (z & Z1 & Z2). injection Z1 as <-. now apply j_refused. }
  destruct c; cbn [singly] in N; try congruence; cbn [j_any] in J; try (apply P; [exact J|exact I]); try (apply U; [exact J|exact I]).
  - destruct J as [F ->]. assert (Q : exists ys, xs = map inl ys /\ Forall (eq r_ok) ys). { clear - F. induction F as [|a l <- _ (ys & -> & IH)]; [exists []|exists (r_ok :: ys)]; split; try reflexivity; now constructor. }
    destruct Q as (ys & -> & Q). apply texts_inl in T. subst. exists ys. split; [reflexivity|]. eapply E; [reflexivity|discriminate|]. now constructor.
  - destruct J as (ys & -> & ->). apply texts_inl in T. subst. exists ys. split; [reflexivity|]. eapply E; [reflexivity|discriminate|]. constructor.
  - destruct J as (ys & -> & ->). rewrite <- (map_map (fun x => RArr [x]) inl) in T. apply texts_inl in T. subst. eexists. split; [reflexivity|]. eapply E; [reflexivity|discriminate|]. constructor.
Qed.
Lemma singly_not_pop q c : asks q c -> singly c <> [] -> ~ pops q.
Proof. intros A N P. unfold pops in P. destruct P as (k & n & cs & P). rewrite (asks_det _ _ _ A P) in N. cbn in N. congruence. Qed.
Theorem each_alike h d rs q c e m : Forall (fun x => env_ok (fst x)) (h ++ m) -> env_ok e ->
  requests_size (map snd h) + requests_size (map snd m) < 2 ^ 62 -> requests_size (map snd h) + request_size q < 2 ^ 62 ->
  run new_db h = Ret (d, rs) -> asks q c -> singly c <> [] -> Forall2 asks (map snd m) (singly c) ->
  match run d m, run d [(e, q)] with
  | Ret (d1, rs1), Ret (d2, rs2) => (exists s, db_rel d1 s /\ db_rel d2 s) /\ exists ys y, rs1 = map Some ys /\ rs2 = [Some y] /\ joined c ys y
  | Panic, Panic => True
  | _, _ => False
  end.
Proof.
  intros E He S S' H A N F. apply Forall_app in E as [E1 E2].
  assert (Sh : requests_size (map snd h) < 2 ^ 62) by (pose proof (requests_size_nonneg (map snd m)); lia).
  pose proof (run_refines h E1 Sh) as R0. rewrite H in R0. destruct R0 as (s & D & _).
  pose proof (goes_on _ _ _ _ _ E1 E2 S H D) as R.
  assert (R' : run_ok s [(e, q)] (run d [(e, q)])). { apply (goes_on h _ d rs); [exact E1|repeat constructor; exact He| |exact H|exact D]. cbn [map snd requests_size]. lia. }
  assert (P : Forall (fun q => ~ pops q) [q]) by (repeat constructor; eapply singly_not_pop; eauto). destruct (asks_wf _ _ A) as [W _].
  unfold run_ok in R, R'. cbn [map snd] in R'. destruct (run d m) as [[d1 rs1]| |]; try contradiction.
  - destruct R as (s1 & D1 & A1). destruct (answers_specs _ _ _ _ F A1) as ([[s2 xs]|] & Q & O); [|destruct O]. destruct O as [<- T]. pose proof (each_one _ _ _ W N Q) as K. cbn beta iota in K. destruct K as (x & K & J).
    destruct (each_joined _ _ _ _ N J T) as (ys & -> & JJ & JI).
    assert (Y : exists y, texts (Some y) x /\ answer s q (Some (s1, Some y))).
    { destruct x as [r|er]; [exists r; split; [exists r; auto|eapply a_reply; eauto]|]. assert (Z : exists y, error_text er y) by (destruct er; cbn; try (eexists; reflexivity); eexists; exists []; reflexivity). destruct Z as [y Z]. exists y. split; [exists y; auto|eapply a_error; eauto]. }
    destruct Y as (y & Y & Ay). assert (Al : answers s [q] (Some (s1, [Some y]))) by (eapply as_cons; [exact Ay|constructor]).
    destruct (run d [(e, q)]) as [[d2 rs2]| |]; try contradiction; [|exact (answers_alike _ P _ _ _ Al R')].
    destruct R' as (s2 & D2 & A2). destruct (answers_alike _ P _ _ _ Al A2) as [<- M]. split; [eauto|]. exists ys.
    inversion M as [|? ? ? ? ? ? M1 M2]; subst. inversion M2; subst. inversion M1 as [|?|c' ? r3 B1 B2|? r3 B1 B2]; subst.
    + exists y. split; [reflexivity|]. split; [reflexivity|]. auto.
    + rewrite <- (asks_det _ _ _ A B1) in B2. exists r3. split; [reflexivity|]. split; [reflexivity|]. destruct B2 as [<-|B2]; [auto|]. destruct c; cbn in N, B2; try congruence; destruct B2.
    + exists r3. split; [reflexivity|]. split; [reflexivity|]. eapply JI; eauto.
  - destruct (answers_specs _ _ _ _ F R) as ([[s2 xs]|] & Q & O); [destruct O|]. pose proof (each_one _ _ _ W N Q) as K. cbn beta iota in K.
    assert (Al : answers s [q] None) by (apply as_crash; eapply a_crash; eauto).
    destruct (run d [(e, q)]) as [[d2 rs2]| |]; try contradiction; [|exact I]. destruct R' as (s2 & D2 & A2). exact (answers_alike _ P _ _ _ Al A2).
Qed.
(* The parts can be requested. *)
Lemma asks_one (w : bytes) (args : list robj) (c : cmd) : spells w w -> call w args c -> asks (RArr (RBulk w :: args)) c.
Proof. intros W C. exists (RBulk w), w, w, args. split; [constructor|]. split; [constructor|]. auto. Qed.
Ltac spell := cbn; repeat (apply sp_same; [split; vm_compute; discriminate|]); apply sp_nil.
Lemma each_possible q c : asks q c -> exists qs, Forall2 asks qs (singly c).
Proof.
  intros _. assert (M : forall A (f : A -> cmd) l, (forall a, exists q, asks q (f a)) -> exists qs, Forall2 asks qs (map f l)).
  { intros A f l H. induction l as [|a l [qs IH]]; [exists []; constructor|]. destruct (H a) as [q' Q]. exists (q' :: qs). now constructor. }
  destruct c; cbn [singly]; try (exists []; constructor); apply M; intros a; eexists.
  - apply (asks_one (bs "set"%string)); [spell|]. apply (c_2 _ CSet (RBulk a.1) (RBulk a.2)); constructor.
  - apply (asks_one (bs "get"%string)); [spell|]. apply (c_1 _ CGet (RBulk a)); constructor.
  - apply (asks_one (bs "exists"%string)); [spell|]. apply (c_many _ CExists [RBulk a]); [constructor|repeat constructor|discriminate].
  - apply (asks_one (bs "lpush"%string)); [spell|]. apply (c_key_many _ CLpush (RBulk k) [RBulk a]); [constructor|constructor|repeat constructor|discriminate].
  - apply (asks_one (bs "rpush"%string)); [spell|]. apply (c_key_many _ CRpush (RBulk k) [RBulk a]); [constructor|constructor|repeat constructor|discriminate].
  - apply (asks_one (bs "hset"%string)); [spell|]. apply (c_hset (RBulk k) [RBulk a.1; RBulk a.2]); repeat constructor.
  - apply (asks_one (bs "hmget"%string)); [spell|]. apply (c_key_many _ CHmget (RBulk k) [RBulk a]); [constructor|constructor|repeat constructor|discriminate].
  - apply (asks_one (bs "hdel"%string)); [spell|]. apply (c_key_many _ CHdel (RBulk k) [RBulk a]); [constructor|constructor|repeat constructor|discriminate].
  - apply (asks_one (bs "sadd"%string)); [spell|]. apply (c_key_many _ CSadd (RBulk k) [RBulk a]); [constructor|constructor|repeat constructor|discriminate].
  - apply (asks_one (bs "srem"%string)); [spell|]. apply (c_key_many _ CSrem (RBulk k) [RBulk a]); [constructor|constructor|repeat constructor|discriminate].
Qed.
