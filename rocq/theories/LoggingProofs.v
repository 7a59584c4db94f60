From Coq Require Import ZArith List Ascii String Bool Lia.
From Verif Require Import Base BaseFacts Logging LoggingSpec.
Import ListNotations.
Local Open Scope nat_scope.

Lemma at_least_severity l m : at_least l m <-> (severity l <= severity m)%Z.
Proof.
  split.
  - intros (x & y & E & H). do 8 (destruct x as [|? x]; [cbn in E; inversion E; subst; cbn in H; intuition (subst; cbn; lia)|cbn in E; inversion E as [[E1 E2]]; clear E; rename E2 into E]; try discriminate; try (subst; cbn in *)).
    all: try (destruct x; discriminate).
  - intros H. destruct l; [exists []|exists [LDebug]|exists [LDebug; LInfo]|exists [LDebug; LInfo; LWarn]|exists [LDebug; LInfo; LWarn; LError]|exists [LDebug; LInfo; LWarn; LError; LDPanic]|exists [LDebug; LInfo; LWarn; LError; LDPanic; LPanic]];
      eexists; (split; [reflexivity|]); destruct m; cbn in *; try lia; intuition.
Qed.
Lemma enabled_at_least debug t m : enabled debug t m = true <-> at_least (min_level debug t) m.
Proof. rewrite at_least_severity. unfold enabled. apply Z.leb_le. Qed.

Lemma levels t l m : named t l -> l <> LDebug -> (enabled false t m = true <-> at_least l m).
Proof.
  intros N D. rewrite enabled_at_least. replace (min_level false t) with l; [reflexivity|].
  cbn in N. repeat destruct N as [N|N]; try contradiction; inversion N; subst; try reflexivity. congruence.
Qed.
Lemma others t m : (forall l, l <> LDebug -> ~ named t l) -> (enabled false t m = true <-> at_least LInfo m).
Proof.
  intros N. rewrite enabled_at_least. replace (min_level false t) with LInfo; [reflexivity|]. unfold min_level.
  repeat match goal with |- context [bytes_eqb t (bs ?s)] => destruct (bytes_eqb t (bs s)) eqn:?E end; try reflexivity;
    match goal with E : bytes_eqb t (bs ?s) = true |- _ => apply bytes_eqb_eq in E; exfalso; eapply N; [|unfold named; rewrite E; cbn; auto 10]; discriminate end.
Qed.
Lemma debugging t m : enabled true t m = true.
Proof. apply Z.leb_le. destruct m; cbn; lia. Qed.

Lemma sprintf_plain x t l : x <> "%"%char -> sprintf (x :: t) l = option_map (cons x) (sprintf t l).
Proof. intros N. destruct x as [[] [] [] [] [] [] [] []]; try reflexivity. exfalso. apply N. reflexivity. Qed.
Lemma sprintf_quoted b t l : sprintf (quoted b ++ t) l = option_map (app b) (sprintf t l).
Proof.
  induction b as [|x b IH]; cbn [quoted app]; [destruct (sprintf t l); reflexivity|].
  destruct (Ascii.eqb_spec x "%") as [->|N].
  - cbn [app]. change (option_map (fun r => bs "%" ++ r) (sprintf (quoted b ++ t) l) = option_map (app ("%"%char :: b)) (sprintf t l)). rewrite IH. destruct (sprintf t l); reflexivity.
  - cbn [app]. rewrite sprintf_plain by exact N. rewrite IH. destruct (sprintf t l); reflexivity.
Qed.
Lemma sprintf_hole t a l : sprintf (bs "%s" ++ t) (a :: l) = option_map (app (shown a)) (sprintf t l).
Proof. reflexivity. Qed.
Lemma sprintf_missing t : sprintf (bs "%s" ++ t) [] = option_map (app (bs "%!s(MISSING)")) (sprintf t []).
Proof. reflexivity. Qed.
Lemma sprintf_filled ps : forall args, holes ps = List.length args -> sprintf (template ps) (map AText args) = Some (filled ps args).
Proof.
  induction ps as [|[b|] ps IH]; intros args H; cbn [template flat_map].
  - destruct args; [reflexivity|discriminate].
  - rewrite sprintf_quoted. change (flat_map _ ps) with (template ps). rewrite IH by exact H. reflexivity.
  - destruct args as [|a args]; [discriminate|]. cbn [map]. change (flat_map _ ps) with (template ps). rewrite sprintf_hole, IH by (now inversion H). reflexivity.
Qed.
Lemma template_empty ps : template ps = [] -> holes ps = 0 /\ forall args, filled ps args = [].
Proof.
  induction ps as [|[b|] ps IH]; cbn [template flat_map]; intros E; [split; reflexivity| |discriminate].
  apply app_eq_nil in E as [E1 E2]. destruct (IH E2) as [I1 I2]. split; [exact I1|]. intros args. cbn. rewrite I2.
  destruct b as [|x b]; [reflexivity|]. cbn in E1. destruct (Ascii.eqb x "%"); discriminate.
Qed.
Theorem errors ps args : args <> [] -> holes ps = List.length args -> errorf (template ps) args = Some (filled ps args).
Proof.
  intros N H. unfold errorf, message. destruct args as [|a args]; [contradiction|]. cbn [map]. destruct (template ps) as [|x t] eqn:E.
  - destruct (template_empty _ E) as [Z _]. rewrite Z in H. discriminate.
  - rewrite <- E. exact (sprintf_filled ps (a :: args) H).
Qed.
Lemma quoted_plain b : ~ In "%"%char b -> quoted b = b.
Proof.
  induction b as [|x b IH]; intros N; [reflexivity|]. cbn. destruct (Ascii.eqb_spec x "%") as [->|_]; [exfalso; apply N; now left|]. rewrite IH; [reflexivity|]. intros H. apply N. now right.
Qed.
Theorem errors_plain b : ~ In "%"%char b -> errorf (template [Plain b]) [] = Some b.
Proof. intros N. unfold errorf, message. cbn. now rewrite app_nil_r, quoted_plain. Qed.
Lemma sprintf_marked ps : sprintf (template ps) [] = Some (marked ps).
Proof.
  induction ps as [|[b|] ps IH]; cbn [template flat_map]; [reflexivity| |]; change (flat_map _ ps) with (template ps).
  - now rewrite sprintf_quoted, IH.
  - now rewrite sprintf_missing, IH.
Qed.
Lemma sprintf_first ps a : holes ps <> 0 -> sprintf (template ps) [a] = Some (first_only ps (shown a)).
Proof.
  induction ps as [|[b|] ps IH]; cbn [template flat_map holes]; intros H; [contradiction| |]; change (flat_map _ ps) with (template ps).
  - now rewrite sprintf_quoted, IH.
  - now rewrite sprintf_hole, sprintf_marked.
Qed.
Theorem infos ps args : holes ps <> 0 -> infof (template ps) args = Some (first_only ps (brackets args)).
Proof.
  intros H. unfold infof, message. destruct (template ps) as [|x t] eqn:E; [destruct (template_empty _ E); contradiction|]. rewrite <- E. now apply sprintf_first.
Qed.
Lemma sprintf_extra ps a : holes ps = 0 -> sprintf (template ps) [a] = Some (filled ps [] ++ extra [a]).
Proof.
  induction ps as [|[b|] ps IH]; cbn [template flat_map holes]; intros H; [reflexivity| |discriminate]; change (flat_map _ ps) with (template ps).
  rewrite sprintf_quoted, IH by exact H. cbn. now rewrite app_assoc.
Qed.
Lemma brackets_long l : (List.length (brackets l) = 2 + List.length (spaced l))%nat.
Proof. unfold brackets. rewrite !app_length. cbn. lia. Qed.
Lemma first_marked_long ps : (List.length (filled ps []) <= List.length (marked ps))%nat.
Proof. induction ps as [|[b|] ps IH]; cbn [filled marked]; rewrite ?app_length; lia. Qed.
(* no message with an argument that fits its template comes out right *)
Theorem infos_wrong ps args : args <> [] -> holes ps = List.length args -> infof (template ps) args <> Some (filled ps args).
Proof.
  intros N H. rewrite infos by (destruct args; [contradiction|rewrite H; discriminate]). intros E. assert (E' : first_only ps (brackets args) = filled ps args) by congruence. clear E.
  apply (f_equal (@List.length ascii)) in E'. revert E'.
  assert (L : forall qs xs, holes qs = List.length xs -> (List.length (filled qs xs) <= List.length (marked qs) + List.length (spaced xs))%nat).
  { induction qs as [|[b|] qs IH]; intros xs Hx; cbn [filled marked holes] in *.
    - lia.
    - rewrite !app_length. specialize (IH xs Hx). lia.
    - destruct xs as [|x xs]; [discriminate|]. rewrite !app_length. specialize (IH xs ltac:(now inversion Hx)).
      assert (List.length x + List.length (spaced xs) <= List.length (spaced (x :: xs)))%nat by (destruct xs; cbn [spaced]; rewrite ?app_length; cbn; lia). lia. }
  intros E. revert N H E. induction ps as [|[b|] ps IH]; cbn [first_only filled holes]; intros N H E.
  - destruct args; [contradiction|discriminate].
  - rewrite !app_length in E. apply IH; auto. lia.
  - destruct args as [|a args]; [discriminate|]. rewrite !app_length in E. rewrite brackets_long in E. specialize (L ps args ltac:(now inversion H)).
    assert (List.length a + List.length (spaced args) <= List.length (spaced (a :: args)))%nat by (destruct args; cbn [spaced]; rewrite ?app_length; cbn; lia). lia.
Qed.

Lemma brackets_listed l : brackets l = listed l.
Proof.
  unfold brackets, listed. do 2 f_equal. destruct l as [|b l]; [reflexivity|]. revert b. induction l as [|x l IH]; intros b; [cbn; now rewrite app_nil_r|].
  change (spaced (b :: x :: l)) with (b ++ bs " " ++ spaced (x :: l)). rewrite IH. reflexivity.
Qed.

(* Messages whose arguments do not fit their template. *)
Lemma extra_unused l : l <> [] -> extra (map AText l) = unused l.
Proof.
  intros N. destruct l as [|b l]; [contradiction|]. unfold extra, unused. cbn [map]. f_equal. f_equal. clear N. revert b.
  induction l as [|x l IH]; intros b; [cbn; now rewrite app_nil_r|].
  change (commas (typed (AText b) :: map typed (map AText (x :: l)))) with (typed (AText b) ++ bs ", " ++ commas (typed (AText x) :: map typed (map AText l))). rewrite IH. reflexivity.
Qed.
Lemma sprintf_more ps : forall args more, holes ps = List.length args -> more <> [] -> sprintf (template ps) (map AText (args ++ more)) = Some (filled ps args ++ unused more).
Proof.
  induction ps as [|[b|] ps IH]; intros args more H N; cbn [template flat_map holes] in *; try change (flat_map _ ps) with (template ps).
  - destruct args; [|discriminate]. cbn [app sprintf filled]. now rewrite extra_unused.
  - rewrite sprintf_quoted, IH by assumption. cbn. now rewrite app_assoc.
  - destruct args as [|a args]; [discriminate|]. cbn [map app]. rewrite sprintf_hole, IH by (assumption || now inversion H). cbn. now rewrite app_assoc.
Qed.
Theorem errors_more ps args more : template ps <> [] -> holes ps = List.length args -> more <> [] ->
  errorf (template ps) (args ++ more) = Some (filled ps args ++ unused more).
Proof.
  intros T H N. unfold errorf, message. destruct (map AText (args ++ more)) as [|x l] eqn:E; [apply map_eq_nil, app_eq_nil in E as [_ E]; contradiction|].
  rewrite <- E. destruct (template ps) as [|y t] eqn:Et; [contradiction|]. rewrite <- Et. now apply sprintf_more.
Qed.
Lemma partly_marked ps : partly ps [] = marked ps.
Proof. induction ps as [|[b|] ps IH]; cbn; [reflexivity| |]; now rewrite IH. Qed.
Lemma sprintf_fewer ps : forall args, List.length args <= holes ps -> sprintf (template ps) (map AText args) = Some (partly ps args).
Proof.
  induction ps as [|[b|] ps IH]; intros args H; cbn [template flat_map holes] in *; try change (flat_map _ ps) with (template ps).
  - destruct args; [reflexivity|cbn in H; lia].
  - rewrite sprintf_quoted, IH by assumption. reflexivity.
  - destruct args as [|a args]; [cbn [map]; rewrite sprintf_missing, sprintf_marked; cbn [partly]; now rewrite partly_marked|].
    cbn [map]. rewrite sprintf_hole, IH by (cbn in H; lia). reflexivity.
Qed.
Theorem errors_fewer ps args : args <> [] -> List.length args <= holes ps -> errorf (template ps) args = Some (partly ps args).
Proof.
  intros N H. unfold errorf, message. destruct args as [|a args]; [contradiction|]. cbn [map]. destruct (template ps) as [|x t] eqn:E.
  - destruct (template_empty _ E) as [Z _]. cbn in H. lia.
  - rewrite <- E. exact (sprintf_fewer ps (a :: args) H).
Qed.
Theorem infos_none ps args : template ps <> [] -> holes ps = 0 ->
  infof (template ps) args = Some (filled ps [] ++ bs "%!(EXTRA []interface {}=" ++ listed args ++ bs ")").
Proof.
  intros T H. unfold infof, message. destruct (template ps) as [|x t] eqn:E; [contradiction|]. rewrite <- E, sprintf_extra by exact H.
  unfold extra. cbn [map commas typed]. rewrite brackets_listed, <- !app_assoc. reflexivity.
Qed.
