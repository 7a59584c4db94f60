From Verif Require Import Base BaseFacts IndexSpec UtilIndex.
From Coq Require Import ZArith List Ascii Bool Lia ZifyBool.
Import ListNotations.
Open Scope Z_scope.

(* ---- specifications ---- *)
Lemma resolve_raw_pos i size : int64_ok i -> 0 <= size < 2 ^ 63 -> resolve_raw i size = position i size.
Proof.
  unfold resolve_raw, position, int64_ok. intros. destruct (i <? 0) eqn:E; auto.
  rewrite wrap64_id; unfold int64_ok; lia.
Qed.

Lemma resolve_spec i size : int64_ok i -> 0 <= size < 2 ^ 63 ->
  resolve i size = (if (0 <=? position i size) && (position i size <? size) then position i size else -1).
Proof.
  intros Hi Hs. unfold resolve. rewrite resolve_raw_pos by auto.
  destruct (_ || _) eqn:E1, (_ && _) eqn:E2; auto; lia.
Qed.

Lemma slice_resolve_spec l r size : int64_ok l -> int64_ok r -> 0 <= size < 2 ^ 63 ->
  let a := position l size in let b := position r size in
  ((0 <= a /\ a < size /\ a <= b) -> slice_resolve l r size = (a, Z.min b (size - 1))) /\
  (~ (0 <= a /\ a < size /\ a <= b) -> slice_resolve l r size = (-1, -1)).
Proof.
  intros Hl Hr Hs a b. unfold slice_resolve. rewrite !resolve_raw_pos by auto. fold a b. clearbody a b.
  split; intros H; destruct (_ || _ || _ || _) eqn:E; try lia; auto.
  f_equal. destruct (size <=? b) eqn:E2; lia.
Qed.

(* ---- LexicalCompare ---- *)
Lemma lexical_loop_None l : forall r idx, lexical_loop idx l r = None ->
  (exists x, r = l ++ x) \/ (exists x, l = r ++ x).
Proof.
  induction l as [|a l IH]; intros r idx H; [left; exists r; reflexivity|].
  destruct r as [|b r]; [right; exists (a :: l); reflexivity|]. simpl in H.
  destruct (byteZ a <? byteZ b) eqn:E1; [discriminate|].
  destruct (byteZ b <? byteZ a) eqn:E2; [discriminate|].
  assert (a = b) as -> by (apply byteZ_inj; lia).
  apply IH in H as [[x ->]|[x ->]]; [left|right]; exists x; reflexivity.
Qed.

Lemma lexical_loop_Some l : forall r idx v, 0 <= idx -> lexical_loop idx l r = Some v ->
  (v < 0 /\ lex_lt l r) \/ (0 < v /\ lex_lt r l).
Proof.
  induction l as [|a l IH]; intros [|b r] idx v Hi H; simpl in H; try discriminate.
  destruct (byteZ a <? byteZ b) eqn:E1.
  { injection H as <-. left. split; [lia|]. constructor. lia. }
  destruct (byteZ b <? byteZ a) eqn:E2.
  { injection H as <-. right. split; [lia|]. constructor. lia. }
  assert (a = b) as -> by (apply byteZ_inj; lia).
  apply IH in H as [[? ?]|[? ?]]; [left|right|lia]; split; auto; apply lex_tail; auto.
Qed.

Lemma lexical_loop_app l : forall x idx, lexical_loop idx l (l ++ x) = None /\ lexical_loop idx (l ++ x) l = None.
Proof.
  induction l as [|a l IH]; intros x idx; simpl.
  - destruct x; auto.
  - rewrite Z.ltb_irrefl. auto.
Qed.

Lemma lex_lt_app l c x : lex_lt l (l ++ c :: x).
Proof. induction l; [apply lex_nil|apply lex_tail; auto]. Qed.

Lemma lex_lt_irrefl l : ~ lex_lt l l.
Proof. induction l; intros H; inversion H; subst; auto. lia. Qed.

Lemma lex_lt_trans a : forall b c, lex_lt a b -> lex_lt b c -> lex_lt a c.
Proof.
  induction a as [|x a IH]; intros b c H1 H2; inversion H1; subst; inversion H2; subst;
    first [apply lex_nil | apply lex_head; lia | apply lex_tail; eapply IH; eassumption].
Qed.

Lemma lex_trichotomy a : forall b, lex_lt a b \/ a = b \/ lex_lt b a.
Proof.
  induction a as [|x a IH]; intros [|y b]; auto using lex_lt.
  destruct (Z.lt_trichotomy (byteZ x) (byteZ y)) as [H|[H|H]]; auto using lex_lt.
  apply byteZ_inj in H as ->. destruct (IH b) as [H|[->|H]]; auto using lex_lt.
Qed.

(* Exact behaviour: right on all pairs except when exactly one side is empty. *)
Theorem lexical_compare_spec l r :
  (l = [] <-> r = []) ->
  (lexical_compare l r < 0 <-> lex_lt l r) /\
  (lexical_compare l r = 0 <-> l = r) /\
  (0 < lexical_compare l r <-> lex_lt r l).
Proof.
  intros Hne.
  assert (H : (lexical_compare l r < 0 /\ lex_lt l r) \/ (lexical_compare l r = 0 /\ l = r) \/
              (0 < lexical_compare l r /\ lex_lt r l)).
  { unfold lexical_compare. destruct (lexical_loop 0 l r) as [v|] eqn:E.
    - apply lexical_loop_Some in E as [?|?]; auto; lia.
    - apply lexical_loop_None in E as [[x ->]|[x ->]]; rewrite blen_app.
      + destruct x as [|c x]. { right. left. rewrite app_nil_r. split; auto. rewrite Z.add_0_r, Z.eqb_refl. auto. }
        left. rewrite blen_cons. pose proof (blen_nonneg x).
        destruct (_ =? _) eqn:E1; [lia|]. destruct (_ <? _) eqn:E2; [|lia].
        split; [|apply lex_lt_app].
        destruct l as [|c' l]; [|rewrite blen_cons; pose proof (blen_nonneg l); lia].
        exfalso. destruct Hne as [Hne _]. specialize (Hne eq_refl). discriminate.
      + destruct x as [|c x]. { right. left. rewrite app_nil_r. split; auto. rewrite Z.add_0_r, Z.eqb_refl. auto. }
        right. right. rewrite blen_cons. pose proof (blen_nonneg x).
        destruct (_ =? _) eqn:E1; [lia|]. destruct (_ <? _) eqn:E2; [lia|].
        split; [|apply lex_lt_app].
        destruct r as [|c' r]; [|rewrite blen_cons; pose proof (blen_nonneg r); lia].
        exfalso. destruct Hne as [_ Hne]. specialize (Hne eq_refl). discriminate. }
  assert (N1 : ~ (lex_lt l r /\ lex_lt r l)) by (intros [A B]; eapply lex_lt_irrefl, lex_lt_trans; eauto).
  assert (N2 : ~ (lex_lt l r /\ l = r)) by (intros [A ->]; eapply lex_lt_irrefl; eauto).
  assert (N3 : ~ (lex_lt r l /\ l = r)) by (intros [A ->]; eapply lex_lt_irrefl; eauto).
  destruct H as [[A B]|[[A B]|[A B]]]; split; [|split| |split| |split]; split; intros;
    try lia; try tauto; exfalso; tauto.
Qed.

(* Magnitude: the 1-based position of the first difference. *)
Theorem lexical_compare_position a x y p q : byteZ x < byteZ y ->
  lexical_compare (a ++ x :: p) (a ++ y :: q) = - (blen a + 1) /\
  lexical_compare (a ++ y :: q) (a ++ x :: p) = blen a + 1.
Proof.
  intros H. unfold lexical_compare.
  assert (G : forall idx, lexical_loop idx (a ++ x :: p) (a ++ y :: q) = Some (- (idx + blen a) - 1) /\
    lexical_loop idx (a ++ y :: q) (a ++ x :: p) = Some (idx + blen a + 1)).
  { induction a as [|c a IH]; intros idx; simpl.
    - destruct (byteZ x <? byteZ y) eqn:E; [|lia]. destruct (byteZ y <? byteZ x) eqn:E2; [lia|].
      change (blen []) with 0. split; f_equal; lia.
    - rewrite Z.ltb_irrefl. destruct (IH (idx + 1)) as [-> ->]. rewrite blen_cons. split; f_equal; lia. }
  destruct (G 0) as [-> ->]. lia.
Qed.

(* ---- Pipeline ---- *)
Section PipelineProofs.
  Variables C Er : Type.
  Notation handler := (C -> C * option Er).

  (* [feeds hs ctx tr out]: running all of [hs] without error from [ctx] gives the
     successive inputs [tr] and the final context [out]. *)
  Inductive feeds : list handler -> C -> list C -> C -> Prop :=
  | feeds_nil c : feeds [] c [] c
  | feeds_cons (h : handler) hs c c' tr out :
      h c = (c', None) -> feeds hs c' tr out -> feeds (h :: hs) c (c :: tr) out.

  Theorem pipeline_spec (hs : list handler) ctx :
    (exists tr out, feeds hs ctx tr out /\ run_pipeline hs ctx = ((out, None), tr)) \/
    (exists pre h post tr mid out e, hs = pre ++ h :: post /\ feeds pre ctx tr mid /\
       h mid = (out, Some e) /\ run_pipeline hs ctx = ((out, Some e), tr ++ [mid])).
  Proof.
    revert ctx. induction hs as [|h hs IH]; intros ctx.
    - left. exists [], ctx. split; [constructor|reflexivity].
    - simpl. destruct (h ctx) as [c' [e|]] eqn:E.
      + right. exists [], h, hs, [], ctx, c', e. repeat split; auto. constructor.
      + destruct (IH c') as [(tr & out & Hf & ->)|(pre & h' & post & tr & mid & out & e & -> & Hf & Hh & ->)].
        * left. exists (ctx :: tr), out. split; auto. econstructor; eauto.
        * right. exists (h :: pre), h', post, (ctx :: tr), mid, out, e. repeat split; auto. econstructor; eauto.
  Qed.
End PipelineProofs.
