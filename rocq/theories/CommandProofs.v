(* Command parsing agrees with the grammar of RequestSpec.v. *)
From Verif Require Import Base BaseFacts IntSpec IntParse IntParseProofs Resp Command SpecDb RequestSpec.
From Coq Require Import ZArith List Ascii String Bool Lia.
From stdpp Require Import gmap.
Open Scope Z_scope.

Definition lower_word (w : bytes) : Prop := Forall (fun c => 97 <= byteZ c <= 122) w.

Lemma lower_byte_low c : 97 <= byteZ c <= 122 -> lower_byte c = c.
Proof. intros H. unfold lower_byte. destruct (_ && _) eqn:E; [lia|reflexivity]. Qed.

Lemma to_lower_ascii c s : byteZ c < 128 -> to_lower (c :: s) = lower_byte c :: to_lower s.
Proof.
  intros H. cbn [to_lower]. destruct s as [|c2 s]; [reflexivity|].
  destruct ((byteZ c =? 196) && (byteZ c2 =? 176)) eqn:E; [lia|].
  destruct s as [|c3 s]; [reflexivity|].
  destruct ((byteZ c =? 226) && (byteZ c2 =? 132) && (byteZ c3 =? 170)) eqn:E2; [lia|]. reflexivity.
Qed.

Lemma spells_lower s w : spells s w -> to_lower s = w.
Proof.
  induction 1 as [|c s w Hc _ IH|c l s w Hl Hc _ IH|c1 c2 s w H1 H2 _ IH|c1 c2 c3 s w H1 H2 H3 _ IH].
  - reflexivity.
  - rewrite to_lower_ascii, lower_byte_low, IH by lia. reflexivity.
  - rewrite to_lower_ascii, IH by lia. f_equal. unfold lower_byte. destruct (_ && _) eqn:E; [|lia].
    apply byteZ_inj. rewrite byteZ_byteOf by lia. lia.
  - cbn [to_lower]. rewrite H1, H2. change ((196 =? 196) && (176 =? 176)) with true. cbv iota. now rewrite IH.
  - cbn [to_lower]. rewrite H1, H2, H3. change ((226 =? 196) && (132 =? 176)) with false.
    change ((226 =? 226) && (132 =? 132) && (170 =? 170)) with true. cbv iota. now rewrite IH.
Qed.

Lemma lower_spells_n n : forall s, (length s <= n)%nat -> lower_word (to_lower s) -> spells s (to_lower s).
Proof.
  induction n as [|n IH]; intros s Hl Hw.
  { destruct s; [constructor|cbn in Hl; lia]. }
  destruct s as [|c s1]; [constructor|]. cbn [length] in Hl.
  assert (Hplain : to_lower (c :: s1) = lower_byte c :: to_lower s1 -> spells (c :: s1) (to_lower (c :: s1))).
  { intros E. rewrite E in *. inversion Hw as [|? ? Hc Hw']; subst. pose proof (byteZ_range c) as Rc.
    specialize (IH s1 ltac:(lia) Hw'). unfold lower_byte in *. destruct ((65 <=? byteZ c) && (byteZ c <=? 90)) eqn:Ec.
    - rewrite byteZ_byteOf in Hc by lia. apply sp_upper; auto; rewrite byteZ_byteOf; lia.
    - now apply sp_same. }
  destruct s1 as [|c2 s2]; [apply Hplain; reflexivity|].
  destruct ((byteZ c =? 196) && (byteZ c2 =? 176)) eqn:E1.
  { cbn [to_lower] in *. rewrite E1 in *. inversion Hw; subst. cbn [length] in Hl. apply sp_dotted; try lia. apply IH; [lia|auto]. }
  destruct s2 as [|c3 s3]; [apply Hplain; cbn [to_lower]; now rewrite E1|].
  destruct ((byteZ c =? 226) && (byteZ c2 =? 132) && (byteZ c3 =? 170)) eqn:E2.
  { remember (to_lower (c :: c2 :: c3 :: s3)) as t eqn:Et. cbn [to_lower] in Et. rewrite E1, E2 in Et. subst t.
    inversion Hw; subst. cbn [length] in Hl. apply sp_kelvin; try lia. apply IH; [lia|auto]. }
  apply Hplain. remember (to_lower (c2 :: c3 :: s3)) as t. cbn [to_lower]. rewrite E1, E2. now subst t.
Qed.
Lemma lower_spells s w : lower_word w -> to_lower s = w -> spells s w.
Proof. intros Hw <-. eapply lower_spells_n; eauto. Qed.

Lemma lower_word_check w : forallb (fun c => (97 <=? byteZ c) && (byteZ c <=? 122)) w = true -> lower_word w.
Proof.
  intros H. apply Forall_forall. intros c Hc. rewrite forallb_forall in H. apply elem_of_list_In, H in Hc. lia.
Qed.

Lemma str_arg_spec o d : str_arg o = Some d <-> is_str o d.
Proof.
  split.
  - destruct o; cbn; intros [= <-]; constructor.
  - now intros [].
Qed.
Lemma str_arg_none o : str_arg o = None -> forall d, ~ is_str o d.
Proof. intros H d Hd. apply str_arg_spec in Hd. congruence. Qed.

Lemma str_args_spec l : forall ds, str_args l = Some ds <-> are_strs l ds.
Proof.
  induction l as [|o l IH]; intros ds; cbn [str_args].
  - split; [intros [= <-]; constructor|]. now inversion 1.
  - split.
    + destruct (str_arg o) eqn:E; [|discriminate]. destruct (str_args l) eqn:E2; [|discriminate].
      intros [= <-]. constructor; [now apply str_arg_spec|now apply IH].
    + inversion 1 as [|? d ? ds' H1 H2]; subst. apply str_arg_spec in H1. apply IH in H2. now rewrite H1, H2.
Qed.

Lemma int_arg_spec o n : int_arg o = Some n <-> is_num o n.
Proof.
  unfold int_arg, is_num. split.
  - destruct (str_arg o) as [t|] eqn:E; [|discriminate]. intros H. exists t. split; [now apply str_arg_spec|now apply parse_int_spec].
  - intros (t & H1 & H2). apply str_arg_spec in H1. rewrite H1. now apply parse_int_spec.
Qed.

Lemma pair_args_spec_n n : forall l, (length l <= n)%nat -> forall ks vs, pair_args l = Some (ks, vs) <-> are_pairs l ks vs.
Proof.
  induction n as [|n IH]; intros l Hl ks vs.
  { destruct l; [|cbn in Hl; lia]. cbn. split; [intros [= <- <-]; constructor|now inversion 1]. }
  destruct l as [|a [|b l]]; cbn [pair_args].
  - split; [intros [= <- <-]; constructor|now inversion 1].
  - split; [discriminate|now inversion 1].
  - cbn [length] in Hl. split.
    + destruct (str_arg a) eqn:Ea; [|discriminate]. destruct (str_arg b) eqn:Eb; [|discriminate].
      destruct (pair_args l) as [[ks' vs']|] eqn:E; [|discriminate]. intros [= <- <-].
      constructor; [now apply str_arg_spec|now apply str_arg_spec|apply IH; [lia|auto]].
    + inversion 1 as [|? ? k v ? ks' vs' H1 H2 H3]; subst. apply str_arg_spec in H1, H2. apply IH in H3; [|lia]. now rewrite H1, H2, H3.
Qed.
Lemma pair_args_spec l ks vs : pair_args l = Some (ks, vs) <-> are_pairs l ks vs.
Proof. eapply pair_args_spec_n; eauto. Qed.

(* ---- the table ---- *)
Lemma find_listed w (l : list (bytes * (list robj -> option cmd))) : (exists f, find_name w l = Some f) <-> w ∈ map fst l.
Proof.
  induction l as [|[m a] l IH]; cbn [find_name map fst]; [split; [now intros [? ?]|now intros ?%elem_of_nil]|].
  destruct (bytes_eqb w m) eqn:E.
  - apply bytes_eqb_eq in E as ->. split; [left|eauto].
  - rewrite IH, elem_of_cons. split; [auto|]. intros [->|H]; [|auto].
    assert (bytes_eqb m m = true) by now apply bytes_eqb_eq. congruence.
Qed.
Lemma listed_check (l l' : list bytes) : forallb (fun x => existsb (bytes_eqb x) l') l = true -> forall w, w ∈ l -> w ∈ l'.
Proof.
  rewrite forallb_forall. intros H w Hw. apply elem_of_list_In in Hw. apply H, existsb_exists in Hw as (x & Hx & E).
  apply bytes_eqb_eq in E as ->. now apply elem_of_list_In.
Qed.
Lemma assoc_words w : (exists f, find_name w key_map = Some f) <-> w ∈ command_words.
Proof. rewrite find_listed. split; apply listed_check; vm_compute; reflexivity. Qed.

Lemma words_lower w : w ∈ command_words -> lower_word w.
Proof.
  intros H. unfold command_words in H. cbn [map] in H.
  repeat (apply elem_of_cons in H as [->|H]; [apply lower_word_check; vm_compute; reflexivity|]). now apply elem_of_nil in H.
Qed.

Ltac args_to_bool :=
  repeat match goal with
  | H : is_str _ _ |- _ => apply str_arg_spec in H
  | H : are_strs _ _ |- _ => apply str_args_spec in H
  | H : is_num _ _ |- _ => apply int_arg_spec in H
  | H : are_pairs _ _ _ |- _ => apply pair_args_spec in H
  | H : spells _ _ |- _ => apply spells_lower in H
  end.

Lemma call_parse w args c : call w args c -> exists f, find_name w key_map = Some f /\ f args = Some c.
Proof.
  intros H. destruct H; args_to_bool;
    repeat match goal with
    | H : takes1 _ _ |- _ => destruct H | H : takes2 _ _ |- _ => destruct H | H : takes_many _ _ |- _ => destruct H
    | H : takes_key_many _ _ |- _ => destruct H | H : takes_range _ _ |- _ => destruct H
    | H : takes_int_str _ _ |- _ => destruct H | H : takes_count _ _ |- _ => destruct H
    end;
    (eexists; split; [reflexivity|]);
    try (unfold parse1, parse2, parse_range, parse_key_int_str, parse_pop, parse_key_int, parse_mset, parse_hset, parse_incr1, parse_incr;
      repeat match goal with H : _ = Some _ |- _ => rewrite H end; reflexivity).
  all: try (unfold parse_many; destruct l; [congruence|]; rewrite H0; reflexivity).
  all: try (unfold parse_key_many; destruct l; [congruence|]; cbn [tl]; rewrite H0, H1; reflexivity).
  all: unfold parse_linsert; repeat match goal with H : _ = Some _ |- _ => rewrite H end; rewrite H1; reflexivity.
Qed.

Ltac inv_args :=
  repeat match goal with
  | H : context [match str_arg ?a with _ => _ end] |- _ => let E := fresh "E" in destruct (str_arg a) eqn:E; [apply str_arg_spec in E|discriminate H]
  | H : context [match str_args ?a with _ => _ end] |- _ => let E := fresh "E" in destruct (str_args a) eqn:E; [apply str_args_spec in E|discriminate H]
  | H : context [match int_arg ?a with _ => _ end] |- _ => let E := fresh "E" in destruct (int_arg a) eqn:E; [apply int_arg_spec in E|discriminate H]
  | H : context [match pair_args ?a with _ => _ end] |- _ => let E := fresh "E" in destruct (pair_args a) as [[? ?]|] eqn:E; [apply pair_args_spec in E|discriminate H]
  end.

Lemma parse1_inv f l c : parse1 f l = Some c -> exists a k, l = [a] /\ is_str a k /\ c = f k.
Proof. unfold parse1. destruct l as [|a [|]]; try discriminate. intros H. inv_args. injection H as <-. eauto. Qed.
Lemma parse2_inv f l c : parse2 f l = Some c -> exists a b k v, l = [a; b] /\ is_str a k /\ is_str b v /\ c = f k v.
Proof. unfold parse2. destruct l as [|a [|b [|]]]; try discriminate. intros H. inv_args. injection H as <-. eauto 10. Qed.
Lemma parse_many_inv f l c : parse_many f l = Some c -> exists ks, are_strs l ks /\ l <> [] /\ c = f ks.
Proof. unfold parse_many. destruct l as [|a l]; try discriminate. intros H. inv_args. injection H as <-. eexists. split; [eauto|]. split; [discriminate|auto]. Qed.
Lemma parse_key_many_inv f l c : parse_key_many f l = Some c ->
  exists a l' k vs, l = a :: l' /\ is_str a k /\ are_strs l' vs /\ l' <> [] /\ c = f k vs.
Proof.
  unfold parse_key_many. destruct l as [|a [|b l]]; try discriminate. cbn [tl]. intros H. inv_args. injection H as <-.
  eexists _, _, _, _. split; [reflexivity|]. split; [eauto|]. split; [eauto|]. split; [discriminate|auto].
Qed.
Lemma parse_range_inv f l c : parse_range f l = Some c ->
  exists a x y k i j, l = [a; x; y] /\ is_str a k /\ is_num x i /\ is_num y j /\ c = f k i j.
Proof. unfold parse_range. destruct l as [|a [|x [|y [|]]]]; try discriminate. intros H. inv_args. injection H as <-. eauto 12. Qed.
Lemma parse_key_int_str_inv f l c : parse_key_int_str f l = Some c ->
  exists a x y k i v, l = [a; x; y] /\ is_str a k /\ is_num x i /\ is_str y v /\ c = f k i v.
Proof. unfold parse_key_int_str. destruct l as [|a [|x [|y [|]]]]; try discriminate. intros H. inv_args. injection H as <-. eauto 12. Qed.
Lemma parse_key_int_inv f l c : parse_key_int f l = Some c ->
  exists a x k i, l = [a; x] /\ is_str a k /\ is_num x i /\ c = f k i.
Proof. unfold parse_key_int. destruct l as [|a [|x [|]]]; try discriminate. intros H. inv_args. injection H as <-. eauto 12. Qed.
Lemma parse_pop_inv f l c : parse_pop f l = Some c ->
  (exists a k, l = [a] /\ is_str a k /\ c = f k 1 false) \/
  (exists a x k n, l = [a; x] /\ is_str a k /\ is_num x n /\ c = f k n true).
Proof.
  unfold parse_pop. destruct l as [|a [|x [|]]]; try discriminate; intros H; inv_args; injection H as <-; [left|right]; eauto 12.
Qed.
Lemma parse_incr_inv f l c : parse_incr f l = Some c ->
  (exists a k, l = [a] /\ is_str a k /\ c = f k (bs "1")) \/
  (exists a x k n, l = [a; x] /\ is_str a k /\ is_str x n /\ c = f k n).
Proof.
  unfold parse_incr. destruct l as [|a [|x [|]]]; try discriminate; intros H; inv_args; injection H as <-; [left|right]; eauto 12.
Qed.
Lemma parse_incr1_inv f l c : parse_incr1 f l = Some c -> exists a l' k, l = a :: l' /\ is_str a k /\ c = f k (bs "1").
Proof.
  unfold parse_incr1. destruct l as [|a l']; [discriminate|]. cbn [parse_incr]. intros H. inv_args. injection H as <-. eauto 10.
Qed.

Lemma before_low : lower_word (bs "before"). Proof. apply lower_word_check. reflexivity. Qed.
Lemma after_low : lower_word (bs "after"). Proof. apply lower_word_check. reflexivity. Qed.

Lemma parse_call w args f c : find_name w key_map = Some f -> f args = Some c -> call w args c.
Proof.
  intros Hf Hc. assert (Hw : w ∈ command_words) by (apply assoc_words; eauto).
  unfold command_words in Hw. cbn [map] in Hw.
  repeat (apply elem_of_cons in Hw as [->|Hw];
    [change (Some f) with (Some f) in Hf; cbv [find_name key_map bytes_eqb byte_eqb bs list_ascii_of_string Ascii.eqb Bool.eqb andb] in Hf;
     injection Hf as <-|]); [..|now apply elem_of_nil in Hw].
  all: try (apply parse1_inv in Hc as (a & k & -> & H1 & ->); eapply c_1; [constructor|auto]).
  all: try (apply parse2_inv in Hc as (a & b & k & v & -> & H1 & H2 & ->); eapply c_2; [constructor|auto|auto]).
  all: try (apply parse_many_inv in Hc as (ks & H1 & H2 & ->); eapply c_many; [constructor|auto|auto]).
  all: try (apply parse_key_many_inv in Hc as (a & l' & k & vs & -> & H1 & H2 & H3 & ->); eapply c_key_many; [constructor|auto|auto|auto]).
  all: try (apply parse_range_inv in Hc as (a & x & y & k & i & j & -> & H1 & H2 & H3 & ->); eapply c_range; [constructor|auto|auto|auto]).
  all: try (apply parse_key_int_str_inv in Hc as (a & x & y & k & i & v & -> & H1 & H2 & H3 & ->); eapply c_int_str; [constructor|auto|auto|auto]).
  all: try (apply parse_key_int_inv in Hc as (a & x & k & i & -> & H1 & H2 & ->); now apply c_lindex).
  all: try (apply parse_pop_inv in Hc as [(a & k & -> & H1 & ->)|(a & x & k & n & -> & H1 & H2 & ->)]; [eapply c_count0; [constructor|auto]|eapply c_count; [constructor|auto|auto]]).
  all: try (apply parse_incr1_inv in Hc as (a & l' & k & -> & H1 & ->); constructor; assumption).
  all: try (apply parse_incr_inv in Hc as [(a & k & -> & H1 & ->)|(a & x & k & n & -> & H1 & H2 & ->)]; constructor; assumption).
  - unfold parse_mset in Hc. inv_args. injection Hc as <-. now apply c_mset.
  - unfold parse_linsert in Hc. destruct args as [|a [|x [|p [|v [|]]]]]; try discriminate. inv_args.
    destruct (bytes_eqb (to_lower b0) (bs "before")) eqn:E4.
    + injection Hc as <-. apply bytes_eqb_eq in E4. eapply c_before; eauto. apply lower_spells; auto. apply before_low.
    + destruct (bytes_eqb (to_lower b0) (bs "after")) eqn:E5; [|discriminate].
      injection Hc as <-. apply bytes_eqb_eq in E5. eapply c_after; eauto. apply lower_spells; auto. apply after_low.
  - unfold parse_hset in Hc. destruct args as [|a l']; [discriminate|]. inv_args. injection Hc as <-. now apply c_hset.
Qed.

(* ---- NewCommand against the grammar ---- *)
Lemma find_to_lower name f : find_name (to_lower name) key_map = Some f -> spells name (to_lower name) /\ to_lower name ∈ command_words.
Proof.
  intros H. assert (W : to_lower name ∈ command_words) by (apply assoc_words; eauto). split; auto.
  apply lower_spells; auto. now apply words_lower.
Qed.

Lemma new_command_spec name args :
  match new_command name args with
  | inl c => exists w, spells name w /\ call w args c
  | inr ENoCmd => forall w, w ∈ command_words -> ~ spells name w
  | inr EArg => exists w, w ∈ command_words /\ spells name w /\ forall c, ~ call w args c
  | inr _ => False
  end.
Proof.
  unfold new_command. destruct (find_name (to_lower name) key_map) as [f|] eqn:E.
  - destruct (find_to_lower _ _ E) as [Hs Hw]. destruct (f args) as [c|] eqn:Ec.
    + exists (to_lower name). split; auto. eapply parse_call; eauto.
    + exists (to_lower name). split; auto. split; auto. intros c Hc. apply call_parse in Hc as (f' & E' & Hf'). congruence.
  - intros w Hw Hs. apply spells_lower in Hs. subst w. apply assoc_words in Hw as [f Hf]. congruence.
Qed.

Lemma call_new_command name w args c : spells name w -> call w args c -> new_command name args = inl c.
Proof.
  intros Hs Hc. apply spells_lower in Hs. apply call_parse in Hc as (f & Hf & Hfa). unfold new_command. rewrite Hs, Hf, Hfa. reflexivity.
Qed.

Lemma call_det w args c c' : call w args c -> call w args c' -> c = c'.
Proof. intros H1 H2. apply call_parse in H1 as (f & E & F), H2 as (f' & E' & F'). congruence. Qed.
Lemma call_word w args c : call w args c -> w ∈ command_words.
Proof. intros H. apply call_parse in H as (f & E & F). apply assoc_words. eauto. Qed.
