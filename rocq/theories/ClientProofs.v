(* Proofs about the client's codec. *)
From Verif Require Import Base BaseFacts IntSpec IntParse IntParseProofs Resp RespSpec RespProofs Client ClientSpec.
From Coq Require Import ZArith List Ascii String Bool Lia.
Import ListNotations.
Open Scope Z_scope.

Lemma beqb_eq a b : byte_eqb a b = true <-> a = b.
Proof. apply Ascii.eqb_eq. Qed.
Lemma beqb_ne a b : byte_eqb a b = false <-> a <> b.
Proof. apply Ascii.eqb_neq. Qed.
Lemma quote_len s : forall buf, (List.length (t_rest (parse_quote buf s)) <= List.length s)%nat.
Proof.
  induction s as [|c s IH]; intros buf; cbn [parse_quote List.length]; [cbn; lia|]. destruct (byte_eqb c QUOTE); [cbn; lia|].
  specialize (IH (buf ++ [c])). lia.
Qed.
Lemma string_len s : forall buf, t_eof (parse_string buf s) = false -> (List.length (t_rest (parse_string buf s)) < List.length s)%nat.
Proof.
  induction s as [|c s IH]; intros buf; cbn [parse_string List.length]; [discriminate|]. destruct (byte_eqb c QUOTE).
  - intros _. pose proof (quote_len s []). lia.
  - destruct (byte_eqb c SPACE); [cbn; lia|]. intros E. specialize (IH _ E). lia.
Qed.
Lemma words_fuel f : forall s, (List.length s < f)%nat -> words_loop f s = format_words s.
Proof.
  assert (G : forall f g s, (List.length s < f)%nat -> (List.length s < g)%nat -> words_loop f s = words_loop g s).
  { induction f0 as [|f0 IH]; intros [|g] s Hf Hg; try lia. cbn [words_loop]. destruct (t_eof (parse_string [] s)) eqn:E; [reflexivity|].
    pose proof (string_len s [] E). rewrite (IH g); [reflexivity|lia|lia]. }
  intros s H. apply G; lia.
Qed.
Lemma words_total s : exists l, format_words s = Some l.
Proof.
  unfold format_words. assert (G : forall f s, (List.length s < f)%nat -> exists l, words_loop f s = Some l).
  { induction f as [|f IH]; intros x H; [lia|]. cbn [words_loop]. destruct (t_eof (parse_string [] x)) eqn:E; [eauto|].
    pose proof (string_len x [] E). destruct (IH (t_rest (parse_string [] x))) as [l ->]; [lia|eauto]. }
  apply G. lia.
Qed.
Lemma words_eq s : format_words s = let t := parse_string [] s in let here := match t_text t with [] => [] | w => [w] end in
  if t_eof t then Some here else match format_words (t_rest t) with Some l => Some (here ++ l) | None => None end.
Proof.
  unfold format_words at 1. cbn [words_loop]. destruct (t_eof (parse_string [] s)) eqn:E; [reflexivity|]. cbn zeta.
  rewrite words_fuel; [reflexivity|]. apply string_len. exact E.
Qed.
Lemma quote_ok w : forall buf s, ~ In QUOTE w -> parse_quote buf (w ++ QUOTE :: s) = mkTok (buf ++ w) false s.
Proof.
  induction w as [|c w IH]; intros buf s N; cbn [app parse_quote].
  - replace (byte_eqb QUOTE QUOTE) with true by reflexivity. now rewrite app_nil_r.
  - rewrite (proj2 (beqb_ne c QUOTE)) by (intros ->; apply N; now left). rewrite IH by (intros H; apply N; now right). now rewrite <- app_assoc.
Qed.
Lemma string_ok w : forall buf s, ~ In QUOTE w -> ~ In SPACE w -> parse_string buf (w ++ s) = parse_string (buf ++ w) s.
Proof.
  induction w as [|c w IH]; intros buf s N M; cbn [app parse_string]; [now rewrite app_nil_r|].
  rewrite (proj2 (beqb_ne c QUOTE)) by (intros ->; apply N; now left). rewrite (proj2 (beqb_ne c SPACE)) by (intros ->; apply M; now left).
  rewrite IH by (intros H; first [apply N; now right|apply M; now right]). now rewrite <- app_assoc.
Qed.
Lemma words_space s : format_words (SPACE :: s) = format_words s.
Proof. rewrite words_eq. change (parse_string [] (SPACE :: s)) with (mkTok [] false s). cbn zeta. cbn [t_text t_eof t_rest]. destruct (format_words s); reflexivity. Qed.
Lemma words_spaces n s : format_words (repeat SPACE n ++ s) = format_words s.
Proof. induction n; [reflexivity|]. cbn [repeat app]. now rewrite words_space. Qed.
Definition some_of (w : bytes) : list bytes := match w with [] => [] | _ => [w] end.
Lemma words_item x s l : item_ok x -> format_words s = Some l -> format_words (typed x ++ SPACE :: s) = Some (some_of (text x) ++ l).
Proof.
  intros K E. destruct x as [w|w]; cbn [typed text item_ok] in *.
  - destruct K as (K1 & K2 & K3). rewrite words_eq, string_ok by assumption. change (parse_string ([] ++ w) (SPACE :: s)) with (mkTok w false s). cbn zeta. cbn [t_text t_eof t_rest]. rewrite E. destruct w; reflexivity.
  - rewrite <- app_assoc. cbn [app]. rewrite words_eq. change (parse_string [] (""""%char :: w ++ """"%char :: SPACE :: s)) with (parse_quote [] (w ++ QUOTE :: SPACE :: s)).
    rewrite quote_ok by assumption. cbn zeta. cbn [t_text t_eof t_rest app]. rewrite words_space, E. destruct w; reflexivity.
Qed.
Lemma words_end x : item_ok x -> format_words (typed x) = Some (some_of (text x)).
Proof.
  intros K. destruct x as [w|w]; cbn [typed text item_ok] in *.
  - destruct K as (K1 & K2 & K3). rewrite <- (app_nil_r w) at 1. rewrite words_eq, string_ok by assumption. destruct w; reflexivity.
  - cbn [app]. rewrite words_eq. change (parse_string [] (""""%char :: w ++ [""""%char])) with (parse_quote [] (w ++ QUOTE :: [])).
    rewrite quote_ok by assumption. destruct w; reflexivity.
Qed.
Lemma words_nil : format_words [] = Some [].
Proof. reflexivity. Qed.
Lemma all_spaces n : format_words (repeat SPACE n) = Some [].
Proof. rewrite <- (app_nil_r (repeat SPACE n)). now rewrite words_spaces. Qed.
Lemma line_words l s : line l s -> format_words s = Some (List.filter (fun w => negb (bytes_eqb w [])) (List.map text l)).
Proof.
  assert (F : forall w l, List.filter (fun w => negb (bytes_eqb w [])) (w :: l) = some_of w ++ List.filter (fun w => negb (bytes_eqb w [])) l).
  { intros [|c w] m; reflexivity. }
  induction 1 as [n|n x k K|n x k m s K L IH]; change " "%char with SPACE.
  - apply all_spaces.
  - rewrite words_spaces. cbn [List.map]. rewrite F. destruct k as [|k]; cbn [repeat].
    + rewrite app_nil_r. rewrite words_end by assumption. cbn. now rewrite app_nil_r.
    + apply words_item; [exact K|apply all_spaces].
  - rewrite words_spaces. cbn [List.map]. rewrite F. apply words_item; [exact K|]. rewrite words_spaces. exact IH.
Qed.
Theorem typed_sent l s : line l s -> format_input s = Some (encode (RArr (List.map RBulk (List.filter (fun w => negb (bytes_eqb w [])) (List.map text l))))).
Proof. intros H. unfold format_input. now rewrite (line_words _ _ H). Qed.
Lemma filter_all l : (forall w, In w l -> w <> []) -> List.filter (fun w => negb (bytes_eqb w [])) l = l.
Proof.
  induction l as [|w l IH]; intros H; [reflexivity|]. cbn. destruct w as [|c w]; [exfalso; now apply (H []); [left|]|]. cbn. rewrite IH; [reflexivity|]. intros x Hx. apply H. now right.
Qed.
Theorem typed_received l s rest : line l s -> (forall x, In x l -> text x <> []) -> (forall x, In x l -> blen (text x) < 2 ^ 63 - 2) -> Z.of_nat (List.length l) < 2 ^ 63 ->
  exists req, format_input s = Some req /\ parse (req ++ rest) = POk (RArr (List.map RBulk (List.map text l))) rest.
Proof.
  intros H N B L. exists (encode (RArr (List.map RBulk (List.map text l)))). split.
  - rewrite (typed_sent _ _ H), filter_all; [reflexivity|]. intros w Hw. apply in_map_iff in Hw as (x & <- & Hx). auto.
  - apply parse_encode. constructor; [now rewrite !map_length|]. apply Forall_forall. intros o Ho. apply in_map_iff in Ho as (w & <- & Hw). apply in_map_iff in Hw as (x & <- & Hx).
    constructor. auto.
Qed.
Theorem input_total s : exists req, format_input s = Some req.
Proof. unfold format_input. destruct (words_total s) as [l ->]. eauto. Qed.

(* ---- output ---- *)
Lemma format_nonempty z : (1 <= List.length (format_int z))%nat.
Proof. destruct (format_int_denotes z) as (sg & ds & -> & N & _). rewrite app_length. destruct ds; [contradiction|cbn; lia]. Qed.
Lemma null_bulk d : bytes_eqb (encode (RBulk d)) (bs "$-1" ++ CRLF) = false.
Proof.
  apply bytes_eqb_neq. intros E. apply (f_equal (@List.length ascii)) in E. cbn [encode List.length] in E. rewrite !app_length in E. cbn in E.
  pose proof (format_nonempty (blen d)). lia.
Qed.
Lemma format_digit z : 0 <= z -> exists c r, format_int z = c :: r /\ is_digit c.
Proof.
  intros H. destruct (format_int_canonical z) as (ds & E & N & D & _). rewrite (proj2 (Z.ltb_ge z 0)) in E by lia. cbn in E. destruct ds as [|c r]; [contradiction|].
  exists c, r. split; [exact E|]. now inversion D.
Qed.
Lemma null_arr l : bytes_eqb (encode (RArr l)) (bs "*-1" ++ CRLF) = false.
Proof.
  apply bytes_eqb_neq. intros E. cbn [encode] in E. destruct (format_digit (Z.of_nat (List.length l))) as (c & r & F & D); [lia|]. rewrite F in E. cbn in E. injection E as E _.
  subst c. unfold is_digit in D. vm_compute in D. destruct D as [D _]. now apply D.
Qed.
Fixpoint items (i : Z) (l : list robj) : list bytes :=
  match l with [] => [] | x :: l' => (format_int (i + 1) ++ bs ") " ++ format_output x) :: items (i + 1) l' end.
Lemma show_arr l : format_output (RArr l) = join [LF] (items 0 l).
Proof.
  cbn [format_output]. rewrite null_arr. reflexivity.
Qed.
Lemma show_bulk d : format_output (RBulk d) = QUOTE :: d ++ [QUOTE].
Proof. cbn [format_output]. unfold format_string. now rewrite null_bulk. Qed.
Lemma show_simple d : format_output (RSimple d) = QUOTE :: d ++ [QUOTE].
Proof. reflexivity. Qed.
Theorem show_string d : format_output (RBulk d) = QUOTE :: d ++ [QUOTE] /\ format_output (RSimple d) = QUOTE :: d ++ [QUOTE].
Proof. split; [apply show_bulk|apply show_simple]. Qed.
Lemma join_head x l : exists r, join [LF] (x :: l) = x ++ r.
Proof. destruct l; cbn; [exists []; now rewrite app_nil_r|eauto]. Qed.
Lemma arr_head x l : exists c r, format_output (RArr (x :: l)) = c :: r /\ is_digit c.
Proof.
  rewrite show_arr. destruct (format_digit (0 + 1)) as (c & r' & F & D); [lia|].
  assert (J : exists r, join [LF] (items 0 (x :: l)) = (format_int (0 + 1) ++ bs ") " ++ format_output x) ++ r) by apply (join_head (format_int (0 + 1) ++ bs ") " ++ format_output x)).
  destruct J as [r ->]. rewrite F. cbn. eauto.
Qed.
Theorem show_nil o : format_output o = bs "(nil)" <-> o = RNullBulk.
Proof.
  split; [|intros ->; reflexivity]. destruct o as [d|d| |d|z|l|].
  - rewrite show_simple. discriminate.
  - rewrite show_bulk. discriminate.
  - reflexivity.
  - discriminate.
  - discriminate.
  - destruct l as [|x l]; [discriminate|]. destruct (arr_head x l) as (c & r & -> & D). intros E. injection E as -> _. exfalso. unfold is_digit in D. vm_compute in D. destruct D as [D _]. now apply D.
  - discriminate.
Qed.
Theorem show_int z : exists t, format_output (RInt z) = bs "(integer) " ++ t /\ canonical t z.
Proof. exists (format_int z). split; [reflexivity|apply format_int_canonical]. Qed.
Lemma lines_one x : ~ In LF x -> lines x = [x].
Proof.
  induction x as [|c x IH]; intros N; [reflexivity|]. cbn. destruct (Ascii.eqb_spec c LF) as [->|_]; [exfalso; apply N; now left|]. rewrite IH; [reflexivity|]. intros H. apply N. now right.
Qed.
Lemma lines_app x s : ~ In LF x -> lines (x ++ LF :: s) = x :: lines s.
Proof.
  induction x as [|c x IH]; intros N; [reflexivity|]. cbn. destruct (Ascii.eqb_spec c LF) as [->|_]; [exfalso; apply N; now left|]. rewrite IH; [reflexivity|]. intros H. apply N. now right.
Qed.
Lemma lines_join x l : (forall y, In y (x :: l) -> ~ In LF y) -> lines (join [LF] (x :: l)) = x :: l.
Proof.
  revert x. induction l as [|y l IH]; intros x N.
  - cbn. apply lines_one. apply N. now left.
  - change (join [LF] (x :: y :: l)) with (x ++ LF :: join [LF] (y :: l)). rewrite lines_app by (apply N; now left). rewrite IH; [reflexivity|]. intros z Hz. apply N. now right.
Qed.
Lemma format_no_LF z : ~ In LF (format_int z).
Proof.
  intros H. pose proof (format_int_chars z) as F. rewrite Forall_forall in F. destruct (F _ H) as [D|E]; [|discriminate]. unfold is_digit in D. vm_compute in D. destruct D as [D _]. now apply D.
Qed.
Lemma items_in l : forall i y, In y (items i l) -> exists j x, In x l /\ y = format_int j ++ bs ") " ++ format_output x.
Proof.
  induction l as [|x l IH]; intros i y; [contradiction|]. cbn [items]. intros [<-|H]; [exists (i + 1), x; split; [now left|reflexivity]|].
  destruct (IH _ _ H) as (j & z & Hz & ->). exists j, z. split; [now right|reflexivity].
Qed.
Lemma items_nth l : forall i k x, nth_error l k = Some x -> nth_error (items i l) k = Some (format_int (i + Z.of_nat k + 1) ++ bs ") " ++ format_output x).
Proof.
  induction l as [|y l IH]; intros i [|k] x; cbn [items nth_error]; try discriminate.
  - intros E. injection E as ->. replace (i + Z.of_nat 0 + 1) with (i + 1) by lia. reflexivity.
  - intros E. rewrite (IH (i + 1) k x E). replace (i + 1 + Z.of_nat k + 1) with (i + Z.of_nat (S k) + 1) by lia. reflexivity.
Qed.
Lemma items_len l : forall i, List.length (items i l) = List.length l.
Proof. induction l; intros i; cbn; auto. Qed.
Theorem show_array l : l <> [] -> (forall x, In x l -> ~ In LF (format_output x)) ->
  List.length (lines (format_output (RArr l))) = List.length l /\
  forall k x, nth_error l k = Some x -> exists t, canonical t (Z.of_nat k + 1) /\ nth_error (lines (format_output (RArr l))) k = Some (t ++ bs ") " ++ format_output x).
Proof.
  intros N H. rewrite show_arr.
  assert (E : lines (join [LF] (items 0 l)) = items 0 l).
  { destruct (items 0 l) as [|y m] eqn:E; [destruct l; [contradiction|discriminate]|]. apply lines_join. intros z Hz. change (In z (y :: m)) in Hz. assert (Hz' : In z (items 0 l)) by (rewrite E; exact Hz). clear Hz; rename Hz' into Hz. apply items_in in Hz as (j & x & Hx & ->).
    rewrite !in_app_iff. intros [K|[K|K]]; [exact (format_no_LF _ K)|cbn in K; intuition discriminate|exact (H _ Hx K)]. }
  rewrite E. split; [apply items_len|]. intros k x Hk. exists (format_int (Z.of_nat k + 1)). split; [apply format_int_canonical|].
  rewrite (items_nth _ 0 _ _ Hk). reflexivity.
Qed.
Theorem show_error d : format_output (RErr d) = bs "Server error: " ++ d.
Proof. reflexivity. Qed.
(* Replies that are not arrays are shown differently, up to the kind of string. *)
Definition scalar (o : robj) : Prop := match o with RArr _ | RNullArr => False | _ => True end.
Definition same (a b : robj) : Prop := match a, b with (RSimple d | RBulk d), (RSimple d' | RBulk d') => d = d' | _, _ => a = b end.
Lemma quoted_inj (a b : bytes) : QUOTE :: a ++ [QUOTE] = QUOTE :: b ++ [QUOTE] -> a = b.
Proof. intros E. injection E as E. now apply app_inj_tail in E as [E _]. Qed.
Theorem scalar_distinct a b : scalar a -> scalar b -> (forall z, a = RInt z \/ b = RInt z -> int64_ok z) -> format_output a = format_output b -> same a b.
Proof.
  intros Sa Sb Z E. destruct a as [d|d| |d|z|l|]; try contradiction; destruct b as [d'|d'| |d'|z'|l'|]; try contradiction;
    rewrite ?show_simple, ?show_bulk in E; try discriminate E; try (apply quoted_inj in E; exact E); try reflexivity; unfold same.
  - f_equal. cbn [format_output] in E. now apply app_inv_head in E.
  - f_equal. cbn [format_output] in E. apply app_inv_head in E. apply format_int_inj; auto.
Qed.
