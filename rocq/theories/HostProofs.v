(* The host and the identifier of a record. *)
From Verif Require Import Base BaseFacts IntParse IntParseProofs Resp Log Recovery Quote QuoteSpec QuoteProofs Host HostSpec.
From Coq Require Import ZArith List Ascii String Bool Lia.
Import ListNotations.
Open Scope Z_scope.

Lemma to4_v4 a b : to4 a = Some b <-> v4 a b.
Proof.
  unfold to4. split.
  - destruct (Nat.eqb_spec (List.length a) 4) as [E|E].
    + intros H. injection H as <-. do 4 (destruct a as [|? a]; [discriminate E|]). destruct a; [constructor|discriminate E].
    + destruct (Nat.eqb_spec (List.length a) 16) as [L|L]; [|discriminate]. cbn [andb]. unfold starts. destruct (list_eq_dec _ _ _) as [P|]; [|discriminate].
      do 16 (destruct a as [|? a]; [discriminate L|]). destruct a; [|discriminate L]. intros H. injection H as <-.
      cbv [List.length firstn] in P. injection P as -> -> -> -> -> -> -> -> -> -> -> ->. constructor.
  - destruct 1; reflexivity.
Qed.
Lemma v4_fun a b b' : v4 a b -> v4 a b' -> b = b'.
Proof. intros H K. apply to4_v4 in H, K. congruence. Qed.
Lemma outer_spec a : match to4 a with Some b => if is_loopback a then none_outer [Some a] else outer (Some a) b | None => none_outer [Some a] end.
Proof.
  destruct (to4 a) as [b|] eqn:T.
  - unfold is_loopback. rewrite T. apply to4_v4 in T. destruct (Z.eqb_spec (hd 0 b) 127) as [E|E].
    + intros x b' [<-|[]] (a' & X & V & N). injection X as <-. rewrite (v4_fun _ _ _ V T) in N. auto.
    + exists a. auto.
  - intros x b' [<-|[]] (a' & X & V & N). injection X as <-. apply to4_v4 in V. congruence.
Qed.
Lemma none_outer_cons x l : none_outer [x] -> none_outer l -> none_outer (x :: l).
Proof. intros A B y b [<-|I]; [apply A; now left|now apply B]. Qed.
Lemma first_addr_spec l : match first_addr l with
  | Some t => exists l1 x l2 b, l = l1 ++ x :: l2 /\ none_outer l1 /\ outer x b /\ t = dotted b
  | None => none_outer l end.
Proof.
  induction l as [|x l IH]; [intros ? ? []|].
  assert (Skip : none_outer [x] -> match first_addr l with Some t => exists l1 y l2 b, x :: l = l1 ++ y :: l2 /\ none_outer l1 /\ outer y b /\ t = dotted b | None => none_outer (x :: l) end).
  { intros N. destruct (first_addr l) as [t|].
    - destruct IH as (l1 & y & l2 & b & E & N1 & O & T). exists (x :: l1), y, l2, b. rewrite E. auto using none_outer_cons.
    - auto using none_outer_cons. }
  cbn [first_addr]. destruct x as [a|].
  - pose proof (outer_spec a) as O. destruct (is_loopback a) eqn:L.
    + apply Skip. destruct (to4 a); exact O.
    + destruct (to4 a) as [b|]; [|now apply Skip]. exists [], (Some a), l, b. repeat split; auto. intros ? ? [].
  - apply Skip. intros y b [<-|[]] (a & X & _). discriminate.
Qed.
Lemma find_first l1 : forall i l2 b, Forall has_none l1 -> in_use i -> has i b -> find_addr (l1 ++ i :: l2) = dotted b.
Proof.
  induction l1 as [|j l1 IH]; intros i l2 b F [U L] (m1 & x & m2 & E & N & O); cbn [app find_addr].
  - rewrite U, L, E. cbn [negb]. pose proof (first_addr_spec (m1 ++ x :: m2)) as S. destruct (first_addr (m1 ++ x :: m2)) as [t|].
    + destruct S as (k1 & y & k2 & b' & E' & N' & O' & ->). enough (b = b') by congruence. clear E L U F.
      revert k1 E' N'. induction m1 as [|z m1 IHm]; intros [|w k1] E' N'; cbn [app] in E'.
      * injection E' as -> _. destruct O as (a & X & V & _), O' as (a' & X' & V' & _). replace a' with a in V' by congruence. eauto using v4_fun.
      * injection E' as <- _. exfalso. exact (N' x b (or_introl eq_refl) O).
      * injection E' as -> _. exfalso. exact (N y b' (or_introl eq_refl) O').
      * injection E' as <- E'. eapply IHm; [|exact E'|]; intros q c I; [apply N|apply N']; now right.
    + exfalso. refine (S x b _ O). apply in_or_app. right. now left.
  - inversion F as [|? ? H F']; subst. assert (R : find_addr (l1 ++ i :: l2) = dotted b) by (apply IH; [exact F'|now split|exists m1, x, m2; auto]).
    destruct (if_up j) eqn:Uj; cbn [negb]; [|exact R]. destruct (if_loop j) eqn:Lj; [exact R|].
    destruct (H (conj Uj Lj)) as (k & Ek & Nk). rewrite Ek. pose proof (first_addr_spec k) as S. destruct (first_addr k) as [t|]; [|exact R].
    destruct S as (k1 & y & k2 & b' & -> & _ & O' & _). exfalso. refine (Nk y b' _ O'). apply in_or_app. right. now left.
Qed.
Lemma find_nothing l : Forall has_none l -> find_addr l = bs "unknown".
Proof.
  induction 1 as [|j l H F IH]; [reflexivity|]. cbn [find_addr]. destruct (if_up j) eqn:Uj; cbn [negb]; [|exact IH]. destruct (if_loop j) eqn:Lj; [exact IH|].
  destruct (H (conj Uj Lj)) as (k & Ek & Nk). rewrite Ek. pose proof (first_addr_spec k) as S. destruct (first_addr k) as [t|]; [|exact IH].
  destruct S as (k1 & y & k2 & b' & -> & _ & O' & _). exfalso. refine (Nk y b' _ O'). apply in_or_app. right. now left.
Qed.
Lemma find_error l1 : forall i l2, Forall has_none l1 -> in_use i -> if_addrs i = None -> find_addr (l1 ++ i :: l2) = bs "unknown".
Proof.
  induction l1 as [|j l1 IH]; intros i l2 F [U L] E; cbn [app find_addr].
  - now rewrite U, L, E.
  - inversion F as [|? ? H F']; subst. assert (R : find_addr (l1 ++ i :: l2) = bs "unknown") by (apply IH; [exact F'|now split|exact E]).
    destruct (if_up j) eqn:Uj; cbn [negb]; [|exact R]. destruct (if_loop j) eqn:Lj; [exact R|].
    destruct (H (conj Uj Lj)) as (k & Ek & Nk). rewrite Ek. pose proof (first_addr_spec k) as S. destruct (first_addr k) as [t|]; [|exact R].
    destruct S as (k1 & y & k2 & b' & -> & _ & O' & _). exfalso. refine (Nk y b' _ O'). apply in_or_app. right. now left.
Qed.

(* ---- the texts ---- *)
Definition text (c : ascii) : Prop := visible c /\ c <> ","%char.
Ltac txt := repeat (apply Forall_cons; [split; [unfold visible; vm_compute; discriminate|discriminate]|]); apply Forall_nil.
Lemma number_text z : Forall text (format_int z).
Proof.
  apply List.Forall_forall. intros c I. pose proof (number_visible z) as V. pose proof (number_no_comma z) as N. rewrite List.Forall_forall in V. unfold no_comma in N. rewrite List.Forall_forall in N. split; auto.
Qed.
Lemma join_text sep l : Forall text sep -> Forall (Forall text) l -> Forall text (join sep l).
Proof.
  intros S. induction 1 as [|x l X F IH]; [constructor|]. destruct l as [|y l]; [exact X|].
  change (Forall text (x ++ sep ++ join sep (y :: l))). apply Forall_app; split; [exact X|]. apply Forall_app; split; [exact S|exact IH].
Qed.
Lemma dotted_text b : Forall text (dotted b).
Proof. apply join_text; [txt|]. apply Forall_map. apply List.Forall_forall. intros; apply number_text. Qed.
Lemma find_text l : Forall text (find_addr l).
Proof.
  induction l as [|i l IH]; [txt|]. cbn [find_addr]. destruct (negb _); [exact IH|]. destruct (if_loop i); [exact IH|]. destruct (if_addrs i) as [k|]; [|txt].
  pose proof (first_addr_spec k) as S. destruct (first_addr k) as [t|]; [|exact IH]. destruct S as (? & ? & ? & b & _ & _ & _ & ->). apply dotted_text.
Qed.
Lemma get_ip_text x : Forall text (get_ip x).
Proof. destruct x; [apply find_text|txt]. Qed.
Lemma text_both s : Forall text s -> Forall visible s /\ no_comma s.
Proof. intros F. split; (eapply Forall_impl; [|exact F]); intros c [A B]; assumption. Qed.
Lemma cut_at (k : ascii) a : forall b x y, Forall (fun c => c <> k) a -> Forall (fun c => c <> k) b -> a ++ k :: x = b ++ k :: y -> a = b /\ x = y.
Proof.
  induction a as [|c a IH]; intros [|d b] x y A B E; cbn [app] in E.
  - now injection E.
  - injection E as E1 E2. inversion B; subst. congruence.
  - injection E as E1 E2. inversion A; subst. congruence.
  - injection E as -> E. inversion A; subst. inversion B; subst. destruct (IH b x y) as [-> ->]; auto.
Qed.
Lemma number_no_dot z : Forall (fun c => c <> "."%char) (format_int z).
Proof. eapply Forall_impl; [|apply format_int_chars]. intros c [D| ->]; [|discriminate]. intros ->. destruct D as [D _]. vm_compute in D. congruence. Qed.
Lemma byte_int64 z : 0 <= z < 256 -> int64_ok z.
Proof. unfold int64_ok. lia. Qed.
Lemma dotted_inj a b c d a' b' c' d' : ip_ok [a; b; c; d] -> ip_ok [a'; b'; c'; d'] -> dotted [a; b; c; d] = dotted [a'; b'; c'; d'] -> [a; b; c; d] = [a'; b'; c'; d'].
Proof.
  unfold ip_ok. rewrite !Forall_cons_iff. intros (A & B & C & D & _) (A' & B' & C' & D' & _). unfold dotted. cbn [map]. intros E.
  assert (J : forall x y l, join (bs ".") (x :: y :: l) = x ++ "."%char :: join (bs ".") (y :: l)) by reflexivity. rewrite !J in E.
  apply cut_at in E as [E1 E]; [|apply number_no_dot..]. apply cut_at in E as [E2 E]; [|apply number_no_dot..]. apply cut_at in E as [E3 E4]; [|apply number_no_dot..].
  apply format_int_inj in E1; [|now apply byte_int64..]. apply format_int_inj in E2; [|now apply byte_int64..]. apply format_int_inj in E3; [|now apply byte_int64..]. apply format_int_inj in E4; [|now apply byte_int64..].
  now subst.
Qed.
Lemma v4_shape a b : v4 a b -> exists x y z w, b = [x; y; z; w].
Proof. destruct 1; eauto. Qed.

(* ---- identifiers ---- *)
Lemma hex_text n : forall r, Forall text (hex n r).
Proof.
  induction n as [|n IH]; intros r; cbn [hex]; [constructor|]. apply Forall_app. split; [apply IH|]. constructor; [|constructor].
  pose proof (Z.mod_pos_bound r 16 ltac:(lia)). assert (K : byteZ (hex_digit (r mod 16)) >= 48) by (unfold hex_digit; destruct (Z.ltb_spec (r mod 16) 10); rewrite byteZ_byteOf; lia).
  split; [unfold visible; lia|]. intros E. rewrite E in K. vm_compute in K. auto.
Qed.
Lemma hexes_text l : Forall text (List.concat (map (hex 2) l)).
Proof. induction l as [|x l IH]; [constructor|]. cbn [map List.concat]. apply Forall_app. split; [apply hex_text|exact IH]. Qed.
Lemma uuid_is_text u : Forall text (uuid_text u).
Proof. unfold uuid_text. rewrite !Forall_app. repeat split; try apply hexes_text; txt. Qed.
Lemma hex_length n : forall r, List.length (hex n r) = n.
Proof. induction n as [|n IH]; intros r; [reflexivity|]. cbn [hex]. rewrite app_length, IH. cbn. lia. Qed.
Lemma app_cut (A : Type) (a : list A) : forall b x y, List.length a = List.length b -> a ++ x = b ++ y -> a = b /\ x = y.
Proof.
  induction a as [|c a IH]; intros [|d b] x y L E; try discriminate L; [auto|]. cbn [app] in E. injection E as -> E. injection L as L. destruct (IH b x y L E) as [-> ->]. auto.
Qed.
Lemma hexes_length l : List.length (List.concat (map (hex 2) l)) = (2 * List.length l)%nat.
Proof. induction l as [|x l IH]; [reflexivity|]. cbn [map List.concat]. rewrite app_length, hex_length, IH. cbn [List.length]. lia. Qed.
Lemma hexes_inj l : forall m, ip_ok l -> ip_ok m -> List.concat (map (hex 2) l) = List.concat (map (hex 2) m) -> l = m.
Proof.
  induction l as [|x l IH]; intros [|y m] A B E; cbn [map List.concat] in E; try (apply (f_equal (@List.length ascii)) in E; rewrite ?app_length, !hex_length in E; cbn in E; lia); [reflexivity|].
  inversion A; subst. inversion B; subst. apply app_cut in E as [E1 E2]; [|now rewrite !hex_length]. f_equal; [|now apply IH].
  rewrite <- (number_hex 2 x), <- (number_hex 2 y) by (cbn; lia). now rewrite E1.
Qed.
Lemma firstn_ok n u : ip_ok u -> ip_ok (firstn n u).
Proof. intros O. unfold ip_ok in *. rewrite <- (firstn_skipn n u) in O. apply Forall_app in O. tauto. Qed.
Lemma skipn_ok n u : ip_ok u -> ip_ok (skipn n u).
Proof. intros O. unfold ip_ok in *. rewrite <- (firstn_skipn n u) in O. apply Forall_app in O. tauto. Qed.
Lemma pieces (u : list Z) : u = firstn 4 u ++ firstn 2 (skipn 4 u) ++ firstn 2 (skipn 6 u) ++ firstn 2 (skipn 8 u) ++ skipn 10 u.
Proof. do 10 (destruct u as [|? u]; [reflexivity|]). reflexivity. Qed.
Lemma uuid_inj u w : List.length u = 16%nat -> List.length w = 16%nat -> ip_ok u -> ip_ok w -> uuid_text u = uuid_text w -> u = w.
Proof.
  intros L M A B E. rewrite (pieces u), (pieces w). unfold uuid_text in E.
  assert (S : forall n k, List.length (List.concat (map (hex 2) (firstn n (skipn k u)))) = List.length (List.concat (map (hex 2) (firstn n (skipn k w))))).
  { intros n k. now rewrite !hexes_length, !firstn_length, !skipn_length, L, M. }
  apply app_cut in E as [E1 E]; [|exact (S 4%nat 0%nat)]. apply app_inv_head in E. apply app_cut in E as [E2 E]; [|apply S]. apply app_inv_head in E.
  apply app_cut in E as [E3 E]; [|apply S]. apply app_inv_head in E. apply app_cut in E as [E4 E5]; [|apply S]. apply app_inv_head in E5.
  apply hexes_inj in E1; [|auto using firstn_ok, skipn_ok..]. apply hexes_inj in E2; [|auto using firstn_ok, skipn_ok..]. apply hexes_inj in E3; [|auto using firstn_ok, skipn_ok..].
  apply hexes_inj in E4; [|auto using firstn_ok, skipn_ok..]. apply hexes_inj in E5; [|auto using firstn_ok, skipn_ok..]. now rewrite E1, E2, E3, E4, E5.
Qed.
Lemma uuid_length u : List.length u = 16%nat -> List.length (uuid_text u) = 36%nat.
Proof. intros L. unfold uuid_text. rewrite !app_length, !hexes_length, !firstn_length, !skipn_length, L. reflexivity. Qed.
Lemma gen_text a b s : gen_uuid a b = Ret s -> Forall text s.
Proof. unfold gen_uuid. destruct a; [|destruct b; [|discriminate]]; intros E; injection E as <-; apply uuid_is_text. Qed.

(* ---- with what is printed of a record ---- *)
Theorem server_record_apart p a b if1 t q v a' b' if2 t' q' v' :
  gen_uuid a b = Ret (t_id t) -> t_host t = get_ip if1 -> int64_ok (t_time t) -> log_of t q = Some v ->
  gen_uuid a' b' = Ret (t_id t') -> t_host t' = get_ip if2 -> int64_ok (t_time t') -> log_of t' q' = Some v' ->
  format_log p v = format_log p v' -> v = v'.
Proof.
  intros G H T L G' H' T' L'. apply gen_text, text_both in G, G'. pose proof (text_both _ (get_ip_text if1)) as [_ I]. pose proof (text_both _ (get_ip_text if2)) as [_ I'].
  rewrite <- H in I. rewrite <- H' in I'. eapply log_of_apart; eauto; tauto.
Qed.
Theorem server_record_line p a b ifs t q v : (forall z, 0 <= z < 32 -> is_print p z = false) ->
  gen_uuid a b = Ret (t_id t) -> t_host t = get_ip ifs -> log_of t q = Some v -> Forall visible (format_log p v).
Proof.
  intros C G H L. apply gen_text, text_both in G. pose proof (text_both _ (get_ip_text ifs)) as [I _]. rewrite <- H in I. eapply log_of_line; eauto; tauto.
Qed.
