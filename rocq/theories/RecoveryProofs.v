From Verif Require Import Base BaseFacts IntSpec IntParse IntParseProofs Resp RespSpec RespProofs StringC HashC HashProofs Command SpecDb RequestSpec CommandProofs
  IdealSpec Db DbProofs Engine EngineProofs SpecFacts EngineFacts Utf8 Utf8Spec Utf8Proofs Log LogSpec LogProofs Persist PersistSpec PersistProofs Recovery RecoverySpec.
From Coq Require Import ZArith List Ascii String Bool Lia.
From stdpp Require Import gmap.
Open Scope Z_scope.

(* ---- determinism of the contents ---- *)
Lemma is_int_fun (t : bytes) (n m : Z) : is_int t n -> is_int t m -> n = m.
Proof. intros H1 H2. apply parse_int_spec in H1. apply parse_int_spec in H2. rewrite H1 in H2. now injection H2. Qed.
Lemma arith_det (f : Z -> Z -> Z) (s : sdb) (k a : bytes) o1 o2 : spec_arith f s k a o1 -> spec_arith f s k a o2 -> o1 = o2.
Proof.
  intros [(n & Hn & H1)|[Hn H1]] [(m & Hm & H2)|[Hm H2]].
  - rewrite (is_int_fun _ _ _ Hn Hm) in *. destruct (ss s !! k) as [t|]; [|now rewrite H1, H2].
    destruct H1 as [(v & t1 & V1 & C1 & ->)|[V1 ->]], H2 as [(w & t2 & V2 & C2 & ->)|[V2 ->]].
    + rewrite (is_int_fun _ _ _ V1 V2) in *. now rewrite (canonical_unique _ _ _ C1 C2).
    + destruct (V2 _ V1).
    + destruct (V1 _ V2).
    + reflexivity.
  - destruct (Hm _ Hn).
  - destruct (Hn _ Hm).
  - now rewrite H1, H2.
Qed.
Lemma spec_det (s : sdb) (c : cmd) o1 o2 : is_modify c = true -> (forall k n cs, c <> CSpop k n cs) -> spec s c o1 -> spec s c o2 -> o1 = o2.
Proof.
  intros M P H1 H2. destruct c; try discriminate M; try (destruct (P k count count_set); reflexivity); cbn [spec] in H1, H2;
    try (eapply arith_det; eassumption);
    repeat match type of H1 with match ?x with _ => _ end => destruct x eqn:? end; try congruence.
  - destruct H1 as (vs1 & v1 & E1 & ->), H2 as (vs2 & v2 & E2 & ->). rewrite E1 in E2. injection E2 as E2.
    apply app_inj_tail in E2 as [-> ->]. reflexivity.
  - destruct H1 as (h1 & E1 & ->), H2 as (h2 & E2 & ->). assert (h1 = h2) as ->; [|reflexivity].
    apply map_eq. intros f. now rewrite E1, E2.
Qed.

(* ---- what is logged ---- *)
Lemma log_of_spec (t : stamp) (q : robj) (v : vlog) : log_of t q = Some v <->
  exists o name args w c, q = RArr (o :: args) /\ is_str o name /\ spells name w /\ call w args c /\ is_modify c = true /\
    v = new_log (t_id t) (t_time t) (t_host t) name 1 (o :: args).
Proof.
  split.
  - unfold log_of. destruct q as [| | | | |[|o args]|]; try discriminate. destruct (str_arg o) as [name|] eqn:E; [|discriminate].
    apply str_arg_spec in E. pose proof (new_command_spec name args) as N. destruct (new_command name args) as [c|]; [|discriminate].
    destruct (is_modify c) eqn:M; [|discriminate]. intros [= <-]. destruct N as (w & Hs & Hc). exists o, name, args, w, c. auto 10.
  - intros (o & name & args & w & c & -> & Ho & Hs & Hc & M & ->). unfold log_of. apply str_arg_spec in Ho. rewrite Ho.
    now rewrite (call_new_command _ _ _ _ Hs Hc), M.
Qed.
Lemma asks_array (q : robj) (c : cmd) : asks q c -> exists o args, q = RArr (o :: args).
Proof. intros (o & n & w & a & H & _). inversion H; subst. eauto. Qed.
Lemma log_of_asks (t : stamp) (q : robj) (c : cmd) : asks q c ->
  log_of t q = if is_modify c then
    match q with RArr (o :: args) => match str_arg o with Some name => Some (new_log (t_id t) (t_time t) (t_host t) name 1 (o :: args)) | None => None end | _ => None end
  else None.
Proof.
  intros (o & n & w & a & H & Ho & Hs & Hc). inversion H; subst. unfold log_of. apply str_arg_spec in Ho. rewrite Ho.
  now rewrite (call_new_command _ _ _ _ Hs Hc).
Qed.
Lemma log_of_none (t : stamp) (q : robj) (c : cmd) : log_of t q = None -> asks q c -> is_modify c = false.
Proof.
  intros H Hc. destruct (is_modify c) eqn:M; auto. rewrite (log_of_asks t q c Hc), M in H. destruct (asks_array _ _ Hc) as (o & args & ->).
  destruct Hc as (o' & n & w & a & Hp & Ho & _). inversion Hp; subst. apply str_arg_spec in Ho. rewrite Ho in H. discriminate.
Qed.

(* ---- UTF-8 ---- *)
Lemma utf8_nil : utf8 []. Proof. exists []. split; [constructor|reflexivity]. Qed.
Lemma utf8_app (a b : bytes) : utf8 a -> utf8 b -> utf8 (a ++ b).
Proof. intros (u & Hu & ->) (w & Hw & ->). exists (u ++ w). split; [now apply Forall_app|]. now rewrite map_app, concat_app. Qed.
Lemma utf8_ascii (s : bytes) : Forall (fun c => byteZ c < 128) s -> utf8 s.
Proof.
  intros H. exists (map byteZ s). induction H as [|c s Hc H [IH1 IH2]]; [split; [constructor|reflexivity]|].
  cbn [map List.concat]. split.
  - constructor; auto. pose proof (byteZ_range c). left. lia.
  - rewrite <- IH2. unfold utf8_char. rewrite (proj2 (Z.ltb_lt _ _)) by lia. cbn [app]. f_equal. symmetry. apply byteOf_byteZ.
Qed.
Lemma utf8_cons (c : ascii) (s : bytes) : byteZ c < 128 -> utf8 s -> utf8 (c :: s).
Proof. intros Hc Hs. apply (utf8_app [c] s); auto. apply utf8_ascii. repeat constructor. exact Hc. Qed.
Lemma utf8_CRLF : utf8 CRLF.
Proof. apply utf8_ascii. repeat constructor. Qed.
Lemma utf8_format (z : Z) : utf8 (format_int z).
Proof. apply utf8_ascii. eapply Forall_impl; [apply format_int_chars|]. intros c [H| ->]; [unfold is_digit in H; lia|reflexivity]. Qed.
Lemma utf8_encode : forall o, utf8_obj o -> utf8 (Resp.encode o).
Proof.
  fix IH 1. intros [d|d| |d|z|l|] H; cbn [Resp.encode utf8_obj] in *.
  - apply utf8_cons; [reflexivity|]. apply utf8_app; auto using utf8_CRLF.
  - apply utf8_cons; [reflexivity|]. repeat apply utf8_app; auto using utf8_CRLF, utf8_format.
  - apply utf8_ascii. repeat constructor.
  - apply utf8_cons; [reflexivity|]. apply utf8_app; auto using utf8_CRLF.
  - apply utf8_cons; [reflexivity|]. apply utf8_app; auto using utf8_CRLF, utf8_format.
  - apply utf8_cons; [reflexivity|]. apply utf8_app; [apply utf8_format|]. apply utf8_app; [apply utf8_CRLF|].
    induction l as [|x l IHl]; cbn [List.map List.concat]; [apply utf8_nil|]. destruct H as [H1 H2]. apply utf8_app; auto.
  - apply utf8_ascii. repeat constructor.
Qed.
Lemma utf8_elems (l : list robj) : utf8_obj (RArr l) -> Forall utf8_obj l.
Proof. induction l as [|x l IH]; intros H; constructor; cbn in H; destruct H; auto. Qed.
Lemma is_str_utf8 (o : robj) (d : bytes) : is_str o d -> utf8_obj o -> utf8 d.
Proof. intros []; cbn; auto using utf8_nil. Qed.

(* ---- sizes ---- *)
Lemma put_varint_size (n : nat) : forall v, blen (put_varint n v) <= Z.of_nat n.
Proof.
  induction n as [|n IH]; intros v; cbn [put_varint]; [reflexivity|]. destruct (v <? 128); [rewrite blen_cons; unfold blen; cbn [length]; lia|].
  rewrite blen_cons. specialize (IH (v / 128)). lia.
Qed.
Lemma varint_size (v : Z) : blen (varint v) <= 10. Proof. exact (put_varint_size 10 v). Qed.
Lemma put_string_size (num : Z) (s : bytes) : blen (put_string num s) <= 20 + blen s.
Proof. unfold put_string. rewrite !blen_app. pose proof (varint_size (blen s)). pose proof (varint_size (num * 8 + 2)). unfold put_tag. lia. Qed.
Lemma put_string_nz_size (num : Z) (s : bytes) : blen (put_string_nz num s) <= 20 + blen s.
Proof. destruct s; [vm_compute; discriminate|]. apply put_string_size. Qed.
Lemma put_int_nz_size (num z : Z) : blen (put_int_nz num z) <= 20.
Proof. unfold put_int_nz. destruct (z =? 0); [unfold blen; cbn [length]; lia|]. rewrite blen_app. pose proof (varint_size (u64 z)). pose proof (varint_size (num * 8 + 0)). unfold put_tag. lia. Qed.
Lemma pack_size (v : vlog) (b : bytes) : pack_log v = Some b -> blen b <= record_size v + 4.
Proof.
  intros H. apply pack_inv in H as (m & Hm & _ & ->). rewrite blen_app, blen_le32. unfold marshal in Hm. destruct (_ && _); [|discriminate].
  injection Hm as <-. rewrite !blen_app. unfold record_size, record_texts. cbn [texts_size].
  pose proof (put_string_nz_size 1 (v_id v)). pose proof (put_string_nz_size 3 (v_host v)). pose proof (put_string_nz_size 4 (v_name v)).
  pose proof (put_string_nz_size 255 (v_raw v)). pose proof (put_int_nz_size 2 (v_time v)). pose proof (put_int_nz_size 5 (v_index v)).
  assert (A : forall l, blen (List.concat (map (put_string 6) l)) <= texts_size l).
  { induction l as [|s l IH]; cbn [map List.concat texts_size]; [unfold blen; cbn [length]; lia|]. rewrite blen_app. pose proof (put_string_size 6 s). lia. }
  specialize (A (v_args v)). lia.
Qed.
Lemma format_int_pos (z : Z) : 1 <= blen (format_int z).
Proof. pose proof (format_int_nonempty z). destruct (format_int z); [congruence|]. rewrite blen_cons. pose proof (blen_nonneg b). lia. Qed.
Lemma encode_min (o : robj) : 3 <= blen (Resp.encode o).
Proof.
  destruct o as [d|d| |d|z|l|]; cbn [Resp.encode]; rewrite ?blen_cons, ?blen_app; change (blen CRLF) with 2;
    try (vm_compute; discriminate); try (pose proof (blen_nonneg d)); try lia.
  - pose proof (blen_nonneg (format_int (blen d))). lia.
  - pose proof (blen_nonneg (format_int z)). lia.
  - pose proof (blen_nonneg (format_int (Z.of_nat (length l)))). pose proof (blen_nonneg (List.concat (List.map Resp.encode l))). lia.
Qed.
Lemma texts_encode (l : list robj) : texts_size (map Resp.encode l) <= 8 * blen (List.concat (map Resp.encode l)).
Proof. induction l as [|o l IH]; cbn [map List.concat texts_size]; [unfold blen; cbn [length]; lia|]. rewrite blen_app. pose proof (encode_min o). lia. Qed.
Lemma array_blen (l : list robj) : blen (List.concat (map Resp.encode l)) <= blen (Resp.encode (RArr l)).
Proof.
  cbn [Resp.encode]. rewrite blen_cons, !blen_app. pose proof (blen_nonneg (format_int (Z.of_nat (length l)))). pose proof (blen_nonneg CRLF).
  change (List.map Resp.encode l) with (map Resp.encode l). lia.
Qed.
Lemma str_blen (o : robj) (d : bytes) : is_str o d -> blen d <= blen (Resp.encode o).
Proof.
  intros []; cbn [Resp.encode]; rewrite ?blen_cons, ?blen_app; change (blen CRLF) with 2; try lia.
  - match goal with |- context [format_int ?z] => pose proof (blen_nonneg (format_int z)) end. lia.
  - vm_compute. discriminate.
Qed.

Lemma loggable_packed (x : entry) (v : vlog) : loggable x -> log_of (h_stamp x) (h_req x) = Some v -> exists b, packed v b.
Proof.
  intros (_ & (T1 & T2 & T3) & Hs & Ho & Hu) H. apply log_of_spec in H as (o & name & args & w & c & Hq & Hn & _ & _ & _ & ->).
  rewrite Hq in *. pose proof (utf8_elems _ Hu) as HU. inversion HU as [|? ? U1 U2]; subst.
  assert (R : record_ok (new_log (t_id (h_stamp x)) (t_time (h_stamp x)) (t_host (h_stamp x)) name 1 (o :: args))).
  { unfold record_ok, record_utf8, record_texts, new_log. cbn [v_id v_host v_name v_raw v_args v_time v_index tl].
    split; [|split; [exact T3|split; [vm_compute; split; congruence|discriminate]]].
    repeat (apply List.Forall_cons); auto.
    - eapply is_str_utf8; eauto.
    - now apply utf8_encode.
    - apply List.Forall_map. eapply List.Forall_impl; [|exact U2]. exact utf8_encode. }
  destruct (proj2 (pack_iff _) (conj (proj1 R) (proj2 (proj2 (proj2 R))))) as [b Hb]. exists b. split; [exact R|]. split; [exact Hb|].
  apply pack_size in Hb. unfold small in Hs. revert Hb. unfold record_size, record_texts, new_log. cbn [v_id v_host v_name v_raw v_args v_time v_index tl texts_size].
  pose proof (texts_encode args) as A. pose proof (array_blen (o :: args)) as B. pose proof (str_blen o name Hn) as C. cbn [map List.concat] in B. rewrite blen_app in B.
  pose proof (blen_nonneg (List.concat (map Resp.encode args))). pose proof (blen_nonneg (Resp.encode o)). intros. lia.
Qed.
Lemma records_packed (h : list entry) : Forall loggable h -> exists bss, Forall2 packed (records h) bss.
Proof.
  induction h as [|x h IH]; intros H; [exists []; constructor|]. apply Forall_cons in H as [Hx H]. destruct (IH H) as [bss IHb]. cbn [records].
  destruct (log_of (h_stamp x) (h_req x)) as [v|] eqn:E; [|eauto]. destruct (loggable_packed x v Hx E) as [b Hb]. exists (b :: bss). now constructor.
Qed.

(* ---- replay ---- *)
Lemma convert_encode (l : list robj) : Forall obj_ok l -> convert_arguments (map Resp.encode l) = Ret l.
Proof.
  induction 1 as [|o l Ho _ IH]; [reflexivity|]. cbn [map convert_arguments]. pose proof (parse_encode o [] Ho) as P. rewrite app_nil_r in P.
  rewrite P, IH. reflexivity.
Qed.
Lemma put_db_same (ds : dbs) (i : Z) (d : db) : put_db ds i d i = d.
Proof. unfold put_db. now rewrite Z.eqb_refl. Qed.

Lemma replay_step (e : env) (d : db) (s : sdb) (t : stamp) (q : robj) (d' : db) r (ord : orders) (ds : dbs) (v : vlog) :
  good e d s -> obj_ok q -> ~ pops q -> handle e d q = Ret (d', r) -> log_of t q = Some v -> orders_ok ord -> db_rel (ds 1) s ->
  exists ds' s', build1 ord ds v = Ret ds' /\ db_rel d' s' /\ db_rel (ds' 1) s'.
Proof.
  intros (He & Hr & Hf) Hok Hp E Hv Ho Hd. apply log_of_spec in Hv as (o & name & args & w & c & -> & Hn & Hs & Hc & M & ->).
  assert (Ha : asks (RArr (o :: args)) c) by (exists o, name, w, args; repeat split; auto; constructor).
  assert (HP : forall k n cs, c <> CSpop k n cs) by (intros k n cs ->; apply Hp; exists k, n, cs; exact Ha).
  pose proof (handle_asks e d s _ c He Hr Hf Ha) as HA. rewrite E in HA. destruct r as [r|]; [|contradiction].
  destruct HA as (s' & Hr' & HA). assert (exists out, spec s c (Some (s', out))) as [out HS] by (destruct HA as [HA|(er & HA & _)]; eauto).
  inversion Hok as [| | | | |? _ HF|]; subst. inversion HF; subst.
  destruct (call_wf _ _ _ Hc) as [Hw Hne]. pose proof (exec_refines ord (ds 1) s c Ho Hd Hf Hw Hne) as HR. unfold refines in HR.
  unfold build1, new_log. cbn [v_args v_name v_index tl]. change (wrap32 1) with 1. rewrite convert_encode by assumption. cbn [rbind].
  rewrite (call_new_command _ _ _ _ Hs Hc). destruct (execute_command ord (ds 1) c) as [[d2 rep]| |]; cbn [rbind fst].
  - destruct HR as (s2 & Hr2 & HH2). pose proof (spec_det _ _ _ _ M HP HS HH2) as EQ. injection EQ as <- _.
    exists (put_db ds 1 d2), s'. rewrite put_db_same. auto.
  - pose proof (spec_det _ _ _ _ M HP HS HR). discriminate.
  - contradiction.
Qed.
Lemma skip_step (e : env) (d : db) (s : sdb) (t : stamp) (q : robj) (d' : db) r :
  good e d s -> ~ trims q -> handle e d q = Ret (d', r) -> log_of t q = None -> db_rel d' s.
Proof.
  intros (He & Hr & Hf) Ht E Hv. pose proof (handle_refines e d s q He Hr Hf) as H. rewrite E in H. destruct H as (s' & Hr' & Ha).
  apply answer_reads in Ha; [subst; exact Hr'|]. intros c Hc. apply modify_writes; [eapply log_of_none; eauto|].
  intros k a b ->. apply Ht. exists k, a, b. exact Hc.
Qed.

Lemma replay_n (ords : nat -> orders) : (forall i, orders_ok (ords i)) -> forall h n i d s ds d2 rs,
  Forall loggable h -> Forall (fun x => ~ trims (h_req x) /\ ~ pops (h_req x)) h ->
  db_rel d s -> bounded n s -> 0 <= n -> n + requests_size (map h_req h) < 2 ^ 62 -> db_rel (ds 1) s ->
  run d (requests h) = Ret (d2, rs) ->
  exists ds2 s2, build ds (zip (map ords (seq i (length (records h)))) (records h)) = Ret ds2 /\ db_rel d2 s2 /\ db_rel (ds2 1) s2.
Proof.
  intros HO. induction h as [|x h IH]; intros n i d s ds d2 rs Hl Hk Hr Hb Hn Hs Hd E.
  { cbn in E. injection E as <- _. exists ds, s. auto. }
  apply Forall_cons in Hl as [Lx Hl]. apply Forall_cons in Hk as [[Kt Kp] Hk]. cbn [map requests_size] in Hs.
  pose proof (request_size_nonneg (h_req x)) as Q0. assert (R0 : 0 <= requests_size (map h_req h)).
  { clear. induction (map h_req h) as [|q l IH]; cbn [requests_size]; [lia|]. pose proof (request_size_nonneg q). lia. }
  pose proof (bounded_fits n s Hb ltac:(lia)) as Hf. destruct Lx as (He & HT & HS & HO' & HU).
  unfold requests in E. cbn [map run] in E. fold (requests h) in E.
  destruct (handle (h_env x) d (h_req x)) as [[d1 r1]| |] eqn:E1; cbn [rbind fst snd] in E; try discriminate.
  destruct (run d1 (requests h)) as [[d3 rs3]| |] eqn:E2; cbn [rbind fst snd] in E; try discriminate. injection E as -> _.
  pose proof (handle_refines _ _ _ (h_req x) He Hr Hf) as HA. rewrite E1 in HA. destruct HA as (s1 & Hr1 & HA).
  pose proof (answer_bounded _ _ _ _ _ Hb Hn HA) as Hb1.
  cbn [records]. destruct (log_of (h_stamp x) (h_req x)) as [v|] eqn:EL.
  - destruct (replay_step _ _ _ _ _ _ _ (ords i) ds v (conj He (conj Hr Hf)) HO' Kp E1 EL (HO i) Hd) as (ds' & s' & B & B1 & B2).
    rewrite (db_rel_fun _ _ _ B1 Hr1) in B2. cbn [length seq map zip zip_with build]. rewrite B. cbn [rbind].
    refine (IH (n + request_size (h_req x)) (S i) d1 s1 ds' d2 _ Hl Hk Hr1 Hb1 _ _ B2 E2); lia.
  - pose proof (skip_step _ _ _ _ _ _ _ (conj He (conj Hr Hf)) Kt E1 EL) as B. pose proof (db_rel_fun _ _ _ Hr1 B) as <-.
    refine (IH (n + request_size (h_req x)) i d1 s1 ds d2 _ Hl Hk Hr1 Hb1 _ _ Hd E2); lia.
Qed.

Theorem rebuilt (ords : nat -> orders) (h : list entry) (bss : list bytes) (d : db) rs :
  (forall i, orders_ok (ords i)) -> Forall loggable h -> Forall (fun x => ~ trims (h_req x) /\ ~ pops (h_req x)) h ->
  requests_size (map h_req h) < 2 ^ 62 -> run new_db (requests h) = Ret (d, rs) -> Forall2 packed (records h) bss ->
  exists ds s, recover ords (List.concat bss) = Ret ds /\ db_rel d s /\ db_rel (ds 1) s.
Proof.
  intros HO Hl Hk Hs E Hp. unfold recover, from_file. rewrite (parse_concat _ _ Hp). cbn [fst].
  refine (replay_n ords HO h 0 0 new_db empty_sdb no_dbs d rs Hl Hk new_db_rel bounded_empty _ _ new_db_rel E); lia.
Qed.
(* ... through the buffered file *)
Theorem rebuilt_file (ords : nat -> orders) (h : list entry) (bss : list bytes) (d : db) rs ws p oks :
  (forall i, orders_ok (ords i)) -> Forall loggable h -> Forall (fun x => ~ trims (h_req x) /\ ~ pops (h_req x)) h ->
  requests_size (map h_req h) < 2 ^ 62 -> run new_db (requests h) = Ret (d, rs) -> Forall2 packed (records h) bss ->
  steps (open_file []) (map PWrite bss ++ [PFlush]) ws = (p, oks) -> nth (length bss) oks false = true ->
  exists ds s, recover ords (p_file p) = Ret ds /\ db_rel d s /\ db_rel (ds 1) s.
Proof.
  intros HO Hl Hk Hs E Hp Hst Hok. assert (p_file p = List.concat bss) as ->; [|eapply rebuilt; eauto].
  rewrite (steps_flushed [] (map PWrite bss) ws p oks Hst); [|now rewrite map_length].
  cbn [app]. f_equal. clear. induction bss; cbn [map written_by]; congruence.
Qed.

(* ---- every effective write is logged ---- *)
Theorem write_logged (x : entry) (d : db) (s : sdb) (d' : db) r : loggable x -> ~ trims (h_req x) -> db_rel d s -> fits s ->
  handle (h_env x) d (h_req x) = Ret (d', r) -> ~ db_rel d' s ->
  exists v b, log_of (h_stamp x) (h_req x) = Some v /\ packed v b /\ v_raw v = Resp.encode (h_req x).
Proof.
  intros Hl Ht Hr Hf E Hc. destruct (log_of (h_stamp x) (h_req x)) as [v|] eqn:EL.
  - destruct (loggable_packed x v Hl EL) as [b Hb]. exists v, b. split; auto. split; auto.
    apply log_of_spec in EL as (o & name & args & w & c & -> & _ & _ & _ & _ & ->). reflexivity.
  - destruct Hc. eapply skip_step; eauto. destruct Hl as (He & _). split; auto.
Qed.

(* ---- order ---- *)
Lemma records_app (h1 h2 : list entry) : records (h1 ++ h2) = records h1 ++ records h2.
Proof. induction h1 as [|x h1 IH]; [reflexivity|]. cbn [app records]. rewrite IH. now destruct (log_of _ _). Qed.
Lemma records_one (x : entry) : records [x] = match log_of (h_stamp x) (h_req x) with Some v => [v] | None => [] end.
Proof. reflexivity. Qed.
Theorem log_permutation (a : lstate) : lreach a -> exists dropped,
  Permutation (records (l_executed a)) (l_log a ++ l_pending a ++ dropped) /\ Forall (fun v => pack_log v = None) dropped.
Proof.
  induction 1 as [|a b _ (dr & P & D) S]; [exists []; split; constructor|]. destruct S; cbn [l_executed l_pending l_log] in *.
  - exists dr. split; [|exact D]. rewrite records_app, records_one, P, <- !app_assoc. do 2 apply Permutation_app_head. apply Permutation_app_comm.
  - exists dr. split; [|exact D]. rewrite P, <- !app_assoc. apply Permutation_app_head. cbn [app]. symmetry. apply Permutation_middle.
  - exists (v :: dr). split; [|now constructor]. rewrite P, <- !app_assoc. do 2 apply Permutation_app_head. cbn [app]. apply Permutation_middle.
Qed.
Lemma loggable_none (h : list entry) (v : vlog) : Forall loggable h -> v ∈ records h -> pack_log v <> None.
Proof.
  induction h as [|x h IH]; intros H Hv; [inversion Hv|]. apply Forall_cons in H as [Hx H]. cbn [records] in Hv.
  destruct (log_of (h_stamp x) (h_req x)) as [v'|] eqn:E; [|auto]. apply elem_of_cons in Hv as [->|Hv]; [|auto].
  destruct (loggable_packed x v' Hx E) as (b & _ & Hb & _). congruence.
Qed.
Theorem log_complete (a : lstate) : lreach a -> Forall loggable (l_executed a) -> l_pending a = [] ->
  Permutation (l_log a) (records (l_executed a)).
Proof.
  intros H Hl Hp. destruct (log_permutation a H) as (dr & P & D). rewrite Hp in P. cbn [app] in P. destruct dr as [|v dr].
  - now rewrite app_nil_r in P.
  - apply Forall_cons in D as [D _]. exfalso. refine (loggable_none _ v Hl _ D). rewrite P. apply elem_of_app. right. left.
Qed.
Lemma lstep_executed (a b : lstate) : lstep a b -> exists x, l_executed b = l_executed a ++ x.
Proof. intros []; cbn; [eexists; reflexivity|exists []; now rewrite app_nil_r|exists []; now rewrite app_nil_r]. Qed.
Theorem log_in_order (a : lstate) : lcalm a -> Forall loggable (l_executed a) ->
  l_log a ++ l_pending a = records (l_executed a) /\ (length (l_pending a) <= 1)%nat.
Proof.
  induction 1 as [|a b Ha IH S C]; intros Hl; [split; [reflexivity|cbn; lia]|].
  assert (Hl' : Forall loggable (l_executed a)). { destruct (lstep_executed _ _ S) as [x E]. rewrite E in Hl. now apply Forall_app in Hl as [Hl _]. }
  destruct (IH Hl') as [I1 I2]. destruct S; cbn [l_executed l_pending l_log] in *.
  - destruct C as [C|C]; [apply (f_equal length) in C; rewrite app_length in C; cbn in C; lia|]. subst p. rewrite app_nil_r in I1.
    rewrite records_app, records_one, <- I1. cbn [app]. split; [reflexivity|]. destruct (log_of _ _); cbn; lia.
  - rewrite app_length in I2. cbn [length] in I2. destruct p1; [|cbn [length] in I2; lia]. destruct p2; [|cbn [length] in I2; lia].
    cbn [app] in *. rewrite app_nil_r. split; [exact I1|cbn; lia].
  - exfalso. refine (loggable_none _ v Hl' _ H). rewrite <- I1. apply elem_of_app. right. apply elem_of_app. right. left.
Qed.
