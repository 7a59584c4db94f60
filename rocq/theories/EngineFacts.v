(* Facts about single requests: read-only commands, frame, command lookup. *)
From Verif Require Import Base BaseFacts IntSpec IndexSpec ListSpec Resp Command SpecDb RequestSpec CommandProofs IdealSpec Db DbProofs
  Engine EngineProofs SpecFacts.
From Coq Require Import ZArith List Ascii String Bool Lia.
From stdpp Require Import gmap.
Open Scope Z_scope.

Lemma answer_reads (s : sdb) (q : robj) (s' : sdb) r : answer s q (Some (s', r)) -> (forall c, asks q c -> written c = []) -> s' = s.
Proof. intros H Hw. inversion H; subst; auto; eapply spec_reads; eauto. Qed.
Lemma read_only (e : env) (d : db) (s : sdb) (q : robj) (c : cmd) (d' : db) r :
  good e d s -> asks q c -> is_modify c = false -> (forall k a b, c <> CLtrim k a b) -> handle e d q = Ret (d', r) -> db_rel d' s.
Proof.
  intros (He & Hr & Hf) Hq Hm Ht E. pose proof (handle_refines e d s q He Hr Hf) as H. rewrite E in H. destruct H as (s' & Hr' & Ha).
  apply answer_reads in Ha; [subst; exact Hr'|]. intros c' Hc'. rewrite (asks_det q c' c Hc' Hq).
  destruct c; cbn in Hm |- *; try discriminate Hm; try reflexivity. destruct (Ht _ _ _ eq_refl).
Qed.
(* Conversely whatever is classified as modifying names the key it may write. *)
Lemma modify_writes (c : cmd) : is_modify c = false -> (forall k a b, c <> CLtrim k a b) -> written c = [].
Proof. intros Hm Ht. destruct c; cbn in Hm |- *; try discriminate Hm; try reflexivity. destruct (Ht _ _ _ eq_refl). Qed.

Lemma written_named (c : cmd) (k : bytes) : k ∈ written c -> k ∈ names c.
Proof. destruct c; cbn [written names]; intros H; try (apply elem_of_nil in H; contradiction); exact H. Qed.
Lemma frame (e : env) (d : db) (s : sdb) (q : robj) (d' : db) r : good e d s -> handle e d q = Ret (d', r) ->
  exists s', db_rel d' s' /\
    forall t (k : bytes), (forall c, asks q c -> kind_of c <> t \/ k ∉ names c) -> same_at t k s s'.
Proof.
  intros (He & Hr & Hf) E. pose proof (handle_refines e d s q He Hr Hf) as H. rewrite E in H. destruct H as (s' & Hr' & Ha).
  exists s'. split; auto. intros t k Hk. eapply answer_frame; eauto. intros (c & Hc & Ht & Hw).
  destruct (Hk c Hc) as [H|H]; [auto|]. apply H. now apply written_named.
Qed.

Lemma handle_parts (e : env) (d : db) (q : robj) (l : list robj) : parts q l ->
  handle e d q = let! r := handle_objects e d l in Ret (fst r, Some (snd r)).
Proof. now inversion 1. Qed.
Lemma lookup_unknown (e : env) (d : db) (q o : robj) (args : list robj) (name : bytes) :
  parts q (o :: args) -> is_str o name -> (forall w, w ∈ command_words -> ~ spells name w) ->
  handle e d q = Ret (d, Some (err "ERR no such command")).
Proof.
  intros Hp Hs Hn. rewrite (handle_parts e d q _ Hp). cbn [handle_objects]. apply str_arg_spec in Hs. rewrite Hs.
  pose proof (new_command_spec name args) as H. destruct (new_command name args) as [c|er].
  - destruct H as (w & H1 & H2). apply call_word in H2. destruct (Hn w H2 H1).
  - destruct er; try contradiction; [reflexivity|]. destruct H as (w & H1 & H2 & _). destruct (Hn w H1 H2).
Qed.
Lemma lookup_no_parts (e : env) (d : db) (q : robj) : parts q [] -> handle e d q = Ret (d, Some (err "ERR vertex server internal error, err=empty request objects")).
Proof. intros Hp. rewrite (handle_parts e d q _ Hp). reflexivity. Qed.
Lemma lookup_nameless (e : env) (d : db) (q o : robj) (args : list robj) : parts q (o :: args) -> (forall n, ~ is_str o n) ->
  handle e d q = Ret (d, Some (RErr (bs "ERR vertex server internal error, err=invalid command name, raw=" ++ Resp.encode o))).
Proof.
  intros Hp Hn. rewrite (handle_parts e d q _ Hp). cbn [handle_objects]. destruct (str_arg o) as [n|] eqn:S; [apply str_arg_spec in S; destruct (Hn n S)|]. reflexivity.
Qed.
Lemma lookup_invalid (e : env) (d : db) (q o : robj) (args : list robj) (name w : bytes) :
  parts q (o :: args) -> is_str o name -> w ∈ command_words -> spells name w -> (forall c, ~ call w args c) ->
  handle e d q = Ret (d, Some (err "ERR invalid argument")).
Proof.
  intros Hp Hs Hw Hsp Hn. rewrite (handle_parts e d q _ Hp). cbn [handle_objects]. apply str_arg_spec in Hs. rewrite Hs.
  pose proof (new_command_spec name args) as H. destruct (new_command name args) as [c|er].
  - destruct H as (w' & H1 & H2). apply spells_lower in Hsp, H1. subst w w'. destruct (Hn _ H2).
  - destruct er; try contradiction; [|reflexivity]. destruct (H w Hw Hsp).
Qed.
Lemma spec_no_nocmd (s : sdb) (c : cmd) (s' : sdb) er : spec s c (Some (s', inr er)) -> er <> ENoCmd.
Proof. intros H. destruct c; cbn [spec] in H; crunch H; try discriminate H; injection H as -> ->; discriminate. Qed.
Lemma lookup_known (e : env) (d : db) (s : sdb) (q o : robj) (args : list robj) (name w : bytes) :
  good e d s -> parts q (o :: args) -> is_str o name -> w ∈ command_words -> spells name w ->
  forall d', handle e d q <> Ret (d', Some (err "ERR no such command")).
Proof.
  intros (He & Hr & Hf) Hp Hs Hw Hsp d' E. pose proof (handle_refines e d s q He Hr Hf) as H. rewrite E in H. destruct H as (s' & Hr' & Ha).
  inversion Ha as [|r P I|o1 a1 r P I I2|o1 a1 n1 P I N|o1 a1 n1 w1 P I I2 I3 I4|c A S|c s1 r1 A S|c s1 er r1 A S T]; subst.
  - inversion P; subst; inversion Hp.
  - destruct I2 as [t I2]. unfold err in I2. injection I2 as I2. vm_compute in I2. discriminate I2.
  - assert (o1 = o) by (inversion P; subst; inversion Hp; congruence). subst o1.
    apply str_arg_spec in I, Hs. assert (n1 = name) by congruence. subst n1. exact (N w Hw Hsp).
  - exact (reply_not_error _ _ _ _ S _ eq_refl).
  - pose proof (spec_no_nocmd _ _ _ _ S) as Hn. destruct er; cbn [error_text] in T; try discriminate T; [congruence|].
    destruct T as [t T]. unfold err in T. injection T as T. vm_compute in T. discriminate T.
Qed.
Lemma letter_case (e : env) (d : db) (o o' : robj) (args : list robj) (n n' w : bytes) :
  is_str o n -> is_str o' n' -> spells n w -> spells n' w -> handle e d (RArr (o :: args)) = handle e d (RArr (o' :: args)).
Proof.
  intros H1 H2 S1 S2. apply str_arg_spec in H1, H2. cbn [handle handle_objects]. rewrite H1, H2.
  unfold new_command. apply spells_lower in S1, S2. rewrite S1, S2. reflexivity.
Qed.
Lemma upper_spells (w : bytes) : Forall (fun c => 97 <= byteZ c <= 122) w -> spells w w.
Proof. induction 1; constructor; auto. Qed.
Lemma words_spelt : Forall (fun w => spells w w) command_words.
Proof.
  apply List.Forall_forall. intros w H. apply elem_of_list_In in H. apply upper_spells. now apply words_lower in H.
Qed.

Lemma contents_unique (d : db) (s s' : sdb) : db_rel d s -> db_rel d s' -> s = s'.
Proof. exact (db_rel_fun d s s'). Qed.
Lemma runs_refine (h : list (env * robj)) : Forall (fun x => env_ok (fst x)) h -> requests_size (map snd h) < 2 ^ 62 ->
  match run new_db h with
  | Ret (d, rs) => exists s, db_rel d s /\ fits s /\ answers empty_sdb (map snd h) (Some (s, rs))
  | Panic => answers empty_sdb (map snd h) None
  | NoFuel => False
  end.
Proof.
  intros He Hs. pose proof (run_refines h He Hs) as H. destruct (run new_db h) as [[d rs]| |] eqn:E; cbn in H; auto.
  now apply run_fits.
Qed.
Lemma array_reply (e : env) (d : db) (q : robj) (l : list robj) (d' : db) r : parts q l -> handle e d q = Ret (d', r) -> r <> None.
Proof.
  intros Hp. rewrite (handle_parts e d q l Hp). destruct (handle_objects e d l) as [[d1 r1]| |]; cbn; try discriminate.
  intros [= _ <-]. discriminate.
Qed.
