(* The server is linearizable: the order in which requests are handled explains every run. *)
From Coq Require Import List Arith Lia ZArith.
From Verif Require Import Base Lts Resp RequestSpec Engine EngineProofs EngineFacts Db Server ServerSpec ServerProofs NodeProofs SpecDb LinSpec.
Import ListNotations.

Definition as_call (x : nat * nat * env * robj * option robj) : call := match x with (c, k, _, q, o) => mkCall c k q o end.
Definition turns_of (tr : list event) : list (env * robj) := map fst (map hturn (handled tr)).
Lemma in_handled tr c k e q o : In (c, k, e, q, o) (handled tr) <-> In (SHandle c k e q o) tr.
Proof.
  unfold handled. rewrite in_flat_map. split.
  - intros (a & H & X). destruct a; cbn in X; try contradiction. destruct X as [X|[]]. inversion X; subst. exact H.
  - intros H. exists (SHandle c k e q o). cbn. auto.
Qed.
Lemma turn_run d l d' : in_turn d l d' -> run d (map fst l) = Ret (d', map snd l).
Proof. induction 1 as [|l d1 e q o d2 T IH E]; [reflexivity|]. rewrite !map_app, run_app, IH. cbn [rbind map fst snd run]. rewrite E. reflexivity. Qed.
Lemma before_map {A B : Type} (f : A -> B) (l : list A) a b : before l a b -> before (map f l) (f a) (f b).
Proof. intros (x & y & z & ->). exists (map f x), (map f y), (map f z). rewrite map_app. cbn. rewrite map_app. reflexivity. Qed.
Lemma before_flat {A B : Type} (f : A -> list B) (l : list A) a b u v : before l a b -> f a = [u] -> f b = [v] -> before (flat_map f l) u v.
Proof. intros (x & y & z & ->) Ea Eb. exists (flat_map f x), (flat_map f y), (flat_map f z). rewrite flat_map_app. cbn. rewrite flat_map_app. cbn. rewrite Ea, Eb. reflexivity. Qed.

(* A reply given before a request is read was decided before that request was handled. *)
Lemma decided cl d input tr s c i k r c' i' k' q' e' o' : runs cl d input tr s -> before tr (SWrite c i k r) (SRead c' i' k' q') -> In (SHandle c' k' e' q' o') tr ->
  exists e q, before tr (SHandle c k e q (Some r)) (SHandle c' k' e' q' o').
Proof.
  intros R B H. apply before_cut in B as (x & y & -> & B). destruct (runs_prefix _ _ _ _ _ _ R) as (s1 & R1).
  destruct (written_handled _ _ _ _ _ _ _ _ _ R1 B) as (e & q & W). apply before_in in W as [W _]. exists e, q.
  apply in_app_iff in H as [H|[H|H]]; [|discriminate|now apply before_parts].
  exfalso. destruct (handled_read _ _ _ _ _ _ _ _ _ _ R1 H) as (j & Q). apply before_in in Q as [Q _].
  pose proof (read_in_order _ _ _ _ _ c' R) as N. unfold reads in N. rewrite flat_map_app, map_app in N. cbn [flat_map read_of] in N. rewrite Nat.eqb_refl in N. cbn [map app fst] in N.
  assert (NoDup (map fst (flat_map (read_of c') x) ++ k' :: map fst (flat_map (read_of c') y))) as D by (rewrite N; apply seq_NoDup).
  apply NoDup_remove_2 in D. apply D. apply in_app_iff. left. apply in_map_iff. exists (k', q'). split; [reflexivity|]. apply reads_in. eauto.
Qed.
Lemma same_name tr x y : NoDup (map request_of (handled tr)) -> In x (handled tr) -> In y (handled tr) -> request_of x = request_of y -> x = y.
Proof.
  generalize (handled tr) as l. intros l. induction l as [|a l IH]; cbn; intros ND Hx Hy E; [contradiction|]. inversion ND; subst.
  destruct Hx as [->|Hx], Hy as [->|Hy]; auto; exfalso; match goal with N : ~ In _ _ |- _ => apply N; rewrite E + rewrite <- E; now apply in_map end.
Qed.

Theorem linear cl d input tr s h0 rs0 : runs cl d input tr s -> run new_db h0 = Ret (d, rs0) ->
  Forall (fun x => env_ok (fst x)) (h0 ++ turns_of tr) -> (requests_size (map snd (h0 ++ turns_of tr)) < 2 ^ 62)%Z ->
  explains input (map snd h0) rs0 tr (map as_call (handled tr)).
Proof.
  intros R R0 He Hs. pose proof (handled_once _ _ _ _ _ R) as ND. constructor.
  - replace (map name (map as_call (handled tr))) with (map request_of (handled tr)); [exact ND|]. rewrite map_map. apply map_ext. intros [[[[c k] e] q] o]. reflexivity.
  - intros x Hx. apply in_map_iff in Hx as ([[[[c k] e] q] o] & <- & Hx). cbn. apply in_handled in Hx.
    destruct (handled_read _ _ _ _ _ _ _ _ _ _ R Hx) as (i & B). apply before_in in B as [B _]. split; [exact (read_nth _ _ _ _ _ _ _ _ _ R B)|eauto].
  - intros c i k r W. destruct (written_handled _ _ _ _ _ _ _ _ _ R W) as (e & q & B). apply before_in in B as [B _]. exists q.
    apply in_map_iff. exists (c, k, e, q, Some r). split; [reflexivity|]. now apply in_handled.
  - intros x y i r i' Hx Hy B. apply in_map_iff in Hx as ([[[[c k] e] q] o] & <- & Hx). apply in_map_iff in Hy as ([[[[c' k'] e'] q'] o'] & <- & Hy). cbn in B.
    pose proof Hy as Hy'. apply in_handled in Hy'. destruct (decided _ _ _ _ _ _ _ _ _ _ _ _ _ _ _ R B Hy') as (e1 & q1 & D).
    pose proof (before_in _ _ _ D) as [D1 _]. apply in_handled in D1.
    pose proof (same_name tr _ _ ND Hx D1 eq_refl) as E. rewrite E.
    apply (before_map as_call (handled tr)). unfold handled. eapply before_flat; [exact D|reflexivity|reflexivity].
  - pose proof (runs_turn _ _ _ _ _ R) as T. pose proof (turn_run _ _ _ T) as E. fold (turns_of tr) in E.
    pose proof (runs_refine _ He Hs) as F. rewrite run_app, R0 in F. cbn [rbind fst] in F. rewrite E in F. cbn [rbind fst snd] in F.
    destruct F as (s1 & _ & _ & A). exists s1. rewrite map_app in A.
    replace (map n_req (map as_call (handled tr))) with (map snd (turns_of tr)).
    replace (map n_reply (map as_call (handled tr))) with (map snd (map hturn (handled tr))); [exact A|].
    + rewrite !map_map. apply map_ext. intros [[[[c k] e] q] o]. reflexivity.
    + unfold turns_of. rewrite !map_map. apply map_ext. intros [[[[c k] e] q] o]. reflexivity.
Qed.
