(* C51, C52, C53: the sorted set (a skip list). *)
From Coq Require Import ZArith List Bool SpecFloat String.
From Verif Require Import Base IndexSpec SkipList SortedSetSpec SkipListProofs.
Import ListNotations.
Local Open Scope nat_scope.
Local Open Scope list_scope.

Definition one : spec_float := S754_finite false 4503599627370496 (-52).
Definition two : spec_float := S754_finite false 4503599627370496 (-51).
Definition replies (os : list zop) : res (list zret) := match z_run new_zset os with Ret (_, rs) => Ret rs | Panic => Panic | NoFuel => NoFuel end.

(* C51 is false: a member on fewer levels than one behind it stays in the list when it is
   deleted; the next to pop is gone but still first. *)
Theorem C51_deleted_stays_refuted : exists os, replies os = Ret [ZDone; ZDone; ZFail ENotFound; ZInt 1] /\
  os = [OAdd [one; two] [bs "a"; bs "b"] [1; 2]; ODel [bs "a"]; OScore (bs "a"); OLen] /\ replies (os ++ [OPopMin]) = Panic.
Proof. eexists. split; [|split; [reflexivity|]]; vm_compute; reflexivity. Qed.
Print Assumptions C51_deleted_stays_refuted.
(* ... the empty name is out of order, ... *)
Theorem C51_empty_name_refuted : precedes (Member one [] 1) (Member one (bs "b") 1) /\
  replies [OAdd [one; one] [[]; bs "b"] [1; 1]; OPopMin] = Ret [ZDone; ZData (Some (bs "b"))].
Proof. split; [right; split; [reflexivity|constructor]|vm_compute; reflexivity]. Qed.
Print Assumptions C51_empty_name_refuted.
(* ... and adding a present member with another score does not change the score. *)
Theorem C51_add_again_refuted : one <> two /\ replies [OAdd [one] [bs "a"] [1]; OAdd [two] [bs "a"] [1]; OScore (bs "a")] = Ret [ZDone; ZDone; ZScore one].
Proof. split; [discriminate|vm_compute; reflexivity]. Qed.
Print Assumptions C51_add_again_refuted.
(* What holds: every history in which no removed member is followed by one on more levels, no
   score is NaN and no name is empty, answers as specified. *)
Theorem C51_history_partial : forall os rs A t, history os rs A t -> exists z, z_run new_zset os = Ret (z, rs).
Proof. intros os rs A t H. destruct (history_ok os rs A t H) as (z & E & _). eauto. Qed.
Print Assumptions C51_history_partial.
(* Among them: any history of additions, with any levels; ... *)
Theorem C51_additions_partial : forall os, Forall adding os -> exists rs A t z, history os rs A t /\ z_run new_zset os = Ret (z, rs).
Proof. intros os H. destruct (adding_total os H) as (rs & A & t & Hh & _). destruct (history_ok _ _ _ _ Hh) as (z & E & _). exists rs, A, t, z. auto. Qed.
Print Assumptions C51_additions_partial.
Example C51_additions_ex : Forall adding [OAdd [one; two] [bs "a"; bs "b"] [1; 2]; OScore (bs "b"); OLen] /\
  replies [OAdd [one; two] [bs "a"; bs "b"] [1; 2]; OScore (bs "b"); OLen] = Ret [ZDone; ZScore two; ZInt 2].
Proof. split; [|vm_compute; reflexivity]. repeat constructor; try discriminate. Qed.
(* ... any history with the same number of levels throughout (one, most of the time). *)
Theorem C51_equal_levels_partial : forall d A t o, 1 <= d <= 32 -> even d A -> calm d A o -> exists r A' t', does A t o r A' t' /\ even d A'.
Proof. exact calm_total. Qed.
Print Assumptions C51_equal_levels_partial.
Example C51_equal_levels_ex : even 1 [Member one (bs "a") 1; Member two (bs "b") 1] /\ calm 1 [Member one (bs "a") 1; Member two (bs "b") 1] (OIncr (bs "a") two 1).
Proof.
  split; [split|split; [reflexivity|]].
  - repeat constructor; discriminate.
  - repeat constructor; cbn; intros H; repeat (destruct H as [H|H]; try discriminate); contradiction.
  - intros x [<-|[<-|[]]] _; vm_compute; discriminate.
Qed.
(* The number of levels is 1 to 32 whatever the generator returns. *)
Theorem C51_levels : forall draws n, get_random_level draws = Ret n -> 1 <= n <= 32.
Proof. intros draws n. apply random_level_range. auto. Qed.
Print Assumptions C51_levels.
(* It is one more than the number of multiples of 4 the generator gives in a row, up to 32. *)
Theorem C51_levels_drawn : forall draws x rest, Forall (fun r => Z.rem r 4 = 0%Z) draws -> Z.rem x 4 <> 0%Z ->
  get_random_level (draws ++ x :: rest) = Ret (Nat.min 32 (1 + List.length draws)).
Proof. intros draws x rest F Hx. exact (random_level_is draws x rest F Hx 1). Qed.
Print Assumptions C51_levels_drawn.
Example C51_levels_drawn_ex : Forall (fun r => Z.rem r 4 = 0%Z) [8; 4]%Z /\ Z.rem 5 4 <> 0%Z /\ get_random_level (List.repeat 4 40 ++ [1])%Z = Ret 32.
Proof. split; [repeat constructor|]. split; [discriminate|reflexivity]. Qed.
Example C51_levels_ex : get_random_level [8; 4; 5]%Z = Ret 3.
Proof. reflexivity. Qed.
(* A run of the specification. *)
Definition ex_os : list zop := [OAdd [two; one] [bs "b"; bs "a"] [1; 1]; OPopMin; OPopMax].
Example C51_history_ex : history ex_os [ZDone; ZData (Some (bs "a")); ZData (Some (bs "b"))] [] false.
Proof.
  apply (history_snoc [_; _] [_; _] [Member two (bs "b") 1] true); [apply (history_snoc [_] [_] [Member one (bs "a") 1; Member two (bs "b") 1] true); [apply (history_snoc [] [] [] true); [constructor|]|]|].
  - constructor. eapply put_all_cons; [apply (put_new [] true two (bs "b") 1 true); [intros []|repeat constructor; discriminate|tauto]|].
    eapply put_all_cons; [apply (put_new _ true one (bs "a") 1 true)|constructor]; [intros [H|[]]; discriminate|repeat constructor; discriminate|tauto].
  - apply does_min with (x := Member one (bs "a") 1); [now left|intros y [<-|[<-|[]]]; [auto|right; left; reflexivity]|].
    apply (take_one _ _ _ [] [Member two (bs "b") 1]); [reflexivity|intros y [<-|[]] _; auto|]. split; [|reflexivity]. intros _. split; [reflexivity|].
    exists (Member two (bs "b") 1). split; [now left|]. left. reflexivity.
  - apply does_max with (x := Member two (bs "b") 1); [now left|intros y [<-|[]]; auto|].
    apply (take_one _ _ _ [] []); [reflexivity|intros y []|]. split; [discriminate|]. intros (_ & y & [] & _).
Qed.

(* C52 is false: popping the lowest leaves it in the list if the other is on more levels, ... *)
Theorem C52_pop_min_refuted : replies [OAdd [one; two] [bs "a"; bs "b"] [1; 2]; OPopMin] = Ret [ZDone; ZData (Some (bs "a"))] /\
  replies [OAdd [one; two] [bs "a"; bs "b"] [1; 2]; OPopMin; OPopMin] = Panic.
Proof. split; vm_compute; reflexivity. Qed.
Print Assumptions C52_pop_min_refuted.
(* ... and the highest can be popped only once. *)
Theorem C52_pop_max_refuted : replies [OAdd [one; two] [bs "a"; bs "b"] [1; 1]; OPopMax] = Ret [ZDone; ZData (Some (bs "b"))] /\
  replies [OAdd [one; two] [bs "a"; bs "b"] [1; 1]; OPopMax; OPopMax] = Panic.
Proof. split; vm_compute; reflexivity. Qed.
Print Assumptions C52_pop_max_refuted.
(* What holds: after a history as above, PopMin returns the lowest member if no other is on more
   levels, ... *)
Theorem C52_pop_min_partial : forall os rs A t x, history os rs A t -> In x A -> (forall y, In y A -> y = x \/ precedes x y) ->
  (forall y, In y A -> m_height y <= m_height x) -> exists z, z_run new_zset (os ++ [OPopMin]) = Ret (z, rs ++ [ZData (Some (m_name x))]).
Proof. exact pop_min_lowest. Qed.
Print Assumptions C52_pop_min_partial.
(* ... and PopMax the highest, if it was added after the last removal of a highest member (t). *)
Theorem C52_pop_max_partial : forall os rs A x, history os rs A true -> In x A -> (forall y, In y A -> y = x \/ precedes y x) ->
  exists z, z_run new_zset (os ++ [OPopMax]) = Ret (z, rs ++ [ZData (Some (m_name x))]).
Proof. exact pop_max_highest. Qed.
Print Assumptions C52_pop_max_partial.
Example C52_ex : replies ex_os = Ret [ZDone; ZData (Some (bs "a")); ZData (Some (bs "b"))].
Proof. vm_compute. reflexivity. Qed.

(* C53 is false: Rank crashes for every member of every set. *)
Theorem C53_rank_refuted : forall os rs A t x, history os rs A t -> In x A -> z_run new_zset (os ++ [ORank (m_name x)]) = Panic.
Proof. exact rank_panics. Qed.
Print Assumptions C53_rank_refuted.
Example C53_ex : exists A t x, history (firstn 1 ex_os) [ZDone] A t /\ In x A /\ m_name x = bs "a".
Proof.
  exists [Member one (bs "a") 1; Member two (bs "b") 1], true, (Member one (bs "a") 1). split; [|split; [now left|reflexivity]].
  apply (history_snoc [] [] [] true); [constructor|]. constructor.
  eapply put_all_cons; [apply (put_new [] true two (bs "b") 1 true); [intros []|repeat constructor; discriminate|tauto]|].
  eapply put_all_cons; [apply (put_new _ true one (bs "a") 1 true)|constructor]; [intros [H|[]]; discriminate|repeat constructor; discriminate|tauto].
Qed.
(* For an absent member it reports that. *)
Theorem C53_absent_partial : forall os rs A t e, history os rs A t -> ~ In e (map m_name A) -> exists z, z_run new_zset (os ++ [ORank e]) = Ret (z, rs ++ [ZFail ENotFound]).
Proof. intros os rs A t e H He. destruct (history_ok _ _ _ _ (history_snoc _ _ _ _ _ _ _ _ H (does_no_rank A t e He))) as (z & E & _). eauto. Qed.
Print Assumptions C53_absent_partial.
