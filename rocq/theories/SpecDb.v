(* The reference machine: what every command means on plain finite maps, sequences and
   sets.  It knows nothing of the Go data structures.  Where the implementation departs
   from what a user would expect, the departure is written out and marked (quirk); the
   Props files then say for each property whether it holds in spite of it. *)
From Verif Require Import Base IntSpec IndexSpec ListSpec Resp Command.
From Coq Require Import ZArith List Ascii String Bool.
From stdpp Require Import gmap.
Open Scope Z_scope.

Record sdb := mkSdb {
  ss : gmap bytes bytes;
  sl : gmap bytes (list bytes);
  sh : gmap bytes (gmap bytes bytes);
  st : gmap bytes (gset bytes)
}.
Definition empty_sdb : sdb := mkSdb ∅ ∅ ∅ ∅.
Definition with_ss (s : sdb) x := mkSdb x (sl s) (sh s) (st s).
Definition with_sl (s : sdb) x := mkSdb (ss s) x (sh s) (st s).
Definition with_sh (s : sdb) x := mkSdb (ss s) (sl s) x (st s).
Definition with_st (s : sdb) x := mkSdb (ss s) (sl s) (sh s) x.

(* None: the server crashes. *)
Notation outcome := (option (sdb * (robj + cerr))).
Definition says (s : sdb) (r : robj) : outcome := Some (s, inl r).
Definition errs (s : sdb) (e : cerr) : outcome := Some (s, inr e).
Definition r_ok : robj := RSimple (bs "OK").
Definition r_opt (v : option bytes) : robj := match v with Some d => RBulk d | None => RNullBulk end.
Definition r_nat (n : nat) : robj := RInt (Z.of_nat n).

(* an absent string reads as the empty one *)
Definition text (o : option bytes) : bytes := match o with Some t => t | None => [] end.

Definition is_int (t : bytes) (n : Z) : Prop := denotes t n /\ int64_ok n.

(* write the pairs one after the other *)
Fixpoint put_pairs (m : gmap bytes bytes) (l : list (bytes * bytes)) : gmap bytes bytes :=
  match l with
  | [] => m
  | (k, v) :: l' => put_pairs (<[k := v]> m) l'
  end.

(* bytes a..b of a string, inclusive, b clipped *)
Definition str_range (a b : Z) (t : bytes) : bytes :=
  let n := blen t in
  let pa := position a n in let pb := position b n in
  if (0 <=? pa) && (pa <? n) && (pa <=? pb) then sub_list pa (Z.min pb (n - 1)) t else [].

(* [l] lists the elements of [X], each once *)
Definition lists_set (l : list bytes) (X : gset bytes) : Prop :=
  NoDup l /\ forall x, x ∈ l <-> x ∈ X.
(* [l] is a choice of [n] distinct elements of [X], or of all if there are fewer *)
Definition picks (l : list bytes) (n : Z) (X : gset bytes) : Prop :=
  NoDup l /\ (forall x, x ∈ l -> x ∈ X) /\ Z.of_nat (length l) = Z.min n (Z.of_nat (size X)).

Definition list_or_nil (s : sdb) (k : bytes) : list bytes := default [] (sl s !! k).
Definition set_or_empty (s : sdb) (k : bytes) : gset bytes := default ∅ (st s !! k).

(* The text the list implementation uses internally for its end markers. *)
Definition reserved : bytes := bs "dummy string".

(* INCRBY / DECRBY; [f] is addition or subtraction *)
Definition spec_arith (f : Z -> Z -> Z) (s : sdb) (k a : bytes) (out : outcome) : Prop :=
  (exists n, is_int a n /\
     match ss s !! k with
     | None => out = errs s ENoKey
     | Some t =>
         (exists v t', is_int t v /\
            (* quirk: overflow wraps *)
            canonical t' (wrap64 (f v n)) /\
            out = says (with_ss s (<[k := t']> (ss s))) (RInt (wrap64 (f v n)))) \/
         ((forall v, ~ is_int t v) /\ out = errs s ENotInt)
     end) \/
  ((forall n, ~ is_int a n) /\ out = errs s EInternal).

(* SDIFF, SINTER, SUNION on the named sets, absent ones being empty *)
Definition spec_sets (op : gset bytes -> list (gset bytes) -> gset bytes) (s : sdb) (ks : list bytes)
  (out : outcome) : Prop :=
  match map (set_or_empty s) ks with
  | [] => out = says s RNullArr
  | X :: Xs =>
      let R := op X Xs in
      (R = ∅ /\ out = says s RNullArr) \/
      (R <> ∅ /\ exists l, lists_set l R /\ out = says s (RArr (map RBulk l)))
  end.

(* SPOP/SRANDMEMBER reply for the chosen elements *)
Definition pick_reply (l : list bytes) (count_set : bool) : option robj :=
  match count_set, l with
  | true, [] => Some RNullArr
  | true, _ => Some (RArr (map RBulk l))
  | false, x :: _ => Some (RBulk x)
  | false, [] => None
  end.

Definition spec (s : sdb) (c : cmd) (out : outcome) : Prop :=
  match c with
  (* strings *)
  | CSet k v => out = says (with_ss s (<[k := v]> (ss s))) r_ok
  | CGet k => out = says s (r_opt (ss s !! k))
  | CMset ks vs =>
      (* quirk: MSET without arguments is an internal error *)
      if bool_decide (ks = []) then out = errs s EInternal
      else out = says (with_ss s (put_pairs (ss s) (zip ks vs))) r_ok
  | CMget ks => out = says s (RArr (map (fun k => r_opt (ss s !! k)) ks))
  | CExists ks => out = says s (r_nat (length (filter (fun k => is_Some (ss s !! k)) ks)))
  | CStrlen k => out = says s (RInt (blen (text (ss s !! k))))
  | CAppend k v =>
      let t := text (ss s !! k) ++ v in
      out = says (with_ss s (<[k := t]> (ss s))) (RInt (blen t))
  | CIncr k a => spec_arith Z.add s k a out
  | CDecr k a => spec_arith Z.sub s k a out
  | CGetrange k a b => out = says s (RBulk (str_range a b (text (ss s !! k))))
  (* lists *)
  | CLpop k =>
      match sl s !! k with
      | Some (v :: vs) => out = says (with_sl s (<[k := vs]> (sl s))) (RBulk v)
      | _ => out = says s RNullBulk
      end
  | CRpop k =>
      match list_or_nil s k with
      | [] => out = says s RNullBulk
      | _ => exists vs v, sl s !! k = Some (vs ++ [v]) /\ out = says (with_sl s (<[k := vs]> (sl s))) (RBulk v)
      end
  | CLpush k vs =>
      (* quirk: the empty key is an internal error *)
      if bool_decide (k = []) then out = errs s EInternal
      else let l := rev vs ++ list_or_nil s k in
           out = says (with_sl s (<[k := l]> (sl s))) (r_nat (length l))
  | CRpush k vs =>
      if bool_decide (k = []) then out = errs s EInternal
      else let l := list_or_nil s k ++ vs in
           out = says (with_sl s (<[k := l]> (sl s))) (r_nat (length l))
  | CLrange k a b =>
      (* quirk: an empty selection is the null array; the end is resolved twice (seg_right) *)
      match seg_sel a b (list_or_nil s k) with
      | Some r => out = says s (RArr (map RBulk r))
      | None => out = says s RNullArr
      end
  | CLindex k i =>
      let l := list_or_nil s k in
      let p := position i (Z.of_nat (length l)) in
      out = says s (r_opt (if 0 <=? p then l !! Z.to_nat p else None))
  | CLlen k => out = says s (r_nat (length (list_or_nil s k)))
  | CLset k i v =>
      match sl s !! k with
      | None => out = errs s ENoKey
      | Some l =>
          let p := position i (Z.of_nat (length l)) in
          if (0 <=? p) && (p <? Z.of_nat (length l))
          then out = says (with_sl s (<[k := <[Z.to_nat p := v]> l]> (sl s))) r_ok
          else out = errs s ERange
      end
  | CLrem k n v =>
      match sl s !! k with
      | None => out = says s (RInt 0)
      | Some l =>
          if n =? - 2 ^ 63 then out = says s (RInt 0) (* quirk: cannot be negated *)
          else if bool_decide (v = reserved) then
            (* quirk: the end marker is taken for an element *)
            if (n =? 0) && bool_decide (l = []) then out = says s (RInt 0) else out = None
          else let l' := lrem_spec n v l in
               out = says (with_sl s (<[k := l']> (sl s))) (RInt (Z.of_nat (length l) - Z.of_nat (length l')))
      end
  | CLtrim k a b =>
      match sl s !! k with
      | None => out = says s r_ok
      | Some l =>
          match seg_sel a b l with
          | Some r => out = says (with_sl s (<[k := r]> (sl s))) r_ok
          | None => out = says s r_ok (* quirk: an empty range keeps everything *)
          end
      end
  | CLinsert k after p v =>
      match sl s !! k with
      | None => out = says s (RInt 0)
      | Some l =>
          if bool_decide (p = reserved) then
            (* quirk: the front end marker is taken for the pivot *)
            if after then out = says (with_sl s (<[k := v :: l]> (sl s))) (r_nat (S (length l)))
            else out = None
          else match insert_near after p v l with
               | Some l' => out = says (with_sl s (<[k := l']> (sl s))) (r_nat (length l'))
               | None => out = says s (RInt (-1))
               end
      end
  (* hashes *)
  | CHset k fs vs =>
      if bool_decide (k = []) then out = None (* quirk: crash on the empty key *)
      else
        let h := default ∅ (sh s !! k) in
        if bool_decide (fs = [])
        then out = errs (with_sh s (<[k := h]> (sh s))) EArg (* quirk: creates an empty hash *)
        else out = says (with_sh s (<[k := put_pairs h (zip fs vs)]> (sh s)))
                        (r_nat (size (list_to_set fs ∖ dom h : gset bytes)))
  | CHget k f =>
      match sh s !! k with
      | None => out = says s RNullBulk
      | Some h => if bool_decide (f = []) then out = errs s EArg (* quirk *)
                  else out = says s (r_opt (h !! f))
      end
  | CHmget k fs =>
      out = says s (RArr (map (fun f => r_opt (default ∅ (sh s !! k) !! f)) fs))
  | CHexists k f =>
      match sh s !! k with
      | None => out = says s (RInt 0)
      | Some h => if bool_decide (f = []) then out = errs s EArg (* quirk *)
                  else out = says s (RInt (if bool_decide (is_Some (h !! f)) then 1 else 0))
      end
  | CHlen k => out = says s (r_nat (size (default ∅ (sh s !! k))))
  | CHgetall k =>
      match sh s !! k with
      | None => out = says s RNullArr
      | Some h => exists l, lists_set l (dom h) /\
          out = says s (RArr (flat_map (fun f => [RBulk f; r_opt (h !! f)]) l))
      end
  | CHkeys k =>
      match sh s !! k with
      | None => out = says s RNullArr
      | Some h => exists l, lists_set l (dom h) /\ out = says s (RArr (map RBulk l))
      end
  | CHvals k =>
      match sh s !! k with
      | None => out = says s RNullArr
      | Some h => exists l, lists_set l (dom h) /\ out = says s (RArr (map (fun f => r_opt (h !! f)) l))
      end
  | CHstrlen k f =>
      match sh s !! k with
      | None => out = says s (RInt 0)
      | Some h => if bool_decide (f = []) then out = errs s EArg (* quirk *)
                  else out = says s (RInt (blen (text (h !! f))))
      end
  | CHdel k fs =>
      match sh s !! k with
      | None => out = says s (RInt 0)
      | Some h =>
          exists h', (forall f, h' !! f = if bool_decide (f ∈ fs) then None else h !! f) /\
            out = says (with_sh s (<[k := h']> (sh s))) (r_nat (size (list_to_set fs ∩ dom h : gset bytes)))
      end
  (* sets *)
  | CScard k => out = says s (r_nat (size (set_or_empty s k)))
  | CSadd k vs =>
      if bool_decide (k = []) then out = None (* quirk: crash on the empty key *)
      else
        let X := set_or_empty s k in
        out = says (with_st s (<[k := X ∪ list_to_set vs]> (st s)))
                   (r_nat (size (list_to_set vs ∖ X : gset bytes)))
  | CSmembers k =>
      match st s !! k with
      | None => out = says s RNullArr
      | Some X => exists l, lists_set l X /\ out = says s (RArr (map RBulk l))
      end
  | CSismember k v =>
      match st s !! k with
      | None => out = says s (RInt 0)
      | Some X => if bool_decide (v = []) then out = errs s EArg (* quirk *)
                  else out = says s (RInt (if bool_decide (v ∈ X) then 1 else 0))
      end
  | CSrem k vs =>
      if bool_decide (k = []) then out = None (* quirk: crash on the empty key *)
      else
        (* quirk: an absent set is created *)
        let X := set_or_empty s k in
        out = says (with_st s (<[k := X ∖ list_to_set vs]> (st s)))
                   (r_nat (size (X ∩ list_to_set vs)))
  | CSpop k n cs =>
      match st s !! k with
      | None => out = says s (if cs then RNullArr else RNullBulk)
      | Some X => exists l, picks l (Z.abs n) X /\
          match pick_reply l cs with
          | Some r => out = says (with_st s (<[k := X ∖ list_to_set l]> (st s))) r
          | None => out = None (* quirk: crash on an empty set *)
          end
      end
  | CSrandmember k n cs =>
      match st s !! k with
      | None => out = says s (if cs then RNullArr else RNullBulk)
      | Some X => exists l, picks l (Z.abs n) X /\
          match pick_reply l cs with
          | Some r => out = says s r
          | None => out = None (* quirk: crash on an empty set *)
          end
      end
  | CSdiff ks => spec_sets (fun X Xs => X ∖ ⋃ Xs) s ks out
  | CSinter ks => spec_sets (fun X Xs => foldl (fun A B => A ∩ B) X Xs) s ks out
  | CSunion ks => spec_sets (fun X Xs => X ∪ ⋃ Xs) s ks out
  end.
