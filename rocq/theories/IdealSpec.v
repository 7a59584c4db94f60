(* Vocabulary for stating properties of requests, and the ideal behaviour of each data
   type as a user would write it down. *)
From Verif Require Import Base IntSpec IndexSpec ListSpec Resp Command SpecDb RequestSpec.
From Coq Require Import ZArith List Ascii String Bool.
From stdpp Require Import gmap.
Open Scope Z_scope.

(* [request q w args]: [q] is the command word [w] (any letter case) with these string
   arguments. *)
Definition request (q : robj) (w : string) (args : list bytes) : Prop :=
  exists o name objs, parts q (o :: objs) /\ is_str o name /\ spells name (bs w) /\ are_strs objs args.

Inductive kind := KStr | KList | KHash | KSet.
Definition kind_of (c : cmd) : kind :=
  match c with
  | CSet _ _ | CGet _ | CMset _ _ | CMget _ | CExists _ | CStrlen _ | CAppend _ _ | CIncr _ _ | CDecr _ _
  | CGetrange _ _ _ => KStr
  | CLpop _ | CRpop _ | CLpush _ _ | CRpush _ _ | CLrange _ _ _ | CLindex _ _ | CLlen _ | CLset _ _ _
  | CLrem _ _ _ | CLtrim _ _ _ | CLinsert _ _ _ _ => KList
  | CHset _ _ _ | CHget _ _ | CHmget _ _ | CHexists _ _ | CHlen _ | CHgetall _ | CHkeys _ | CHvals _
  | CHstrlen _ _ | CHdel _ _ => KHash
  | CScard _ | CSadd _ _ | CSmembers _ | CSismember _ _ | CSrem _ _ | CSpop _ _ _ | CSrandmember _ _ _
  | CSdiff _ | CSinter _ | CSunion _ => KSet
  end.

(* Keys a command may write. *)
Definition written (c : cmd) : list bytes :=
  match c with
  | CSet k _ | CAppend k _ | CIncr k _ | CDecr k _ => [k]
  | CMset ks _ => ks
  | CLpop k | CRpop k | CLpush k _ | CRpush k _ | CLset k _ _ | CLrem k _ _ | CLtrim k _ _ | CLinsert k _ _ _ => [k]
  | CHset k _ _ | CHdel k _ => [k]
  | CSadd k _ | CSrem k _ | CSpop k _ _ => [k]
  | _ => []
  end.
(* Keys a command names. *)
Definition names (c : cmd) : list bytes :=
  match c with
  | CMset ks _ | CMget ks | CExists ks | CSdiff ks | CSinter ks | CSunion ks => ks
  | CSet k _ | CGet k | CStrlen k | CAppend k _ | CIncr k _ | CDecr k _ | CGetrange k _ _
  | CLpop k | CRpop k | CLpush k _ | CRpush k _ | CLrange k _ _ | CLindex k _ | CLlen k | CLset k _ _
  | CLrem k _ _ | CLtrim k _ _ | CLinsert k _ _ _
  | CHset k _ _ | CHget k _ | CHmget k _ | CHexists k _ | CHlen k | CHgetall k | CHkeys k | CHvals k
  | CHstrlen k _ | CHdel k _
  | CScard k | CSadd k _ | CSmembers k | CSismember k _ | CSrem k _ | CSpop k _ _ | CSrandmember k _ _ => [k]
  end.
(* Request [q] may write the value of kind [t] under [k]. *)
Definition writes (q : robj) (t : kind) (k : bytes) : Prop :=
  exists c, asks q c /\ kind_of c = t /\ k ∈ written c.

(* The value under a key, by kind. *)
Definition same_at (t : kind) (k : bytes) (s s' : sdb) : Prop :=
  match t with
  | KStr => ss s !! k = ss s' !! k
  | KList => sl s !! k = sl s' !! k
  | KHash => sh s !! k = sh s' !! k
  | KSet => st s !! k = st s' !! k
  end.

(* When a command crashes the server. *)
Definition crashes (s : sdb) (c : cmd) : Prop :=
  match c with
  | CHset k _ _ | CSadd k _ | CSrem k _ => k = []
  | CLrem k n v => v = reserved /\ n <> - 2 ^ 63 /\ exists l, sl s !! k = Some l /\ ~ (n = 0 /\ l = [])
  | CLinsert k after p _ => p = reserved /\ after = false /\ is_Some (sl s !! k)
  | CSpop k _ cs | CSrandmember k _ cs => cs = false /\ st s !! k = Some (∅ : gset bytes)
  | _ => False
  end.

(* ---- lists ---- *)
(* elements a..b inclusive, b clipped to the end; nothing if a is outside or after b *)
Definition range_of (a b : Z) (l : list bytes) : list bytes :=
  let n := Z.of_nat (length l) in
  let pa := position a n in let pb := position b n in
  if (0 <=? pa) && (pa <? n) && (pa <=? pb) then sub_list pa (Z.min pb (n - 1)) l else [].
Definition array_of (l : list bytes) : robj := match l with [] => RNullArr | _ => RArr (map RBulk l) end.
Definition elem_at (i : Z) (l : list bytes) : option bytes :=
  let p := position i (Z.of_nat (length l)) in if 0 <=? p then l !! Z.to_nat p else None.
Fixpoint last_elem (l : list bytes) : option (list bytes * bytes) :=
  match l with
  | [] => None
  | [x] => Some ([], x)
  | x :: l' => match last_elem l' with Some (r, y) => Some (x :: r, y) | None => None end
  end.
Definition length_reply (l : list bytes) : robj := r_nat (length l).

(* A list command on a list value (None: no such key) gives the new value and the
   reply.  Only for commands that are well behaved: the whole result is None where the
   implementation departs from the ideal (reserved text, count -2^63, an end position
   before the first element, trimming to nothing). *)
Definition ideal_list (o : option (list bytes)) (c : cmd) : option (option (list bytes) * robj) :=
  let l := match o with Some l => l | None => [] end in
  match c with
  | CLpush _ vs => Some (Some (rev vs ++ l), length_reply (rev vs ++ l))
  | CRpush _ vs => Some (Some (l ++ vs), length_reply (l ++ vs))
  | CLpop _ => Some (match l with [] => (o, RNullBulk) | v :: l' => (Some l', RBulk v) end)
  | CRpop _ => Some (match last_elem l with None => (o, RNullBulk) | Some (l', v) => (Some l', RBulk v) end)
  | CLlen _ => Some (o, length_reply l)
  | CLindex _ i => Some (o, r_opt (elem_at i l))
  | CLrange _ a b => if 0 <=? position b (Z.of_nat (length l)) then Some (o, array_of (range_of a b l)) else None
  | CLset _ i v =>
      match o with
      | None => Some (o, err "ERR no such key")
      | Some _ =>
          let p := position i (Z.of_nat (length l)) in
          if (0 <=? p) && (p <? Z.of_nat (length l)) then Some (Some (<[Z.to_nat p := v]> l), r_ok)
          else Some (o, err "ERR index out of range")
      end
  | CLrem _ n v =>
      if (n =? - 2 ^ 63) || bool_decide (v = reserved) then None
      else let l' := lrem_spec n v l in
           Some (match o with Some _ => Some l' | None => None end, r_nat (length l - length l'))
  | CLinsert _ after p v =>
      if bool_decide (p = reserved) then None
      else match o with
           | None => Some (o, RInt 0)
           | Some _ => match insert_near after p v l with
                       | Some l' => Some (Some l', length_reply l')
                       | None => Some (o, RInt (-1))
                       end
           end
  | CLtrim _ a b =>
      match range_of a b l with
      | [] => match l with [] => Some (o, r_ok) | _ => None end
      | r => Some (Some r, r_ok)
      end
  | _ => None
  end.

(* ---- hashes ---- *)
Definition ideal_hash (o : option (gmap bytes bytes)) (c : cmd) : option (option (gmap bytes bytes) * robj) :=
  let h := match o with Some h => h | None => ∅ end in
  match c with
  | CHset _ [] _ => None
  | CHset _ fs vs => Some (Some (put_pairs h (zip fs vs)), r_nat (size (list_to_set fs ∖ dom h : gset bytes)))
  | CHdel _ fs => Some (match o with Some _ => Some (foldr delete h fs) | None => None end,
                        r_nat (size (list_to_set fs ∩ dom h : gset bytes)))
  | CHget _ f => if bool_decide (f = []) then None else Some (o, r_opt (h !! f))
  | CHmget _ fs => Some (o, RArr (map (fun f => r_opt (h !! f)) fs))
  | CHexists _ f => if bool_decide (f = []) then None else Some (o, RInt (if bool_decide (is_Some (h !! f)) then 1 else 0))
  | CHlen _ => Some (o, r_nat (size h))
  | CHstrlen _ f => if bool_decide (f = []) then None else Some (o, RInt (blen (text (h !! f))))
  | _ => None
  end.

(* ---- sets ---- *)
Definition ideal_set (o : option (gset bytes)) (c : cmd) : option (option (gset bytes) * robj) :=
  let X := match o with Some X => X | None => ∅ end in
  match c with
  | CSadd _ vs => Some (Some (X ∪ list_to_set vs), r_nat (size (list_to_set vs ∖ X : gset bytes)))
  | CSrem _ vs => Some (Some (X ∖ list_to_set vs), r_nat (size (X ∩ list_to_set vs)))
  | CSismember _ v => if bool_decide (v = []) then None else Some (o, RInt (if bool_decide (v ∈ X) then 1 else 0))
  | CScard _ => Some (o, r_nat (size X))
  | _ => None
  end.

(* ---- strings ---- *)
Definition ideal_str (m : gmap bytes bytes) (c : cmd) : option (gmap bytes bytes * robj) :=
  match c with
  | CSet k v => Some (<[k := v]> m, r_ok)
  | CGet k => Some (m, r_opt (m !! k))
  | CMset [] _ => None
  | CMset ks vs => Some (put_pairs m (zip ks vs), r_ok)
  | CMget ks => Some (m, RArr (map (fun k => r_opt (m !! k)) ks))
  | CExists ks => Some (m, r_nat (length (filter (fun k => is_Some (m !! k)) ks)))
  | CStrlen k => Some (m, RInt (blen (text (m !! k))))
  | CAppend k v => let t := text (m !! k) ++ v in Some (<[k := t]> m, RInt (blen t))
  | CGetrange k a b => Some (m, RBulk (str_range a b (text (m !! k))))
  | _ => None
  end.

(* A history in which some requests are commands to the ideal machine (Some) and the
   others (None) are unrelated.  Gives the final value and, for each related request,
   its reply. *)
Fixpoint ideal_run {V} (step : V -> cmd -> option (V * robj)) (v : V) (cs : list (option cmd)) :
  option (V * list (option robj)) :=
  match cs with
  | [] => Some (v, [])
  | None :: cs' =>
      match ideal_run step v cs' with
      | None => None
      | Some (v2, rs) => Some (v2, None :: rs)
      end
  | Some c :: cs' =>
      match step v c with
      | None => None
      | Some (v1, r) =>
          match ideal_run step v1 cs' with
          | None => None
          | Some (v2, rs) => Some (v2, Some r :: rs)
          end
      end
  end.
(* the replies agree wherever the ideal machine says something *)
Definition agrees (ideal real : option robj) : Prop :=
  match ideal with None => True | Some r => real = Some r end.
