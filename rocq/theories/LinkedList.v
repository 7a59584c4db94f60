(* pkg/container/list.go: the doubly linked list, on an explicit heap of nodes. *)
From Verif Require Import Base UtilIndex StringC.
From Coq Require Import ZArith List Ascii Bool.
From stdpp Require Import gmap.
Open Scope Z_scope.

(* list.go:43-47 listNode.  A *listNode is [option loc]; None is nil. *)
Notation loc := nat (only parsing).
Record node := mkNode { n_data : strc; n_next : option loc; n_prev : option loc }.
Notation heap := (gmap nat node).

(* list.go:49-54 linkedList.  Nodes are never shared between lists, so each list
   carries its own heap; [l_alloc] is the allocator: the number of nodes ever
   created, and the location of the next one.  Unlinked nodes stay in the heap as
   unreachable garbage.  The key field (only used for logging) is dropped. *)
Record llist := mkList {
  l_heap : heap;
  l_alloc : nat;
  l_head : loc;
  l_tail : loc;
  l_size : Z
}.

(* Pointer dereference: nil (or a dangling pointer, which Go does not have) panics. *)
Definition deref (h : heap) (p : option loc) : res node :=
  match p with
  | None => Panic
  | Some a => match h !! a with Some n => Ret n | None => Panic end
  end.
(* p.next = v, p.prev = v, p.data = v *)
Definition set_next (h : heap) (p v : option loc) : res heap :=
  match p with
  | None => Panic
  | Some a => match h !! a with
              | Some n => Ret (<[a := mkNode (n_data n) v (n_prev n)]> h)
              | None => Panic
              end
  end.
Definition set_prev (h : heap) (p v : option loc) : res heap :=
  match p with
  | None => Panic
  | Some a => match h !! a with
              | Some n => Ret (<[a := mkNode (n_data n) (n_next n) v]> h)
              | None => Panic
              end
  end.
Definition set_data (h : heap) (p : option loc) (v : strc) : res heap :=
  match p with
  | None => Panic
  | Some a => match h !! a with
              | Some n => Ret (<[a := mkNode v (n_next n) (n_prev n)]> h)
              | None => Panic
              end
  end.

Definition loc_eqb (p q : option loc) : bool :=
  match p, q with
  | None, None => true
  | Some a, Some b => Nat.eqb a b
  | _, _ => false
  end.

(* list.go:56-70 insertBefore (callers never pass nil), new node at [fresh]. *)
Definition insert_before (h : heap) (fresh : loc) (n : option loc) (d : strc) : res heap :=
  let! nn := deref h n in
  let h1 := <[fresh := mkNode d n (n_prev nn)]> h in
  let! h2 := set_next h1 (n_prev nn) (Some fresh) in
  set_prev h2 n (Some fresh).

(* list.go:72-86 insertAfter. *)
Definition insert_after (h : heap) (fresh : loc) (n : option loc) (d : strc) : res heap :=
  let! nn := deref h n in
  let h1 := <[fresh := mkNode d (n_next nn) n]> h in
  let! h2 := set_prev h1 (n_next nn) (Some fresh) in
  set_next h2 n (Some fresh).

(* list.go:88-101 deleteNode (callers never pass nil). *)
Definition delete_node (h : heap) (n : option loc) : res (heap * strc) :=
  let! nn := deref h n in
  let! h1 := set_next h (n_prev nn) (n_next nn) in
  let! nn1 := deref h1 n in
  let! h2 := set_prev h1 (n_next nn1) (n_prev nn1) in
  let! h3 := set_next h2 n None in
  let! h4 := set_prev h3 n None in
  Ret (h4, n_data nn).

(* list.go:112-121, the loop of deleteFromHead. *)
Fixpoint del_head_loop (fuel : nat) (h : heap) (tail cur : option loc) (removed count : Z) (key : strc)
  : res (heap * Z) :=
  match fuel with
  | O => NoFuel
  | S f =>
      if negb (loc_eqb cur tail) && (removed <? count) then
        let! nn := deref h cur in
        if s_equals (n_data nn) key then
          let! hd := delete_node h cur in
          del_head_loop f (fst hd) tail (n_next nn) (removed + 1) count key
        else del_head_loop f h tail (n_next nn) removed count key
      else Ret (h, removed)
  end.

(* list.go:103-124 deleteFromHead. *)
Definition delete_from_head (l : llist) (count : Z) (key : strc) : res (heap * Z) :=
  let count := if count =? 0 then l_size l else count in
  del_head_loop (S (S (l_alloc l))) (l_heap l) (Some (l_tail l)) (Some (l_head l)) 0 count key.

(* list.go:131-140, the loop of deleteFromTail. *)
Fixpoint del_tail_loop (fuel : nat) (h : heap) (head cur : option loc) (removed count : Z) (key : strc)
  : res (heap * Z) :=
  match fuel with
  | O => NoFuel
  | S f =>
      if negb (loc_eqb cur head) && (removed <? count) then
        let! nn := deref h cur in
        if s_equals (n_data nn) key then
          let! hd := delete_node h cur in
          del_tail_loop f (fst hd) head (n_prev nn) (removed + 1) count key
        else del_tail_loop f h head (n_prev nn) removed count key
      else Ret (h, removed)
  end.

(* list.go:126-143 deleteFromTail. *)
Definition delete_from_tail (l : llist) (count : Z) (key : strc) : res (heap * Z) :=
  del_tail_loop (S (S (l_alloc l))) (l_heap l) (Some (l_head l)) (Some (l_tail l)) 0 count key.

(* cur = cur.next, k times *)
Fixpoint walk (h : heap) (k : nat) (cur : option loc) : res (option loc) :=
  match k with
  | O => Ret cur
  | S k' => let! nn := deref h cur in walk h k' (n_next nn)
  end.

(* list.go:145-158 extract; None is nil. *)
Definition extract (l : llist) (index : Z) : res (option loc) :=
  let norm := resolve index (l_size l) in
  if norm =? -1 then Ret None
  else walk (l_heap l) (Z.to_nat (norm + 1)) (Some (l_head l)).

(* list.go:175-185, the loop of extractSegment; [k] iterations remain, [idx] is the
   loop variable. *)
Fixpoint segment_loop (h : heap) (k : nat) (idx nl nr : Z) (cur left right : option loc)
  : res (option loc * option loc) :=
  match k with
  | O => Ret (left, right)
  | S k' =>
      let left' := if idx =? nl then cur else left in
      let right' := if idx =? nr then cur else right in
      let! nn := deref h cur in
      segment_loop h k' (idx + 1) nl nr (n_next nn) left' right'
  end.

(* list.go:161-191 extractSegment. *)
Definition extract_segment (l : llist) (left right : Z) : res (option loc * option loc) :=
  let right := resolve_raw right (l_size l) in
  let right := if l_size l <=? right then l_size l - 1 else right in
  let '(nl, nr) := slice_resolve left right (l_size l) in
  if negb (nl =? -1) && negb (nr =? -1) then
    segment_loop (l_heap l) (Z.to_nat (nr + 2)) (-1) nl nr (Some (l_head l)) None None
  else Ret (None, None).

(* list.go:195-205 releaseList: recursion to the end, then nil out the pointers. *)
Fixpoint release_list (fuel : nat) (h : heap) (n : option loc) : res (heap * Z) :=
  match fuel with
  | O => NoFuel
  | S f =>
      match n with
      | None => Ret (h, 0)
      | Some _ =>
          let! nn := deref h n in
          let! r := release_list f h (n_next nn) in
          let! h1 := set_prev (fst r) n None in
          let! h2 := set_next h1 n None in
          Ret (h2, snd r + 1)
      end
  end.

(* list.go:208-226 NewLinkedListContainer: head at location 0, tail at 1. *)
Definition new_list : llist :=
  mkList (<[0%nat := mkNode dummy (Some 1%nat) None]>
         (<[1%nat := mkNode dummy None (Some 0%nat)]> ∅)) 2%nat 0%nat 1%nat 0.

(* list.go:238-247 PushHead. *)
Fixpoint push_head (l : llist) (ds : list strc) : res llist :=
  match ds with
  | [] => Ret l
  | d :: ds' =>
      let! h := insert_after (l_heap l) (l_alloc l) (Some (l_head l)) d in
      push_head (mkList h (S (l_alloc l)) (l_head l) (l_tail l) (l_size l + 1)) ds'
  end.

(* list.go:249-258 PushTail. *)
Fixpoint push_tail (l : llist) (ds : list strc) : res llist :=
  match ds with
  | [] => Ret l
  | d :: ds' =>
      let! h := insert_before (l_heap l) (l_alloc l) (Some (l_tail l)) d in
      push_tail (mkList h (S (l_alloc l)) (l_head l) (l_tail l) (l_size l + 1)) ds'
  end.

(* list.go:260-267 PopHead; None is ErrEmptyList. *)
Definition pop_head (l : llist) : res (llist * option strc) :=
  let! hn := deref (l_heap l) (Some (l_head l)) in
  if loc_eqb (n_next hn) (Some (l_tail l)) then Ret (l, None)
  else
    let! r := delete_node (l_heap l) (n_next hn) in
    Ret (mkList (fst r) (l_alloc l) (l_head l) (l_tail l) (l_size l - 1), Some (snd r)).

(* list.go:269-276 PopTail. *)
Definition pop_tail (l : llist) : res (llist * option strc) :=
  let! tn := deref (l_heap l) (Some (l_tail l)) in
  if loc_eqb (n_prev tn) (Some (l_head l)) then Ret (l, None)
  else
    let! r := delete_node (l_heap l) (n_prev tn) in
    Ret (mkList (fst r) (l_alloc l) (l_head l) (l_tail l) (l_size l - 1), Some (snd r)).

(* list.go:281-299, the loop of Insert: the location of the first node (head sentinel
   included) whose data equals the pivot. *)
Fixpoint find_pivot (fuel : nat) (h : heap) (tail cur : option loc) (pivot : strc) : res (option loc) :=
  match fuel with
  | O => NoFuel
  | S f =>
      if loc_eqb cur tail then Ret None
      else
        let! nn := deref h cur in
        if s_equals (n_data nn) pivot then Ret cur
        else find_pivot f h tail (n_next nn) pivot
  end.

(* list.go:278-302 Insert; None is ErrNoSuchPivot. *)
Definition list_insertp (l : llist) (pivot d : strc) (after : bool) : res (option llist) :=
  let! c := find_pivot (S (S (l_alloc l))) (l_heap l) (Some (l_tail l)) (Some (l_head l)) pivot in
  match c with
  | None => Ret None
  | Some _ =>
      let! h := (if after then insert_after else insert_before) (l_heap l) (l_alloc l) c d in
      Ret (Some (mkList h (S (l_alloc l)) (l_head l) (l_tail l) (l_size l + 1)))
  end.

(* list.go:304-313 Set; None is ErrOutOfRange. *)
Definition list_set (l : llist) (index : Z) (d : strc) : res (option llist) :=
  let! n := extract l index in
  match n with
  | None => Ret None
  | Some _ =>
      let! h := set_data (l_heap l) n d in
      Ret (Some (mkList h (l_alloc l) (l_head l) (l_tail l) (l_size l)))
  end.

(* list.go:315-326 Remove; -count wraps for the minimum int. *)
Definition list_removec (l : llist) (count : Z) (key : strc) : res (llist * Z) :=
  let! r := (if 0 <=? count then delete_from_head l count key
             else delete_from_tail l (wrap64 (- count)) key) in
  Ret (mkList (fst r) (l_alloc l) (l_head l) (l_tail l) (l_size l - snd r), snd r).

(* list.go:328-336 Index; None is ErrOutOfRange. *)
Definition list_index (l : llist) (index : Z) : res (option strc) :=
  let! n := extract l index in
  match n with
  | None => Ret None
  | Some _ => let! nn := deref (l_heap l) n in Ret (Some (n_data nn))
  end.

(* list.go:343-349, the loop of Range. *)
Fixpoint range_loop (fuel : nat) (h : heap) (left right : option loc) : res (list strc) :=
  match fuel with
  | O => NoFuel
  | S f =>
      let! nn := deref h left in
      if loc_eqb left right then Ret [n_data nn]
      else
        let! r := range_loop f h (n_next nn) right in
        Ret (n_data nn :: r)
  end.

(* list.go:338-355 Range; None is ErrOutOfRange. *)
Definition list_range (l : llist) (left right : Z) : res (option (list strc)) :=
  let! lr := extract_segment l left right in
  match lr with
  | (Some a, Some b) =>
      let! r := range_loop (S (S (l_alloc l))) (l_heap l) (Some a) (Some b) in Ret (Some r)
  | _ => Ret None
  end.

(* list.go:357-380 Trim; None is ErrOutOfRange. *)
Definition list_trim (l : llist) (left right : Z) : res (option llist) :=
  let! lr := extract_segment l left right in
  match lr with
  | (Some a, Some b) =>
      let fuel := S (S (l_alloc l)) in
      let hd := Some (l_head l) in
      let tl := Some (l_tail l) in
      (* leftNode.prev.next = nil; size -= releaseList(head.next) *)
      let! an := deref (l_heap l) (Some a) in
      let! h1 := set_next (l_heap l) (n_prev an) None in
      let! hn := deref h1 hd in
      let! r1 := release_list fuel h1 (n_next hn) in
      (* tail.prev.next = nil; size -= releaseList(rightNode.next) *)
      let! tn := deref (fst r1) tl in
      let! h2 := set_next (fst r1) (n_prev tn) None in
      let! bn := deref h2 (Some b) in
      let! r2 := release_list fuel h2 (n_next bn) in
      (* relink *)
      let! h3 := set_next (fst r2) hd (Some a) in
      let! h4 := set_prev h3 (Some a) hd in
      let! h5 := set_prev h4 tl (Some b) in
      let! h6 := set_next h5 (Some b) tl in
      Ret (Some (mkList h6 (l_alloc l) (l_head l) (l_tail l) (l_size l - snd r1 - snd r2)))
  | _ => Ret None
  end.

(* list.go:382-384 Len. *)
Definition list_len (l : llist) : Z := l_size l.
