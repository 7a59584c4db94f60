(* pkg/container/string_map.go: the string store. *)
From Verif Require Import Base IntParse UtilIndex Resp StringC.
From Coq Require Import ZArith List Ascii Bool.
From stdpp Require Import gmap.
Open Scope Z_scope.

(* string_map.go:44-46.  Aliasing note: every *StringContainer stored in the map is
   freshly built by the command layer and reachable from one key only, so the
   in-place update done by Increase/Decrease is modelled as storing the new
   record under the key. *)
Notation strmap := (gmap bytes strc).

(* string_map.go:48-59 Set; None is ErrGlobalLengthNotMatch. *)
Fixpoint sm_put (m : strmap) (ks vs : list strc) : strmap :=
  match ks, vs with
  | k :: ks', v :: vs' => sm_put (<[s_data k := v]> m) ks' vs'
  | _, _ => m
  end.
Definition sm_set (m : strmap) (ks vs : list strc) : option strmap :=
  if Nat.eqb (length ks) (length vs) then Some (sm_put m ks vs) else None.

(* string_map.go:61-74 Get. *)
Definition sm_get (m : strmap) (ks : list strc) : list (option strc) :=
  map (fun k => m !! s_data k) ks.

(* string_map.go:76-82 StringLen; None is ErrKeyNotFound. *)
Definition sm_strlen (m : strmap) (k : strc) : option Z :=
  match m !! s_data k with Some e => Some (s_size e) | None => None end.

(* string_map.go:84-93 Append. *)
Definition sm_append (m : strmap) (k s : strc) : strmap * Z :=
  match m !! s_data k with
  | None => (<[s_data k := s]> m, s_size s)
  | Some e => let n := s_append e s in (<[s_data k := n]> m, s_size n)
  end.

(* string_map.go:95-105, 107-117: errors are ErrKeyNotFound or a wrapped ErrNotAInt. *)
Inductive sm_err := SmNoKey | SmNotInt.
Definition sm_increase (m : strmap) (k : strc) (n : Z) : (strmap * Z) + sm_err :=
  match m !! s_data k with
  | None => inr SmNoKey
  | Some e =>
      match s_increase e n with
      | Some (e', v) => inl (<[s_data k := e']> m, v)
      | None => inr SmNotInt
      end
  end.
Definition sm_decrease (m : strmap) (k : strc) (n : Z) : (strmap * Z) + sm_err :=
  match m !! s_data k with
  | None => inr SmNoKey
  | Some e =>
      match s_decrease e n with
      | Some (e', v) => inl (<[s_data k := e']> m, v)
      | None => inr SmNotInt
      end
  end.

(* string_map.go:119-129 GetRange; None is any error. *)
Definition sm_getrange (m : strmap) (k : strc) (a b : Z) : option strc :=
  match m !! s_data k with
  | Some e => s_getrange e a b
  | None => None
  end.

(* string_map.go:135-145 Exists. *)
Fixpoint sm_exists (m : strmap) (ks : list strc) : Z :=
  match ks with
  | [] => 0
  | k :: ks' => (match m !! s_data k with Some _ => 1 | None => 0 end) + sm_exists m ks'
  end.

(* string_map.go:131-133 Len. *)
Definition sm_len (m : strmap) : Z := Z.of_nat (size m).
