(* What clients can see of the server, explained by a sequential history of the reference database. *)
From Coq Require Import List Arith.
From Verif Require Import Base Lts Resp RequestSpec Engine Db Server ServerSpec SpecDb.
Import ListNotations.

(* A request, named by its connection and its number on it, and its reply. *)
Record call := mkCall { n_conn : nat; n_num : nat; n_req : robj; n_reply : option robj }.
Definition name (x : call) : nat * nat := (n_conn x, n_num x).

(* [h] explains the run [tr] of a server that started with what the requests [qs], answered by [rs],
   have left, on connections whose peers send [input]. *)
Record explains (input : nat -> bytes) (qs : list robj) (rs : list (option robj)) (tr : list event) (h : list call) : Prop := {
  (* every request is in it at most once, and is the one sent on its connection; *)
  e_once : NoDup (map name h);
  e_sent : forall x, In x h -> (exists l r, objects (input (n_conn x)) l r /\ nth_error l (n_num x) = Some (n_req x)) /\
    exists i, In (SRead (n_conn x) i (n_num x) (n_req x)) tr;
  (* every reply given is in it; *)
  e_replies : forall c i k r, In (SWrite c i k r) tr -> exists q, In (mkCall c k q (Some r)) h;
  (* a request that arrived after the reply to another was given comes after that one; *)
  e_real_time : forall x y i r i', In x h -> In y h -> before tr (SWrite (n_conn x) i (n_num x) r) (SRead (n_conn y) i' (n_num y) (n_req y)) -> before h x y;
  (* and it is a history of the reference database. *)
  e_legal : exists s, answers empty_sdb (qs ++ map n_req h) (Some (s, rs ++ map n_reply h)) }.
