(* Vocabulary for recovery: histories of requests and when their log can be replayed. *)
From Verif Require Import Base Resp RespSpec Command SpecDb RequestSpec EngineProofs Db Engine Utf8Spec Log Recovery.
From Coq Require Import ZArith List Ascii String Bool.
From stdpp Require Import gmap.
Open Scope Z_scope.

(* every text in the object is valid UTF-8 *)
Fixpoint utf8_obj (o : robj) : Prop :=
  match o with
  | RSimple d | RBulk d | RErr d => utf8 d
  | RNullBulk | RInt _ | RNullArr => True
  | RArr l => (fix all (l : list robj) : Prop := match l with [] => True | x :: l' => utf8_obj x /\ all l' end) l
  end.

Definition requests (h : list entry) : list (env * robj) := map (fun x => (h_env x, h_req x)) h.

Definition stamp_ok (t : stamp) : Prop := utf8 (t_id t) /\ utf8 (t_host t) /\ int64_ok (t_time t).
(* the log record is well below 4 GiB *)
Definition small (t : stamp) (q : robj) : Prop := blen (t_id t) + blen (t_host t) + 10 * blen (Resp.encode q) < 2 ^ 32 - 200.
(* a request as it can come off the wire, in UTF-8 *)
Definition loggable (x : entry) : Prop :=
  env_ok (h_env x) /\ stamp_ok (h_stamp x) /\ small (h_stamp x) (h_req x) /\ obj_ok (h_req x) /\ utf8_obj (h_req x).

Definition trims (q : robj) : Prop := exists k a b, asks q (CLtrim k a b).
Definition pops (q : robj) : Prop := exists k n cs, asks q (CSpop k n cs).

(* the records of a history, in execution order *)
Fixpoint records (h : list entry) : list vlog :=
  match h with
  | [] => []
  | x :: h' => match log_of (h_stamp x) (h_req x) with Some v => v :: records h' | None => records h' end
  end.

(* Executions in which every record is written before the next request is handled. *)
Inductive lcalm : lstate -> Prop :=
| lc_init : lcalm l_init
| lc_step a b : lcalm a -> lstep a b -> l_executed b = l_executed a \/ l_pending a = [] -> lcalm b.
