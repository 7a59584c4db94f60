(* C57: replies on the wire are read as they were given. *)
From Verif Require Import Base Resp RespSpec Command SpecDb RequestSpec Db Engine EngineProofs EngineFacts ServerSpec ReplySpec ReplyProofs.
From Coq Require Import ZArith List Ascii String Bool Lia.
From stdpp Require Import gmap.
Open Scope Z_scope.

(* C57 for replies other than internal errors with a line break in their text: whatever the
   history, the client's reader finds the reply, and exactly it. *)
Theorem C57_framed_partial : forall h d rs r rest, Forall (fun x => env_ok (fst x)) h -> requests_size (map snd h) < 2 ^ 62 ->
  run new_db h = Ret (d, rs) -> In (Some r) rs -> clean_text r -> parse (Resp.encode r ++ rest) = POk r rest.
Proof. exact replies_framed. Qed.
Print Assumptions C57_framed_partial.
(* All the replies of a run, one after the other on the connection, are read as given. *)
Theorem C57_stream_partial : forall h d rs rest, Forall (fun x => env_ok (fst x)) h -> requests_size (map snd h) < 2 ^ 62 ->
  run new_db h = Ret (d, rs) -> (forall r, In (Some r) rs -> clean_text r) ->
  objects (flat_map Resp.encode (given rs) ++ rest) (given rs) rest.
Proof. exact replies_stream. Qed.
Print Assumptions C57_stream_partial.
Definition rp_env : env := mkEnv (fun _ l => l) (bs "no integer").
Definition rp_rq (l : list string) : robj := RArr (map (fun s => RBulk (bs s)) l).
Definition rp_h : list (env * robj) := map (fun l => (rp_env, rp_rq l))
  [["SET"; "k"; "a"]; ["GET"; "k"]; ["GET"; "none"]; ["RPUSH"; "l"; "x"; "y"]; ["LRANGE"; "l"; "0"; "-1"]; ["INCRBY"; "n"; "x"]; ["nonsense"]]%string.
Definition rp_rs : list (option robj) :=
  [Some (RSimple (bs "OK")); Some (RBulk (bs "a")); Some RNullBulk; Some (RInt 2); Some (RArr [RBulk (bs "x"); RBulk (bs "y")]);
   Some (RErr (bs "ERR vertex server internal error, err=no integer")); Some (RErr (bs "ERR no such command"))].
Example C57_framed_ex : Forall (fun x => env_ok (fst x)) rp_h /\ requests_size (map snd rp_h) < 2 ^ 62 /\
  (match run new_db rp_h with Ret (_, rs) => Some rs | _ => None end) = Some rp_rs /\ (forall r, In (Some r) rp_rs -> clean_text r).
Proof.
  split. { apply List.Forall_forall. intros x Hx. unfold rp_h in Hx. apply in_map_iff in Hx as (l & <- & _). intros n l'. apply Permutation_refl. }
  split; [vm_compute; reflexivity|]. split; [vm_compute; reflexivity|].
  intros r Hr t ->. apply no_break_line. cbn [rp_rs In] in Hr.
  assert (In (Some (RErr (bs "ERR vertex server internal error, err=" ++ t))) [Some (RErr (bs "ERR vertex server internal error, err=" ++ bs "no integer"))]) as [H|[]].
  { repeat (destruct Hr as [Hr|Hr]; [first [discriminate Hr | left; exact Hr | exfalso; apply (f_equal (fun o => match o with Some (RErr m) => take 8 m | _ => [] end)) in Hr; vm_compute in Hr; discriminate Hr]|]). contradiction. }
  apply (f_equal (fun o => match o with Some (RErr m) => drop 38 m | _ => [] end)) in H. vm_compute in H. now subst t.
Qed.

(* C57 is false: an array whose first element is no string is answered by an error that
   quotes this element, line breaks included. *)
Theorem C57_nameless_refuted : forall e d o args rest, str_arg o = None -> blen (Resp.encode o) + blen rest < 2 ^ 62 ->
  exists t, handle e d (RArr (o :: args)) = Ret (d, Some (RErr t)) /\ parse (Resp.encode (RErr t) ++ rest) <> POk (RErr t) rest.
Proof. exact nameless_broken. Qed.
Print Assumptions C57_nameless_refuted.
Example C57_nameless_ex : str_arg (RInt 1) = None /\ blen (Resp.encode (RInt 1)) + blen (bs "+OK") < 2 ^ 62.
Proof. vm_compute. auto. Qed.
(* One request is even answered by what looks like two replies, the second of the client's
   choosing; whoever then reads one reply per request is one reply behind. *)
Theorem C57_one_request_two_replies_refuted : exists q, obj_ok q /\ forall e d, exists r r1 o rest,
  handle e d q = Ret (d, Some r) /\ objects (Resp.encode r) [r1; o] rest /\ o = RSimple (bs "OK").
Proof.
  exists (RArr [RArr [RSimple (bs "OK")]]). split.
  - apply ok_arr; [cbn; lia|]. apply List.Forall_cons; [|apply List.Forall_nil]. apply ok_arr; [cbn; lia|].
    apply List.Forall_cons; [|apply List.Forall_nil]. apply ok_simple, no_break_line. reflexivity.
  - intros e d. eexists _, _, _, CRLF. split; [reflexivity|]. split; [|reflexivity].
    eapply (objects_more _ [_]). eapply (objects_more _ []). apply objects_none. vm_compute. reflexivity. vm_compute. reflexivity.
Qed.
Print Assumptions C57_one_request_two_replies_refuted.
