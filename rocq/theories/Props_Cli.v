(* C64: what the command line client shows. *)
From Verif Require Import Base Resp RespSpec Command SpecDb RequestSpec Db Engine EngineProofs EngineFacts ServerSpec ReplySpec ReplyProofs
  DbProofs RespProofs Conn Client ClientSpec Cli CliSpec CliProofs.
From Coq Require Import ZArith List Ascii String Bool Lia.
From stdpp Require Import gmap.
Open Scope Z_scope.

(* C64 while the connection stays open and no line has an empty word: what is shown is, line by line,
   the reply the server gave to the words typed, whatever other clients do meanwhile; and this is
   always a possible session. *)
Theorem C64_session_partial : forall l h d rs scr, asked l h -> Forall (fun x => env_ok (fst (snd x))) h ->
  requests_size (map (fun x => snd (snd x)) h) < 2 ^ 62 -> run new_db (map snd h) = Ret (d, rs) -> (forall r, In (Some r) rs -> clean_text r) ->
  talk new_db [] l scr <-> scr = seen h rs.
Proof. exact session_new. Qed.
Print Assumptions C64_session_partial.
Definition cl_env : env := mkEnv (fun _ l => l) (bs "t").
Definition cl_rq (l : list string) : env * robj := (cl_env, RArr (map RBulk (map bs l))).
Definition cl_l : list doing := [Typed cl_env (bs "SET k 1"); Others [cl_rq ["INCR"; "k"]; cl_rq ["GET"; "k"]]; Typed cl_env (bs " GET  ""k"" ")]%string.
Definition cl_h : list (bool * (env * robj)) :=
  [(true, cl_rq ["SET"; "k"; "1"]); (false, cl_rq ["INCR"; "k"]); (false, cl_rq ["GET"; "k"]); (true, cl_rq ["GET"; "k"])]%string.
Example C64_session_ex : asked cl_l cl_h /\ Forall (fun x => env_ok (fst (snd x))) cl_h /\ requests_size (map (fun x => snd (snd x)) cl_h) < 2 ^ 62 /\
  (match run new_db (map snd cl_h) with Ret (_, rs) => Some (rs, seen cl_h rs) | _ => None end) =
    Some ([Some (RSimple (bs "OK")); Some (RInt 2); Some (RBulk (bs "2")); Some (RBulk (bs "2"))], [Shows (bs """OK"""); Shows (bs """2""")]) /\
  (forall r, In (Some r) [Some (RSimple (bs "OK")); Some (RInt 2); Some (RBulk (bs "2")); Some (RBulk (bs "2"))] -> clean_text r).
Proof.
  split.
  { apply (asked_typed cl_env _ [Plain (bs "SET"); Plain (bs "k"); Plain (bs "1")]).
    - apply (line_cons 0 (Plain (bs "SET")) 0 _ (bs "k 1")); [cbn; intuition discriminate|].
      apply (line_cons 0 (Plain (bs "k")) 0 _ (bs "1")); [cbn; intuition discriminate|].
      apply (line_last 0 (Plain (bs "1")) 0). cbn. intuition discriminate.
    - cbn. intuition (subst; discriminate).
    - reflexivity.
    - apply (asked_others [cl_rq ["INCR"; "k"]; cl_rq ["GET"; "k"]]%string). apply (asked_typed cl_env _ [Plain (bs "GET"); Quoted (bs "k")]).
      + apply (line_cons 1 (Plain (bs "GET")) 1 _ (bs """k"" ")); [cbn; intuition discriminate|].
        apply (line_last 0 (Quoted (bs "k")) 1). cbn. intuition discriminate.
      + cbn. intuition (subst; discriminate).
      + reflexivity.
      + constructor. }
  split. { repeat constructor; intros n l'; apply Permutation_refl. }
  split; [vm_compute; reflexivity|]. split; [vm_compute; reflexivity|].
  intros r Hr t ->. repeat (destruct Hr as [Hr|Hr]; [discriminate Hr|]). contradiction.
Qed.

(* C64 is false of a session that pauses for ten minutes: the message the server sends before closing
   is not a reply, and the client exits on the next line. *)
Theorem C64_expired_refuted : forall d e t l, quits t = false -> talk d [] (Expires :: Typed e t :: l) [Leaves].
Proof. exact expired_leaves. Qed.
Print Assumptions C64_expired_refuted.
Example C64_expired_ex : quits (bs "GET k") = false.
Proof. reflexivity. Qed.
(* In any case nothing is shown as a reply that is none. *)
Theorem C64_expired_silent : forall d l scr, talk d [] (Expires :: l) scr -> scr = [] \/ scr = [Leaves].
Proof. exact expired_silent. Qed.
Print Assumptions C64_expired_silent.
Example C64_expired_silent_ex : talk new_db [] [Expires; Others []; Typed cl_env (bs "GET k"); Typed cl_env (bs "quit")] [].
Proof. constructor. apply closed_other; [discriminate|]. apply closed_write; [reflexivity|]. apply closed_quit. reflexivity. Qed.
(* Typing quit or QUIT ends the session: nothing more is asked or shown. *)
Theorem C64_quit : forall d u e t l scr, t = bs "quit" \/ t = bs "QUIT" -> talk d u (Typed e t :: l) scr <-> scr = [].
Proof. exact quit_ends. Qed.
Print Assumptions C64_quit.
Theorem C64_quit_closed : forall u e t l scr, t = bs "quit" \/ t = bs "QUIT" -> talk_closed u (Typed e t :: l) scr <-> scr = [].
Proof. exact quit_ends_closed. Qed.
Print Assumptions C64_quit_closed.
(* Nothing else does: any other line is sent, and something is shown. *)
Theorem C64_only_quit : forall d u e t l scr, t <> bs "quit" -> t <> bs "QUIT" -> talk d u (Typed e t :: l) scr -> scr <> [].
Proof. exact only_quit. Qed.
Print Assumptions C64_only_quit.
Example C64_quit_ex : bs "GET k" <> bs "quit" /\ bs "GET k" <> bs "QUIT" /\ talk new_db [] [Typed cl_env (bs "GET k"); Typed cl_env (bs "quit"); Typed cl_env (bs "GET k")] [Shows (format_output RNullBulk)].
Proof.
  split; [discriminate|]. split; [discriminate|].
  eapply (talk_line _ _ _ _ _ _ _ _ _ RNullBulk RNullBulk [] 0); [reflexivity|vm_compute; reflexivity|vm_compute; reflexivity|vm_compute; reflexivity|vm_compute; reflexivity|cbn; lia|].
  apply quit_ends; auto.
Qed.
