(* pkg/db/engine.go: request handling.  Logging is modelled in Persist.v, the event
   loop in the concurrency models. *)
From Verif Require Import Base IntParse Resp StringC HashC Command Db.
From Coq Require Import ZArith List Ascii String Bool.
From stdpp Require Import gmap.
Open Scope Z_scope.

(* What the environment supplies to one request: map iteration orders, and the text of
   an "internal error" message.  That text is fmt's rendering of a command struct and
   contains pointer values, so it is left unspecified. *)
Record env := mkEnv { e_ord : orders; e_text : bytes }.

(* engine.go:270-286 handleError. *)
Definition internal_prefix : bytes := bs "ERR vertex server internal error, err=".
Definition error_reply (text : bytes) (e : cerr) : robj :=
  RErr (match e with
        | ENoCmd => bs "ERR no such command"
        | EArg => bs "ERR invalid argument"
        | ENotInt => bs "ERR value is not an integer or out of range"
        | ENoKey => bs "ERR no such key"
        | ERange => bs "ERR index out of range"
        | EInternal => internal_prefix ++ text
        end).

(* engine.go:106-137 handleRequest with the error handling of 186-192.  For a first
   element that is not a string, %+v prints it by its String() method. *)
Definition handle_objects (e : env) (d : db) (objs : list robj) : res (db * robj) :=
  match objs with
  | [] => Ret (d, error_reply (bs "empty request objects") EInternal)
  | o :: args =>
      match str_arg o with
      | None => Ret (d, error_reply (bs "invalid command name, raw=" ++ Resp.encode o) EInternal)
      | Some name =>
          match new_command name args with
          | inr er => Ret (d, error_reply (e_text e) er)
          | inl c =>
              let! r := execute_command (e_ord e) d c in
              match r with
              | (d', inl o') => Ret (d', o')
              | (d', inr er) => Ret (d', error_reply (e_text e) er)
              end
          end
      end
  end.

(* engine.go:92-103, 176-192: only arrays are handled; anything else gets no reply
   (None). *)
Definition handle (e : env) (d : db) (request : robj) : res (db * option robj) :=
  match request with
  | RArr objs => let! r := handle_objects e d objs in Ret (fst r, Some (snd r))
  | RNullArr => let! r := handle_objects e d [] in Ret (fst r, Some (snd r))
  | _ => Ret (d, None)
  end.

(* The engine loop (engine.go:144-196) seen as a fold over the requests received. *)
Fixpoint run (d : db) (l : list (env * robj)) : res (db * list (option robj)) :=
  match l with
  | [] => Ret (d, [])
  | (e, q) :: l' =>
      let! r := handle e d q in
      let! r2 := run (fst r) l' in
      Ret (fst r2, snd r :: snd r2)
  end.
