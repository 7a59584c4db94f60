(* pkg/db/engine.go: which requests are logged, and how the database is rebuilt from log
   records. *)
From Verif Require Import Base IntParse Resp StringC HashC Command Db Engine Log Persist.
From Coq Require Import ZArith List Ascii String Bool.
From stdpp Require Import gmap.
Open Scope Z_scope.

(* What NewLog takes from the environment. *)
Record stamp := mkStamp { t_id : bytes; t_time : Z; t_host : bytes }.

(* A request with what the environment supplied to it. *)
Record entry := mkEntry { h_env : env; h_stamp : stamp; h_req : robj }.

(* engine.go:123-125 and log.go:29-47: the record for a request, if it is logged.  It is
   made by a separate goroutine from the objects of the request. *)
Definition log_of (t : stamp) (q : robj) : option vlog :=
  match q with
  | RArr (o :: args) =>
      match str_arg o with
      | None => None
      | Some name =>
          match new_command name args with
          | inl c => if is_modify c then Some (new_log (t_id t) (t_time t) (t_host t) name 1 (o :: args)) else None
          | inr _ => None
          end
      end
  | _ => None
  end.

(* engine.go:256-268 convertArguments: what does not parse is left out. *)
Fixpoint convert_arguments (l : list bytes) : res (list robj) :=
  match l with
  | [] => Ret []
  | s :: l' =>
      match parse s with
      | POk o _ => let! r := convert_arguments l' in Ret (o :: r)
      | PErr _ => convert_arguments l'
      | PPanic => Panic
      | PFuel => NoFuel
      end
  end.

(* engine.go:75-79 getOrCreateDB: one database per index. *)
Definition dbs := Z -> db.
Definition no_dbs : dbs := fun _ => new_db.
Definition put_db (ds : dbs) (i : Z) (d : db) : dbs := fun j => if j =? i then d else ds j.

(* engine.go:228-254 BuildFromLog; errors are ignored, a crash is not. *)
Definition build1 (ord : orders) (ds : dbs) (v : vlog) : res dbs :=
  let! args := convert_arguments (v_args v) in
  match new_command (v_name v) args with
  | inr _ => Ret ds
  | inl c =>
      let! r := execute_command ord (ds (v_index v)) c in
      Ret (put_db ds (v_index v) (fst r))
  end.
Fixpoint build (ds : dbs) (l : list (orders * vlog)) : res dbs :=
  match l with
  | [] => Ret ds
  | (ord, v) :: l' => let! ds' := build1 ord ds v in build ds' l'
  end.

(* server.go:337-356 fromFile: the records read are applied even if the tail is broken.
   [ords] gives the map iteration orders of each command. *)
Definition from_file (f : bytes) : list vlog := fst (parse_log f).
Definition recover (ords : nat -> orders) (f : bytes) : res dbs :=
  build no_dbs (zip (map ords (seq 0 (length (from_file f)))) (from_file f)).

(* The engine's logging as a state machine.  engine.go:123-128: handling a request
   starts a goroutine for its record (if it is logged) and executes the command; each
   such goroutine later packs its record and appends it to the file (205-225), or drops
   it if packing fails.  Nothing orders the goroutines. *)
Record lstate := mkLstate { l_executed : list entry; l_pending : list vlog; l_log : list vlog }.
Definition l_init : lstate := mkLstate [] [] [].
Inductive lstep : lstate -> lstate -> Prop :=
| l_handle q x p g :
    lstep (mkLstate x p g)
          (mkLstate (x ++ [q]) (p ++ match log_of (h_stamp q) (h_req q) with Some v => [v] | None => [] end) g)
| l_write v p1 p2 x g b : pack_log v = Some b ->
    lstep (mkLstate x (p1 ++ v :: p2) g) (mkLstate x (p1 ++ p2) (g ++ [v]))
| l_drop v p1 p2 x g : pack_log v = None ->
    lstep (mkLstate x (p1 ++ v :: p2) g) (mkLstate x (p1 ++ p2) g).
Inductive lreach : lstate -> Prop :=
| lr_init : lreach l_init
| lr_step a b : lreach a -> lstep a b -> lreach b.
