(* pkg/common/logging.go: which messages are logged, and their text.  The zap encoder (time, caller,
   JSON), the log file and its periodic syncing are not modelled.  Arguments are strings; of the
   verbs only %s and %% are modelled (fmt and zap 1.15 transcribed for these). *)
From Coq Require Import ZArith List Ascii String Bool.
From Verif Require Import Base.
Import ListNotations.
Open Scope Z_scope.

(* zapcore/level.go: the levels and their numbers. *)
Inductive level := LDebug | LInfo | LWarn | LError | LDPanic | LPanic | LFatal.
Definition severity (l : level) : Z :=
  match l with LDebug => -1 | LInfo => 0 | LWarn => 1 | LError => 2 | LDPanic => 3 | LPanic => 4 | LFatal => 5 end.
(* logging.go:51-74 getLogLevel *)
Definition min_level (debug : bool) (t : bytes) : level :=
  if debug then LDebug
  else if bytes_eqb t (bs "INFO") then LInfo
  else if bytes_eqb t (bs "WARN") then LWarn
  else if bytes_eqb t (bs "ERROR") then LError
  else if bytes_eqb t (bs "FATAL") then LFatal
  else LInfo.
Definition enabled (debug : bool) (t : bytes) (l : level) : bool := severity (min_level debug t) <=? severity l.

(* An argument of Sprintf: a string, or a slice of interface values that are strings. *)
Inductive arg := AText (b : bytes) | ASlice (l : list bytes).
Fixpoint spaced (l : list bytes) : bytes :=
  match l with [] => [] | [b] => b | b :: l' => b ++ bs " " ++ spaced l' end.
Definition brackets (l : list bytes) : bytes := bs "[" ++ spaced l ++ bs "]".
Definition shown (a : arg) : bytes := match a with AText b => b | ASlice l => brackets l end.
(* fmt/print.go, end of doPrintf: arguments that no verb used. *)
Definition typed (a : arg) : bytes := match a with AText b => bs "string=" ++ b | ASlice l => bs "[]interface {}=" ++ brackets l end.
Fixpoint commas (l : list bytes) : bytes :=
  match l with [] => [] | [b] => b | b :: l' => b ++ bs ", " ++ commas l' end.
Definition extra (l : list arg) : bytes := match l with [] => [] | _ => bs "%!(EXTRA " ++ commas (map typed l) ++ bs ")" end.
(* fmt.Sprintf; None: a verb that is not modelled. *)
Fixpoint sprintf (t : bytes) (l : list arg) : option bytes :=
  match t with
  | [] => Some (extra l)
  | "%"%char :: t1 =>
      match t1 with
      | [] => Some (bs "%!(NOVERB)" ++ extra l)
      | "%"%char :: t2 => option_map (fun b => bs "%" ++ b) (sprintf t2 l)
      | "s"%char :: t2 =>
          match l with
          | [] => option_map (fun b => bs "%!s(MISSING)" ++ b) (sprintf t2 [])
          | a :: l' => option_map (fun b => shown a ++ b) (sprintf t2 l')
          end
      | _ => None
      end
  | x :: t1 => option_map (cons x) (sprintf t1 l)
  end.
(* zap/sugar.go log: the message of a template and its arguments. *)
Definition message (t : bytes) (l : list arg) : option bytes :=
  match l with
  | [] => Some t
  | _ => match t with [] => Some (List.concat (map shown l)) | _ => sprintf t l end
  end.

(* logging.go:142-149 Errorf hands its arguments on (a...). *)
Definition errorf (t : bytes) (l : list bytes) : option bytes := message t (map AText l).
(* 99-103 Debugf, 113-117 Infof, 127-131 Warnf, 160-164 Panicf and 175-180 Fatalf hand on the slice. *)
Definition infof (t : bytes) (l : list bytes) : option bytes := message t [ASlice l].
