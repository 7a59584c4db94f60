(* pkg/concurrency/topic.go as a transition system: one topic, any number of Publish,
   Subscribe and Remove calls, the goroutines they start, and the subscribers' channels, each
   a DataChannel.v. A is the type Event.
   - sync.Map's Store and Delete are atomic; Range (90) visits no key twice, gives for a key
     any value it had during the Range, and visits every key present all the time (contract
     of sync.Map).
   - closedKeys is appended to by one goroutine while another may read it (116): reading is
     modelled as taking the appends made so far.
   - successCount is a Go int32; it is a nat here (fewer than 2^31 subscribers).
   - Remove (69-75) is distributeEvent with the removal event, hence the same steps as Publish.
   - The future of Publish (57-67) completes with the value of TResult: Future.v. *)
From Coq Require Import List Arith Bool String.
From Verif Require Import Lts DataChannel.
Import ListNotations.

Section Topic.
  Context {A : Type}.

  (* distributeEvent (77-117): not started; started; inside Range (90-110); wg.Wait (112);
     successChan <- (113); close (114); go batchRemove (116); batchRemove (119-123). *)
  Inductive phase := DNone | DStart | DRange | DWait | DResult | DClose | DSpawn | DRemove.
  Record pub := mkP {
    p_phase : phase; p_event : option A;
    p_seen : list (string * nat); (* mappings the subscribers map had since Range began *)
    p_must : list string;         (* keys present all the time and not visited yet *)
    p_visited : list string; p_wg : nat; p_count : nat; p_keys : list string;
    p_got : option string;        (* the collecting goroutine (84-88) holds a key to append *)
    p_remove : list string }.
  (* A sending goroutine (96-107): not started; before Send; in Send; before AddInt32 (103);
     before ch <- name (99); before wg.Done (106), and over; the bool: the send succeeded. *)
  Inductive gpc := GNone | GSend | GWait | GAdd | GReport | GWg (b : bool) | GOver (b : bool).
  Record gor := mkG { g_pc : gpc; g_pub : nat; g_name : string; g_chan : nat }.

  Record state := mkT { t_subs : list (string * nat); t_next : nat; t_ch : nat -> DataChannel.state A; t_pub : nat -> pub; t_g : nat -> gor }.

  Inductive event :=
  | TPublish (p : nat) (e : A)
  | TSubscribe (name : string) (c cap : nat)
  | TVisit (p g : nat) (name : string) (c : nat)  (* goroutine g will send p's event to c *)
  | TChan (c : nat) (l : DataChannel.event A)
  | TResult (p n : nat)
  | TDelete (p : nat) (name : string)
  | TPanic.

  Definition no_pub : pub := mkP DNone None [] [] [] 0 0 [] None [].
  Definition init : state := mkT [] 0 (fun _ => DataChannel.init 0) (fun _ => no_pub) (fun _ => mkG GNone 0 "" 0).

  Definition without {B : Type} (name : string) (l : list (string * B)) : list (string * B) :=
    filter (fun x => negb (String.eqb (fst x) name)) l.
  Definition drop (name : string) (l : list string) : list string := filter (fun x => negb (String.eqb x name)) l.
  (* What a Range in progress notices of a Store and of a Delete. *)
  Definition note_store (name : string) (c : nat) (q : pub) : pub :=
    match p_phase q with
    | DRange => mkP DRange (p_event q) ((name, c) :: p_seen q) (p_must q) (p_visited q) (p_wg q) (p_count q) (p_keys q) (p_got q) (p_remove q)
    | _ => q end.
  Definition note_delete (name : string) (q : pub) : pub :=
    match p_phase q with
    | DRange => mkP DRange (p_event q) (p_seen q) (drop name (p_must q)) (p_visited q) (p_wg q) (p_count q) (p_keys q) (p_got q) (p_remove q)
    | _ => q end.
  Definition set_phase (q : pub) (f : phase) : pub := mkP f (p_event q) (p_seen q) (p_must q) (p_visited q) (p_wg q) (p_count q) (p_keys q) (p_got q) (p_remove q).
  Definition set_count (q : pub) n : pub := mkP (p_phase q) (p_event q) (p_seen q) (p_must q) (p_visited q) (p_wg q) n (p_keys q) (p_got q) (p_remove q).
  Definition set_wg (q : pub) n : pub := mkP (p_phase q) (p_event q) (p_seen q) (p_must q) (p_visited q) n (p_count q) (p_keys q) (p_got q) (p_remove q).
  Definition set_keys (q : pub) k g : pub := mkP (p_phase q) (p_event q) (p_seen q) (p_must q) (p_visited q) (p_wg q) (p_count q) k g (p_remove q).
  Definition set_remove (q : pub) f r : pub := mkP f (p_event q) (p_seen q) (p_must q) (p_visited q) (p_wg q) (p_count q) (p_keys q) (p_got q) r.
  Definition put_pub (s : state) p q : state := mkT (t_subs s) (t_next s) (t_ch s) (upd (t_pub s) p q) (t_g s).
  Definition put_g (s : state) g f : state := mkT (t_subs s) (t_next s) (t_ch s) (t_pub s) (upd (t_g s) g (mkG f (g_pub (t_g s g)) (g_name (t_g s g)) (g_chan (t_g s g)))).
  Definition put_ch (s : state) c d : state := mkT (t_subs s) (t_next s) (upd (t_ch s) c d) (t_pub s) (t_g s).

  (* The Send of goroutine g is call 2g of its channel; subscribers use odd numbers. *)
  Definition sid (g : nat) : nat := 2 * g.
  Definition theirs (l : option (DataChannel.event A)) : Prop :=
    match l with
    | Some (DataChannel.ECall i o) | Some (DataChannel.ERet i o _) => Nat.odd i = true /\ (o = ORecv \/ o = OClose)
    | _ => True end.
  (* The three-way branch on the status, 98-104. *)
  Definition after (r : DataChannel.ret A) : gpc := match r with RClosed => GReport | RExpired => GWg false | _ => GAdd end.

  Inductive step : state -> option event -> state -> Prop :=
  (* Subscribe, SubscribeWithOptions 45-55 *)
  | subscribe s name cap :
      step s (Some (TSubscribe name (t_next s) cap))
        (mkT ((name, t_next s) :: without name (t_subs s)) (S (t_next s)) (upd (t_ch s) (t_next s) (DataChannel.init cap))
             (fun p => note_store name (t_next s) (t_pub s p)) (t_g s))
  (* what a subscriber does with its channel, and the channel's own steps *)
  | chan s c l d : c < t_next s -> theirs l -> DataChannel.step (t_ch s c) l d -> step s (option_map (TChan c) l) (put_ch s c d)
  (* Publish 57-67, Remove 69-75 *)
  | publish s p e : p_phase (t_pub s p) = DNone -> step s (Some (TPublish p e)) (put_pub s p (mkP DStart (Some e) [] [] [] 0 0 [] None []))
  (* distributeEvent 77-117 *)
  | range s p : p_phase (t_pub s p) = DStart ->
      step s None (put_pub s p (mkP DRange (p_event (t_pub s p)) (t_subs s) (map fst (t_subs s)) [] 0 0 [] None []))
  | visit s p g name c : p_phase (t_pub s p) = DRange -> In (name, c) (p_seen (t_pub s p)) -> ~ In name (p_visited (t_pub s p)) -> g_pc (t_g s g) = GNone ->
      step s (Some (TVisit p g name c))
        (mkT (t_subs s) (t_next s) (t_ch s)
           (upd (t_pub s) p (let q := t_pub s p in mkP DRange (p_event q) (p_seen q) (drop name (p_must q)) (name :: p_visited q) (S (p_wg q)) (p_count q) (p_keys q) (p_got q) (p_remove q)))
           (upd (t_g s) g (mkG GSend p name c)))
  | range_end s p : p_phase (t_pub s p) = DRange -> p_must (t_pub s p) = [] -> step s None (put_pub s p (set_phase (t_pub s p) DWait))
  | wait_over s p : p_phase (t_pub s p) = DWait -> p_wg (t_pub s p) = 0 -> step s None (put_pub s p (set_phase (t_pub s p) DResult))
  | result s p : p_phase (t_pub s p) = DResult -> step s (Some (TResult p (p_count (t_pub s p)))) (put_pub s p (set_phase (t_pub s p) DClose))
  | close_ch s p : p_phase (t_pub s p) = DClose -> step s None (put_pub s p (set_phase (t_pub s p) DSpawn))
  | spawn s p : p_phase (t_pub s p) = DSpawn -> step s None (put_pub s p (set_remove (t_pub s p) DRemove (p_keys (t_pub s p))))
  | remove s p name r : p_phase (t_pub s p) = DRemove -> p_remove (t_pub s p) = name :: r ->
      step s (Some (TDelete p name))
        (mkT (without name (t_subs s)) (t_next s) (t_ch s) (upd (fun p' => note_delete name (t_pub s p')) p (set_remove (t_pub s p) DRemove r)) (t_g s))
  (* the sending goroutines 96-107 *)
  | g_call s g e d : g_pc (t_g s g) = GSend -> p_event (t_pub s (g_pub (t_g s g))) = Some e ->
      DataChannel.step (t_ch s (g_chan (t_g s g))) (Some (DataChannel.ECall (sid g) (OSend e))) d ->
      step s (Some (TChan (g_chan (t_g s g)) (DataChannel.ECall (sid g) (OSend e)))) (put_g (put_ch s (g_chan (t_g s g)) d) g GWait)
  | g_ret s g e r d : g_pc (t_g s g) = GWait ->
      DataChannel.step (t_ch s (g_chan (t_g s g))) (Some (DataChannel.ERet (sid g) (OSend e) r)) d ->
      step s (Some (TChan (g_chan (t_g s g)) (DataChannel.ERet (sid g) (OSend e) r))) (put_g (put_ch s (g_chan (t_g s g)) d) g (after r))
  | g_add s g : g_pc (t_g s g) = GAdd ->
      step s None (put_g (put_pub s (g_pub (t_g s g)) (set_count (t_pub s (g_pub (t_g s g))) (S (p_count (t_pub s (g_pub (t_g s g))))))) g (GWg true))
  | g_report s g : g_pc (t_g s g) = GReport -> p_got (t_pub s (g_pub (t_g s g))) = None ->
      p_phase (t_pub s (g_pub (t_g s g))) <> DSpawn -> p_phase (t_pub s (g_pub (t_g s g))) <> DRemove ->
      step s None (put_g (put_pub s (g_pub (t_g s g)) (set_keys (t_pub s (g_pub (t_g s g))) (p_keys (t_pub s (g_pub (t_g s g)))) (Some (g_name (t_g s g))))) g (GWg false))
  (* send on a closed channel *)
  | g_panic s g : g_pc (t_g s g) = GReport -> (p_phase (t_pub s (g_pub (t_g s g))) = DSpawn \/ p_phase (t_pub s (g_pub (t_g s g))) = DRemove) -> step s (Some TPanic) s
  | g_done s g b : g_pc (t_g s g) = GWg b ->
      step s None (put_g (put_pub s (g_pub (t_g s g)) (set_wg (t_pub s (g_pub (t_g s g))) (pred (p_wg (t_pub s (g_pub (t_g s g))))))) g (GOver b))
  (* the collecting goroutine 84-88 *)
  | collect s p name : p_got (t_pub s p) = Some name -> step s None (put_pub s p (set_keys (t_pub s p) (p_keys (t_pub s p) ++ [name]) None)).

  Definition runs (tr : list event) (s : state) : Prop := exec step init tr s.

  (* What happened on channel c. *)
  Definition on_chan (c : nat) (a : event) : list (DataChannel.event A) := match a with TChan c' l => if Nat.eqb c' c then [l] else [] | _ => [] end.
  Definition chan_trace (c : nat) (tr : list event) : list (DataChannel.event A) := flat_map (on_chan c) tr.
  (* The copies of publication p's event that channel c accepted. *)
  Definition by_pub (p : nat) (tr : list event) (i : nat) : bool :=
    existsb (fun a => match a with TVisit p' g _ _ => Nat.eqb p' p && Nat.eqb i (sid g) | _ => false end) tr.
  Definition copies (p c : nat) (tr : list event) : list (nat * A) := filter (fun x => by_pub p tr (fst x)) (puts (chan_trace c tr)).
End Topic.
Arguments event : clear implicits.
Arguments state : clear implicits.
Arguments pub : clear implicits.
