(* C84: a measure that every step of the server lowers, but for accepting a connection and reading
   an object. *)
From Coq Require Import List Arith Bool String Lia.
From Verif Require Import Base Lts Resp RespSpec RespProofs Engine Db DataChannel DataChannelProofs Topic TopicProofs Conn ConnProofs ServerSpec Server ServerProofs StopProofs ProgressProofs BoundSpec.
Import ListNotations.
Local Open Scope nat_scope.
Local Open Scope list_scope.

(* ---- sums over a table of which only finitely many entries count ---- *)
Fixpoint sum_to (f : nat -> nat) (n : nat) : nat := match n with 0 => 0 | S n => sum_to f n + f n end.
Definition sums (f : nat -> nat) (m : nat) : Prop := exists n, (forall i, n <= i -> f i = 0) /\ sum_to f n = m.
Lemma sum_to_ext f g n : (forall i, i < n -> f i = g i) -> sum_to f n = sum_to g n.
Proof. induction n as [|n IH]; intros H; cbn; [reflexivity|]. rewrite IH, H; auto. Qed.
Lemma sum_to_more f n n' : n <= n' -> (forall i, n <= i -> f i = 0) -> sum_to f n' = sum_to f n.
Proof. intros L H. induction L as [|n' L IH]; [reflexivity|]. cbn. rewrite IH, H by exact L. lia. Qed.
Lemma sum_to_one f g i n : (forall j, j <> i -> g j = f j) -> i < n -> sum_to g n + f i = sum_to f n + g i.
Proof.
  intros H. induction n as [|n IH]; intros L; [lia|]. cbn. destruct (Nat.eq_dec i n) as [->|N].
  - rewrite (sum_to_ext g f n) by (intros j Hj; apply H; lia). lia.
  - rewrite (H n) by congruence. specialize (IH ltac:(lia)). lia.
Qed.
Lemma sums_one f g i m : sums f m -> (forall j, j <> i -> g j = f j) -> exists m', sums g m' /\ m' + f i = m + g i.
Proof.
  intros (n & Z & <-) H. exists (sum_to g (S (n + i))). split.
  - exists (S (n + i)). split; [|reflexivity]. intros j Hj. rewrite H, Z; lia.
  - rewrite (sum_to_one f g i) by (exact H || lia). rewrite (sum_to_more f n) by (lia || exact Z). reflexivity.
Qed.
Lemma sums_ext f g m : (forall i, f i = g i) -> sums f m -> sums g m.
Proof. intros E (n & Z & <-). exists n. split; [intros i Hi; rewrite <- E; auto|]. symmetry. apply sum_to_ext. auto. Qed.
Lemma sums_zero f : (forall i, f i = 0) -> sums f 0.
Proof. intros E. exists 0. split; [auto|reflexivity]. Qed.
(* the same for [upd] *)
Lemma sums_upd {X : Type} (w : X -> nat) (f : nat -> X) i x m : sums (fun j => w (f j)) m -> exists m', sums (fun j => w (upd f i x j)) m' /\ m' + w (f i) = m + w x.
Proof.
  intros H. destruct (sums_one _ (fun j => w (upd f i x j)) i m H) as (m' & A & B).
  - intros j N. rewrite upd_ne by exact N. reflexivity.
  - exists m'. split; [exact A|]. rewrite upd_eq in B. exact B.
Qed.

(* ---- one topic ---- *)
Section Lean.
  Context {A : Type} (n0 : string) (W : nat).
  Implicit Types (d : DataChannel.state A) (s t : Topic.state A) (e : A).

  (* nobody closes the one channel of the topic *)
  Definition open_pc (p : DataChannel.pc A) : Prop := match p with DataChannel.PCas | DataChannel.PClose | DataChannel.PRet (OSend _) DataChannel.RClosed => False | _ => True end.
  Definition open_chan d : Prop := d_flag d = false /\ d_closed d = false /\ d_crash d = false /\ forall i, open_pc (d_pc d i).
  Definition lean_pub (q : pub A) : Prop := p_keys q = [] /\ p_got q = None /\ p_remove q = [] /\ (forall x, In x (p_seen q) -> x = (n0, 0)) /\ (forall x, In x (p_visited q) -> x = n0).
  Definition lean_g (g : gor) : Prop := g_pc g = GNone \/ (g_pc g <> GReport /\ g_chan g = 0).
  Definition lean t : Prop := t_next t = 1 /\ (forall x, In x (t_subs t) -> x = (n0, 0)) /\ open_chan (t_ch t 0) /\ (forall p, lean_pub (t_pub t p)) /\ (forall g, lean_g (t_g t g)).

  Definition tame (l : option (Topic.event A)) : Prop :=
    match l with Some (TSubscribe _ _ _) => False | Some (TChan _ (DataChannel.ECall _ DataChannel.OClose)) => False | _ => True end.
  Lemma open_step d l d' : open_chan d -> (forall i, l <> Some (DataChannel.ECall i DataChannel.OClose)) -> DataChannel.step d l d' -> open_chan d'.
  Proof.
    intros (F & C & K & P) N St.
    assert (forall i p, open_pc p -> forall j, open_pc (upd (d_pc d) i p j)) as U by (intros i p H j; destruct (upd_case (d_pc d) i j p) as [[-> ->]|[_ ->]]; auto).
    destruct St; unfold open_chan; cbn [DataChannel.set_pc d_flag d_closed d_crash d_pc]; try (exfalso; eapply N; reflexivity);
      try (rewrite H1 in *; discriminate); try (exfalso; specialize (P i); rewrite H0 in P; exact P);
      split; auto; split; auto; split; auto; try (apply U; exact I).
    intros k. destruct (upd_case (upd (d_pc s) i (DataChannel.PRet (OSend e) DataChannel.RSuccess)) j k (DataChannel.PRet ORecv (REvent e))) as [[-> ->]|[_ ->]]; [exact I|]. apply U. exact I.
  Qed.

  Lemma lean_step t l t' : lean t -> tame l -> Topic.step t l t' -> lean t'.
  Proof.
    intros (N & S & C & P & G) T St.
    assert (forall p q, lean_pub q -> forall p', lean_pub (upd (t_pub t) p q p')) as UP by (intros p q H p'; destruct (upd_case (t_pub t) p p' q) as [[-> ->]|[_ ->]]; auto).
    assert (forall g q, lean_g q -> forall g', lean_g (upd (t_g t) g q g')) as UG by (intros g q H g'; destruct (upd_case (t_g t) g g' q) as [[-> ->]|[_ ->]]; auto).
    assert (forall g f, g_pc (t_g t g) <> GNone -> f <> GReport -> lean_g (mkG f (g_pub (t_g t g)) (g_name (t_g t g)) (g_chan (t_g t g)))) as MG.
    { intros g f H X. right. cbn. split; [exact X|]. destruct (G g) as [E|[_ E]]; [contradiction|exact E]. }
    destruct St; unfold lean; cbn [put_pub put_g put_ch t_subs t_next t_ch t_pub t_g set_phase set_count set_wg set_remove]; try contradiction.
    - assert (c = 0) as -> by lia. rewrite upd_eq. split; [exact N|]. split; [exact S|]. split; [|split; [exact P|exact G]].
      apply (open_step _ _ _ C) with (2 := H1). intros j E. subst l. exact T.
    - split; [exact N|]. split; [exact S|]. split; [exact C|]. split; [|exact G]. apply UP. repeat split; cbn; tauto.
    - split; [exact N|]. split; [exact S|]. split; [exact C|]. split; [|exact G]. apply UP. repeat split; cbn; tauto.
    - split; [exact N|]. split; [exact S|]. split; [exact C|]. destruct (P p) as (K1 & K2 & K3 & K4 & K5).
      assert ((name, c) = (n0, 0)) as E by auto. injection E as -> ->. split.
      + apply UP. repeat split; cbn; auto. intros x [<-|H3]; auto.
      + apply UG. right. split; [discriminate|reflexivity].
    - split; [exact N|]. split; [exact S|]. split; [exact C|]. split; [|exact G]. apply UP. apply (P p).
    - split; [exact N|]. split; [exact S|]. split; [exact C|]. split; [|exact G]. apply UP. apply (P p).
    - split; [exact N|]. split; [exact S|]. split; [exact C|]. split; [|exact G]. apply UP. apply (P p).
    - split; [exact N|]. split; [exact S|]. split; [exact C|]. split; [|exact G]. apply UP. apply (P p).
    - split; [exact N|]. split; [exact S|]. split; [exact C|]. split; [|exact G]. apply UP. destruct (P p) as (K1 & K2 & K3 & K4 & K5). repeat split; cbn; auto.
    - destruct (P p) as (_ & _ & K3 & _). rewrite K3 in H0. discriminate.
    - destruct (G g) as [E|[E1 E2]]; [congruence|]. rewrite E2 in *. rewrite upd_eq. split; [exact N|]. split; [exact S|]. split; [apply (open_step _ _ _ C) with (2 := H1); intros ? ?; discriminate|]. split; [exact P|].
      apply UG. right. split; [discriminate|reflexivity].
    - destruct (G g) as [E|[E1 E2]]; [congruence|]. rewrite E2 in *. rewrite upd_eq. split; [exact N|]. split; [exact S|]. split; [apply (open_step _ _ _ C) with (2 := H0); intros ? ?; discriminate|]. split; [exact P|].
      apply UG. right. split; [|reflexivity]. cbn. inversion H0; subst. destruct C as (_ & _ & _ & C). specialize (C (sid g)). match goal with X : d_pc _ _ = _ |- _ => rewrite X in C end. destruct r; cbn in *; try contradiction; discriminate.
    - split; [exact N|]. split; [exact S|]. split; [exact C|]. split; [apply UP; apply (P (g_pub (t_g s g)))|apply UG, MG; congruence].
    - destruct (G g) as [E|[E _]]; congruence.
    - destruct (G g) as [E|[E _]]; congruence.
    - split; [exact N|]. split; [exact S|]. split; [exact C|]. split; [apply UP; apply (P (g_pub (t_g s g)))|apply UG, MG; congruence].
    - destruct (P p) as (_ & K2 & _). congruence.
  Qed.

  (* weights *)
  Definition w_chan (p : DataChannel.pc A) : nat :=
    match p with
    | DataChannel.PSend _ => W + 4 | DataChannel.PLoad => 1 | DataChannel.PRet ORecv (REvent _) => W + 1 | DataChannel.PRet _ _ => 1 | _ => 0 end.
  Definition w_g (g : gor) : nat := match g_pc g with GSend => W + 8 | GWait => 3 | GAdd => 2 | GWg _ => 1 | _ => 0 end.
  Definition w_pub (q : pub A) : nat :=
    match p_phase q with
    | DNone => 0 | DStart => W + 15 | DRange => 5 + match p_visited q with [] => W + 9 | _ => 0 end
    | DWait => 4 | DResult => 3 | DClose => 2 | DSpawn => 1 | DRemove => 0 end.
  Definition tcost t m : Prop := exists a b c, sums (fun p => w_pub (t_pub t p)) a /\ sums (fun g => w_g (t_g t g)) b /\ sums (fun i => w_chan (d_pc (t_ch t 0) i)) c /\
    m = a + b + c + (W + 2) * List.length (d_buf (t_ch t 0)).
  Definition chan_cost d m : Prop := exists c, sums (fun i => w_chan (d_pc d i)) c /\ m = c + (W + 2) * List.length (d_buf d).
  (* what a step on the channel gives back, and what it takes *)
  Definition chan_out (l : option (DataChannel.event A)) : nat :=
    match l with Some (DataChannel.ECall _ _) => 0 | Some (DataChannel.ERet _ ORecv (REvent _)) => W + 1 | _ => 1 end.
  Definition chan_in (l : option (DataChannel.event A)) : nat :=
    match l with Some (DataChannel.ECall _ (OSend _)) => W + 4 | Some (DataChannel.ECall _ _) => 1 | _ => 0 end.
  Lemma chan_cost_step d l d' m : open_chan d -> DataChannel.step d l d' -> chan_cost d m -> exists m', chan_cost d' m' /\ m' + chan_out l <= m + chan_in l.
  Proof.
    intros (F & C & K & P) St (c & Sc & ->).
    assert (forall i p, exists c', sums (fun j => w_chan (upd (d_pc d) i p j)) c' /\ c' + w_chan (d_pc d i) = c + w_chan p) as U by (intros i p; exact (sums_upd w_chan (d_pc d) i p c Sc)).
    destruct St; unfold chan_cost; cbn [DataChannel.set_pc d_buf d_pc]; try congruence; try (exfalso; specialize (P i); rewrite H0 in P; exact P);
      try match goal with |- context [upd (d_pc _) ?i ?p] => destruct (U i p) as (c' & S' & E) end; try (rewrite H0 in E; cbn [w_chan] in E).
    - exists (c' + (W + 2) * List.length (d_buf s)). split; [eauto|]. cbn [chan_out chan_in]. lia.
    - exists (c' + (W + 2) * List.length (d_buf s)). split; [eauto|]. cbn [chan_out chan_in]. lia.
    - exists (c' + (W + 2) * List.length (d_buf s)). split; [eauto|]. cbn [chan_out chan_in]. lia.
    - exists (c' + (W + 2) * List.length (d_buf s)). split; [eauto|]. cbn [chan_out chan_in]. destruct o as [x| |]; [| destruct r |]; cbn [chan_out]; lia.
    - exists (c' + (W + 2) * List.length (d_buf s)). split; [eauto|]. cbn [chan_out chan_in]. lia.
    - exists (c' + (W + 2) * List.length (d_buf s ++ [e])). split; [eauto|]. rewrite app_length. cbn [chan_out chan_in List.length]. lia.
    - destruct (sums_upd w_chan _ j (DataChannel.PRet ORecv (REvent e)) c' S') as (c2 & S2 & E2). rewrite upd_ne in E2 by congruence. rewrite H1 in E2. cbn [w_chan] in E2.
      exists (c2 + (W + 2) * List.length (d_buf s)). split; [eauto|]. cbn [chan_out chan_in]. lia.
    - exists (c' + (W + 2) * List.length (d_buf s)). split; [eauto|]. cbn [chan_out chan_in]. lia.
    - exists (c' + (W + 2) * List.length b). split; [eauto|]. rewrite H1. cbn [chan_out chan_in List.length]. lia.
  Qed.

  Definition out (l : option (Topic.event A)) : nat :=
    match l with Some (TPublish _ _) => 0 | Some (TChan _ (DataChannel.ECall _ ORecv)) => 0 | Some (TChan _ (DataChannel.ERet _ ORecv (REvent _))) => W + 1 | _ => 1 end.
  Definition inn (l : option (Topic.event A)) : nat :=
    match l with Some (TPublish _ _) => W + 15 | Some (TChan _ (DataChannel.ECall _ ORecv)) => 1 | _ => 0 end.
  Lemma tcost_step t l t' m : lean t -> tame l -> Topic.step t l t' -> tcost t m -> exists m', tcost t' m' /\ m' + out l <= m + inn l.
  Proof.
    intros (N & S & C & P & G) T St (a & b & c & Sa & Sb & Sc & ->).
    assert (forall p q, exists a', sums (fun j => w_pub (upd (t_pub t) p q j)) a' /\ a' + w_pub (t_pub t p) = a + w_pub q) as UP by (intros p q; exact (sums_upd w_pub (t_pub t) p q a Sa)).
    assert (forall g q, exists b', sums (fun j => w_g (upd (t_g t) g q j)) b' /\ b' + w_g (t_g t g) = b + w_g q) as UG by (intros g q; exact (sums_upd w_g (t_g t) g q b Sb)).
    assert (forall l d, DataChannel.step (t_ch t 0) l d -> exists m', chan_cost d m' /\ m' + chan_out l <= c + (W + 2) * List.length (d_buf (t_ch t 0)) + chan_in l) as UC
      by (intros l0 d X; apply (chan_cost_step _ _ _ _ C X); exists c; auto).
    destruct St; unfold tcost; cbn [put_pub put_g put_ch t_subs t_next t_ch t_pub t_g]; try contradiction;
      try match goal with |- context [upd (t_pub _) ?p ?q] => destruct (UP p q) as (a' & S' & E) end;
      try match goal with |- context [upd (t_g _) ?p ?q] => destruct (UG p q) as (b' & T' & E') end;
      try unfold w_pub in E; try unfold w_g in E'; cbn [p_phase p_visited set_phase set_remove set_count set_wg g_pc] in *; try rewrite H in E; try rewrite H in E'.
    all: try (exists (a' + b + c + (W + 2) * List.length (d_buf (t_ch s 0))); split; [exists a', b, c; auto|]; cbn [out inn]; lia).
    all: try (exists (a' + b' + c + (W + 2) * List.length (d_buf (t_ch s 0))); split; [exists a', b', c; auto|]; cbn [out inn]; lia).
    - assert (c0 = 0) as -> by lia. rewrite upd_eq. destruct (UC _ _ H1) as (x & (c' & Sc' & ->) & L). exists (a + b + c' + (W + 2) * List.length (d_buf d)). split; [exists a, b, c'; auto|].
      destruct l as [[i o|i o r|i e|i e|i j e|]|]; cbn [option_map out inn chan_out chan_in theirs tame] in *; try lia.
      destruct o; [destruct H0 as [_ [X|X]]; discriminate|lia|contradiction].
    - destruct (P p) as (_ & _ & _ & K4 & K5). assert ((name, c0) = (n0, 0)) as X by auto. injection X as -> ->.
      assert (p_visited (t_pub s p) = []) as V by (destruct (p_visited (t_pub s p)) as [|x v]; [reflexivity|]; exfalso; apply H1; rewrite (K5 x) by (left; reflexivity); left; reflexivity).
      rewrite V in E. rewrite H2 in E'. exists (a' + b' + c + (W + 2) * List.length (d_buf (t_ch s 0))). split; [exists a', b', c; auto|]. cbn [out inn]. lia.
    - destruct (P p) as (_ & _ & K3 & _). rewrite K3 in H0. discriminate.
    - destruct (G g) as [X|[_ X]]; [congruence|]. rewrite X in *. rewrite upd_eq. destruct (UC _ _ H1) as (x & (c' & Sc' & ->) & L). cbn [chan_out chan_in] in L.
      exists (a + b' + c' + (W + 2) * List.length (d_buf d)). split; [exists a, b', c'; auto|]. cbn [out inn]. lia.
    - destruct (G g) as [X|[_ X]]; [congruence|]. rewrite X in *. rewrite upd_eq. destruct (UC _ _ H0) as (x & (c' & Sc' & ->) & L). cbn [chan_out chan_in] in L.
      exists (a + b' + c' + (W + 2) * List.length (d_buf d)). split; [exists a, b', c'; auto|]. cbn [out inn]. destruct r; cbn [after] in E'; lia.
    - destruct (G g) as [X|[X _]]; congruence.
    - destruct (G g) as [X|[X _]]; congruence.
    - destruct (P p) as (_ & X & _). congruence.
  Qed.

  Lemma lean_init cap : lean (subscribed n0 cap).
  Proof.
    split; [reflexivity|]. split; [intros x [<-|[]]; reflexivity|]. split; [repeat split; intros; exact I|]. split; [intros p; repeat split; cbn; tauto|]. intros g. left. reflexivity.
  Qed.
  Lemma tcost_init cap : tcost (subscribed n0 cap) 0.
  Proof. exists 0, 0, 0. repeat split; try (apply sums_zero; reflexivity). cbn. lia. Qed.
End Lean.

(* ---- one connection ---- *)
Definition w_conn (p : Conn.pc) : nat :=
  match p with
  | PIdle | PDone => 0 | PRet _ _ => 1 | PChan _ => 2 | PTcp _ => 3 | PMsg _ => 4 | PCas _ => 5 | PChk => 6 | PLoop => 6
  | PWriting _ => 2 | PResetW _ => 3 | PChkW _ => 4 | PReading => 8 | PResetR => 9 end.
Definition ccost (t : Conn.state) (m : nat) : Prop := sums (fun i => w_conn (c_pc t i)) m.
Definition conn_out (l : option Conn.event) : nat := match l with Some (Conn.ECall _ _) => 0 | _ => 1 end.
Definition conn_in (l : option Conn.event) : nat := match l with Some (Conn.ECall _ o) => w_conn (start o) | _ => 0 end.
Lemma ccost_step t l t' m : Conn.step t l t' -> c_crash t' = false -> ccost t m -> exists m', ccost t' m' /\ m' + conn_out l <= m + conn_in l.
Proof.
  intros St K Sc. unfold ccost in *.
  assert (forall i p, exists c', sums (fun j => w_conn (upd (c_pc t) i p j)) c' /\ c' + w_conn (c_pc t i) = m + w_conn p) as U by (intros i p; exact (sums_upd w_conn (c_pc t) i p m Sc)).
  destruct St; unfold Conn.set_pc in *; cbn [c_pc c_crash] in *; try discriminate;
    try match goal with |- context [upd (c_pc _) ?i ?p] => destruct (U i p) as (c' & S' & E) end; try (rewrite H0 in E; cbn [w_conn] in E); cbn [conn_out conn_in].
  all: try (exists c'; split; [exact S'|]; lia).
  - destruct (sums_upd w_conn _ j PChk c' S') as (c2 & S2 & E2). rewrite upd_ne in E2 by congruence. rewrite H1 in E2. cbn [w_conn] in E2. exists c2. split; [exact S2|]. lia.
  - exists c'. split; [exact S'|]. destruct (c_flag s); cbn [w_conn] in E; lia.
  - exists c'. split; [exact S'|]. destruct (c_flag s); cbn [w_conn] in E; lia.
  - exists c'. split; [exact S'|]. destruct x; cbn [w_conn lost] in E; lia.
  - exists c'. split; [exact S'|]. destruct x; cbn [w_conn won] in E; lia.
Qed.
Lemma ccost_init : ccost Conn.init 6.
Proof. exists 1. split; [|reflexivity]. intros [|i] L; [lia|reflexivity]. Qed.

(* ---- the server ---- *)
Definition w_rd (r : reader) : nat := match r with RIdle _ => 10 | RPub _ _ => 52 | _ => 0 end.
Definition w_eng (e : engine) : nat := match e with EIdle => 3 | EWait _ => 1 | EHas _ _ _ => 27 | EReply _ _ _ => 26 | EOver => 0 end.
Definition w_wrk (w : worker) : nat := match w with WIdle => 3 | WWait _ => 1 | WHas _ _ _ => 8 | WIn _ _ _ _ => 3 | WOver => 0 end.
Definition w_stop (x : stopper) : nat := match x with XNone => 68 | XReq _ => 26 | XRsp _ => 3 | XShut => 2 | XFlushed => 1 | XDone => 0 end.
Definition w_reader (r : reader) (m : nat) : nat := match r with RNone => 0 | _ => w_rd r + m end.
Definition cost (s : state) (m : nat) : Prop :=
  exists a b F c, tcost 26 (s_req s) a /\ tcost 7 (s_rsp s) b /\ (forall c, ccost (s_conn s c) (F c)) /\ sums (fun c => w_reader (s_rd s c) (F c)) c /\
    m = a + b + c + w_eng (s_eng s) + w_wrk (s_wrk s) + w_stop (s_stop s) + (if s_crash s then 0 else 1).
Definition price (l : option event) : nat := match l with Some (SAccept _) => 17 | Some (SRead _ _ _ _) => 52 | _ => 0 end.
Definition leans (s : state) : Prop := lean "engine" (s_req s) /\ lean "server" (s_rsp s) /\ forall c, s_rd s c = RNone -> s_conn s c = Conn.init.
Lemma sums_fun f m m' : sums f m -> sums f m' -> m = m'.
Proof.
  intros (n & Z & <-) (n' & Z' & <-). rewrite <- (sum_to_more f n (n + n')), <- (sum_to_more f n' (n + n')) by (lia || assumption). reflexivity.
Qed.
Lemma readers_one (rd rd' : nat -> reader) (F F' : nat -> nat) c m : sums (fun j => w_reader (rd j) (F j)) m -> (forall j, j <> c -> rd' j = rd j /\ F' j = F j) ->
  exists m', sums (fun j => w_reader (rd' j) (F' j)) m' /\ m' + w_reader (rd c) (F c) = m + w_reader (rd' c) (F' c).
Proof. intros H E. apply (sums_one (fun j => w_reader (rd j) (F j)) (fun j => w_reader (rd' j) (F' j)) c m H). intros j N. destruct (E j N) as [-> ->]. reflexivity. Qed.
Lemma ccost_upd (f : nat -> Conn.state) F c t m : (forall c, ccost (f c) (F c)) -> ccost t m -> forall j, ccost (upd f c t j) (upd F c m j).
Proof. intros H X j. unfold upd. destruct (Nat.eqb j c); auto. Qed.
Lemma free_tame {A} (l : option (Topic.event A)) : free l -> tame l.
Proof. destruct l as [[]|]; cbn; auto. destruct l; auto. destruct o; auto. Qed.
Lemma free_out {A} W (l : option (Topic.event A)) : free l -> out W l = 1 /\ inn W l = 0.
Proof. destruct l as [[]|]; cbn; try tauto. destruct l as [? []|? [] ?| | | |]; tauto. Qed.
Lemma free_conn_out l : free_conn l -> conn_out l = 1 /\ conn_in l = 0.
Proof. destruct l as [[]|]; cbn; tauto. Qed.

Lemma rd_named cl d input tr s c i k r : runs cl d input tr s -> In (SWrite c i k r) tr -> s_rd s c <> RNone.
Proof.
  intros R H. destruct (written_handled _ _ _ _ _ _ _ _ _ R H) as (e & q & B). apply before_in in B as [B _].
  destruct (handled_read _ _ _ _ _ _ _ _ _ _ R B) as (j & B'). apply before_in in B' as [B' _]. eapply rd_none; eassumption.
Qed.

Ltac give a b F z := eexists; split; [exists a, b, F, z; split; [eassumption|split; [eassumption|split; [eassumption|split; [eassumption|reflexivity]]]]|].
Lemma cost_step cl d input tr s l s' m : runs cl d input tr s -> step cl s l s' -> leans s -> cost s m -> leans s' /\ exists m', cost s' m' /\ m' + 1 <= m + price l.
Proof.
  intros R [K M] (Lq & Lr & Li) (a & b & Fc & z & Ca & Cb & Cf & Cc & ->).
  assert (runs cl d input (ext tr l) s') as R'.
  { destruct l as [x|]; [exact (exec_act _ _ _ _ _ _ R (conj K M))|exact (exec_tau _ _ _ _ _ R (conj K M))]. }
  assert (forall j, c_crash (s_conn s' j) = false) as Al by (intros j; exact (proj1 (i_alive _ _ (ConnProofs.runs_inv _ _ (proj2 (proj2 (runs_parts _ _ _ _ _ R')) j))))).
  assert (forall j i k r, l = Some (SWrite j i k r) -> s_rd s' j <> RNone) as Nw.
  { intros j i k r ->. apply (rd_named _ _ _ _ _ j i k r R'). apply in_snoc. auto. }
  assert (forall j i k r, s_wrk s = WIn j i k r -> s_rd s j <> RNone) as Ni.
  { intros j i k r E. apply (rd_named _ _ _ _ _ j i k r R). apply (write_in _ _ _ _ _ _ _ _ _ R E). }
  assert (forall x t, Topic.step (s_req s) x t -> tame x -> lean "engine" t /\ exists a', tcost 26 t a' /\ a' + out 26 x <= a + inn 26 x) as Hq.
  { intros x t St T. split; [exact (lean_step _ _ _ _ Lq T St)|exact (tcost_step _ _ _ _ _ _ Lq T St Ca)]. }
  assert (forall x t, Topic.step (s_rsp s) x t -> tame x -> lean "server" t /\ exists b', tcost 7 t b' /\ b' + out 7 x <= b + inn 7 x) as Hr.
  { intros x t St T. split; [exact (lean_step _ _ _ _ Lr T St)|exact (tcost_step _ _ _ _ _ _ Lr T St Cb)]. }
  assert (forall j x t, Conn.step (s_conn s j) x t -> c_crash t = false -> exists m', ccost t m' /\ m' + conn_out x <= Fc j + conn_in x) as Hc.
  { intros j x t St X. exact (ccost_step _ _ _ _ St X (Cf j)). }
  clear R R'.
  assert (forall j t r (f : nat -> reader), (s_rd s j <> RNone) -> (forall i, i <> j -> f i = s_rd s i) -> f j = r -> r <> RNone -> forall i, f i = RNone -> upd (s_conn s) j t i = Conn.init) as LU.
  { intros j t r f X E1 E2 E3 i Hi. destruct (upd_case (s_conn s) j i t) as [[-> _]|[N ->]]; [congruence|]. apply Li. rewrite <- E1; auto. }
  assert (forall j t r (f : nat -> reader) x, s_rd s j <> RNone -> (forall i, i <> j -> f i = s_rd s i) -> f j = r -> Conn.step (s_conn s j) x t -> c_crash t = false ->
    exists F' z' m', (forall i, ccost (upd (s_conn s) j t i) (F' i)) /\ sums (fun i => w_reader (f i) (F' i)) z' /\ z' + w_rd (s_rd s j) + Fc j = z + w_reader r m' /\ m' + conn_out x <= Fc j + conn_in x) as HF.
  { intros j t r f x X E1 E2 St Y. destruct (Hc j x t St Y) as (m' & Cm & L).
    destruct (readers_one (s_rd s) f Fc (upd Fc j m') j z Cc) as (z' & Sc & E).
    { intros i N. split; [apply E1; exact N|apply upd_ne; exact N]. }
    exists (upd Fc j m'), z', m'. split; [apply ccost_upd; assumption|]. split; [exact Sc|]. split; [|exact L].
    rewrite upd_eq, E2 in E. rewrite <- E. destruct (s_rd s j); [contradiction| | | |]; cbn [w_reader]; lia. }
  assert (forall j r, s_rd s j <> RNone -> r <> RNone -> (forall i, upd (s_rd s) j r i = RNone -> s_conn s i = Conn.init) /\
    exists z', sums (fun i => w_reader (upd (s_rd s) j r i) (Fc i)) z' /\ z' + w_rd (s_rd s j) = z + w_rd r) as HR.
  { intros j r X Y. split.
    - intros i. destruct (upd_case (s_rd s) j i r) as [[-> ->]|[_ ->]]; [intros; contradiction|apply Li].
    - destruct (readers_one (s_rd s) (upd (s_rd s) j r) Fc Fc j z Cc) as (z' & Sz & E); [intros i N; split; [apply upd_ne; exact N|reflexivity]|].
      exists z'. split; [exact Sz|]. rewrite upd_eq in E. destruct (s_rd s j), r; cbn [w_reader] in E; try contradiction; lia. }
  moves M; unfold leans, cost; unf; rewrite ?K; cbn [price].
  - (* accept *) split; [split; [exact Lq|split; [exact Lr|]]|].
    + intros j. destruct (upd_case (s_rd s) c j (RIdle 0)) as [[-> ->]|[_ ->]]; [discriminate|apply Li].
    + destruct (readers_one (s_rd s) (upd (s_rd s) c (RIdle 0)) Fc Fc c z Cc) as (z' & Sz & E); [intros j N; split; [apply upd_ne; exact N|reflexivity]|].
      rewrite upd_eq, P in E. cbn [w_reader w_rd] in E. assert (Fc c = 6) as E6 by (apply (sums_fun _ _ _ (Cf c)); rewrite (Li c P); exact ccost_init).
      give a b Fc z'. lia.
  - (* read_call *) assert (c_crash t = false) as X by (specialize (Al c); rewrite upd_eq in Al; exact Al).
    destruct (HF c t (RIn k i) (upd (s_rd s) c (RIn k i)) _ ltac:(congruence) ltac:(intros j N; apply upd_ne; exact N) (upd_eq _ _ _) St X) as (F' & z' & m' & C1 & C2 & C3 & C4).
    split; [split; [exact Lq|split; [exact Lr|]]|]; [apply (LU c t (RIn k i)); [congruence|intros j N; apply upd_ne; exact N|apply upd_eq|discriminate]|].
    rewrite P in C3. cbn [w_reader w_rd conn_out conn_in start w_conn] in C3, C4. give a b F' z'. lia.
  - (* read_obj *) assert (c_crash t = false) as X by (specialize (Al c); rewrite upd_eq in Al; exact Al).
    destruct (HF c t (RPub k q) (upd (s_rd s) c (RPub k q)) _ ltac:(congruence) ltac:(intros j N; apply upd_ne; exact N) (upd_eq _ _ _) St X) as (F' & z' & m' & C1 & C2 & C3 & C4).
    split; [split; [exact Lq|split; [exact Lr|]]|]; [apply (LU c t (RPub k q)); [congruence|intros j N; apply upd_ne; exact N|apply upd_eq|discriminate]|].
    rewrite P in C3. cbn [w_reader w_rd conn_out conn_in] in C3, C4. give a b F' z'. lia.
  - (* read_err *) assert (c_crash t = false) as X by (specialize (Al c); rewrite upd_eq in Al; exact Al).
    destruct (HF c t ROver (upd (s_rd s) c ROver) _ ltac:(congruence) ltac:(intros j N; apply upd_ne; exact N) (upd_eq _ _ _) St X) as (F' & z' & m' & C1 & C2 & C3 & C4).
    split; [split; [exact Lq|split; [exact Lr|]]|]; [apply (LU c t ROver); [congruence|intros j N; apply upd_ne; exact N|apply upd_eq|discriminate]|].
    rewrite P in C3. cbn [w_reader w_rd conn_out conn_in] in C3, C4. give a b F' z'. lia.
  - (* read_panic *) split; [auto|]. give a b Fc z. lia.
  - (* publish *) destruct (Hq _ _ St I) as (L' & a' & Ca' & La). cbn [out inn] in La. destruct (HR c (RIdle (S k)) ltac:(congruence) ltac:(discriminate)) as (Li' & z' & Cz & E).
    rewrite P in E. cbn [w_rd] in E. split; [auto|]. give a' b Fc z'. lia.
  - (* publish_gone *) destruct (HR c (RIdle (S k)) ltac:(congruence) ltac:(discriminate)) as (Li' & z' & Cz & E). rewrite P in E. cbn [w_rd] in E. split; [auto|]. give a b Fc z'. lia.
  - (* eng_call *) destruct (Hq _ _ St I) as (L' & a' & Ca' & La). cbn [out inn] in La. rewrite P. split; [auto|]. give a' b Fc z. cbn [w_eng]. lia.
  - rewrite P. split; [auto|]. give a b Fc z. cbn [w_eng]. lia.
  - (* eng_got *) destruct (Hq _ _ St I) as (L' & a' & Ca' & La). cbn [out inn] in La. rewrite P. split; [auto|]. give a' b Fc z. destruct m; cbn [w_eng]; lia.
  - destruct (Hq _ _ St I) as (L' & a' & Ca' & La). cbn [out inn] in La. rewrite P. split; [auto|]. give a' b Fc z. cbn [w_eng]. lia.
  - (* eng_handle *) rewrite P. split; [auto|]. give a b Fc z. destruct o; cbn [w_eng]; lia.
  - split; [auto|]. give a b Fc z. lia.
  - (* eng_reply *) destruct (Hr _ _ St I) as (L' & b' & Cb' & Lb). cbn [out inn] in Lb. rewrite P. split; [auto|]. give a b' Fc z. cbn [w_eng]. lia.
  - rewrite P. split; [auto|]. give a b Fc z. cbn [w_eng]. lia.
  - (* wrk_call *) destruct (Hr _ _ St I) as (L' & b' & Cb' & Lb). cbn [out inn] in Lb. rewrite P. split; [auto|]. give a b' Fc z. cbn [w_wrk]. lia.
  - rewrite P. split; [auto|]. give a b Fc z. cbn [w_wrk]. lia.
  - (* wrk_got *) destruct (Hr _ _ St I) as (L' & b' & Cb' & Lb). cbn [out inn] in Lb. rewrite P. split; [auto|]. give a b' Fc z. destruct m; cbn [w_wrk]; lia.
  - split; [auto|]. give a b Fc z. lia.
  - (* wrk_write *) assert (c_crash t = false) as X by (specialize (Al c); rewrite upd_eq in Al; exact Al). pose proof (Nw _ _ _ _ eq_refl) as Y.
    destruct (HF c t (s_rd s c) (s_rd s) _ Y ltac:(auto) eq_refl St X) as (F' & z' & m' & C1 & C2 & C3 & C4).
    split; [split; [exact Lq|split; [exact Lr|]]|]; [apply (LU c t (s_rd s c)); auto|]. rewrite P. cbn [conn_out conn_in start w_conn] in C4.
    assert (w_reader (s_rd s c) m' = w_rd (s_rd s c) + m') as E by (destruct (s_rd s c); [contradiction| | | |]; reflexivity). rewrite E in C3.
    give a b F' z'. cbn [w_wrk]. lia.
  - (* wrk_done *) assert (c_crash t = false) as X by (specialize (Al c); rewrite upd_eq in Al; exact Al). pose proof (Ni _ _ _ _ P) as Y.
    destruct (HF c t (s_rd s c) (s_rd s) _ Y ltac:(auto) eq_refl St X) as (F' & z' & m' & C1 & C2 & C3 & C4).
    split; [split; [exact Lq|split; [exact Lr|]]|]; [apply (LU c t (s_rd s c)); auto|]. rewrite P. cbn [conn_out conn_in] in C4.
    assert (w_reader (s_rd s c) m' = w_rd (s_rd s c) + m') as E by (destruct (s_rd s c); [contradiction| | | |]; reflexivity). rewrite E in C3.
    give a b F' z'. cbn [w_wrk]. lia.
  - (* stop_req *) destruct (Hq _ _ St I) as (L' & a' & Ca' & La). cbn [out inn] in La. rewrite P. split; [auto|]. give a' b Fc z. cbn [w_stop]. lia.
  - destruct (Hr _ _ St I) as (L' & b' & Cb' & Lb). cbn [out inn] in Lb. rewrite P. split; [auto|]. give a b' Fc z. cbn [w_stop]. lia.
  - rewrite P. split; [auto|]. give a b Fc z. cbn [w_stop]. lia.
  - rewrite P. split; [auto|]. give a b Fc z. cbn [w_stop]. lia.
  - rewrite P. split; [auto|]. give a b Fc z. cbn [w_stop]. lia.
  - split; [auto|]. give a b Fc z. lia.
  - (* free *) destruct (Hq _ _ St (free_tame _ F)) as (L' & a' & Ca' & La). destruct (free_out 26 _ F) as [E1 E2]. split; [auto|]. give a' b Fc z. lia.
  - destruct (Hr _ _ St (free_tame _ F)) as (L' & b' & Cb' & Lb). destruct (free_out 7 _ F) as [E1 E2]. split; [auto|]. give a b' Fc z. lia.
  - assert (c_crash t = false) as X by (specialize (Al c); rewrite upd_eq in Al; exact Al).
    destruct (HF c t (s_rd s c) (s_rd s) _ P ltac:(auto) eq_refl St X) as (F' & z' & m' & C1 & C2 & C3 & C4).
    split; [split; [exact Lq|split; [exact Lr|]]|]; [apply (LU c t (s_rd s c)); auto|]. destruct (free_conn_out _ F) as [E1 E2].
    assert (w_reader (s_rd s c) m' = w_rd (s_rd s c) + m') as E by (destruct (s_rd s c); [contradiction| | | |]; reflexivity). rewrite E in C3.
    give a b F' z'. lia.
Qed.

Lemma steps_runs cl d input n tr s : steps (step cl) (init d input) n tr s -> runs cl d input tr s.
Proof. intros H. induction H as [|n tr s1 s2 H IH St|n tr s1 a s2 H IH St]; [constructor|exact (exec_tau _ _ _ _ _ IH St)|exact (exec_act _ _ _ _ _ _ IH St)]. Qed.
Lemma steps_length {S L : Type} (R : S -> option L -> S -> Prop) s n tr s' : steps R s n tr s' -> List.length tr <= n.
Proof. induction 1; [cbn; lia|lia|rewrite app_length; cbn; lia]. Qed.
Lemma runs_steps cl d input tr s : runs cl d input tr s -> exists n, steps (step cl) (init d input) n tr s.
Proof.
  intros H. unfold runs in H. induction H as [|tr s1 s2 H [n IH] St|tr s1 a s2 H [n IH] St]; [exists 0; constructor|exists (S n); exact (steps_tau _ _ _ _ _ _ IH St)|exists (S n); exact (steps_act _ _ _ _ _ _ _ IH St)].
Qed.
Lemma cost_init d input : leans (init d input) /\ cost (init d input) 75.
Proof.
  split; [split; [apply lean_init|split; [apply lean_init|reflexivity]]|].
  exists 0, 0, (fun _ => 6), 0. split; [apply tcost_init|]. split; [apply tcost_init|]. split; [intros c; exact ccost_init|]. split; [apply sums_zero; reflexivity|]. reflexivity.
Qed.
Lemma accepted_snoc tr a : accepted (tr ++ [a]) = accepted tr ++ match a with SAccept c => [c] | _ => [] end.
Proof. unfold accepted. rewrite flat_map_app. cbn. now rewrite app_nil_r. Qed.
Lemma read_count_snoc tr a : read_count (tr ++ [a]) = read_count tr + match a with SRead _ _ _ _ => 1 | _ => 0 end.
Proof. unfold read_count. rewrite map_app, list_sum_app. cbn. lia. Qed.

Lemma bounded cl d input n tr s : steps (step cl) (init d input) n tr s -> leans s /\ exists m, cost s m /\ n + m <= 75 + 17 * List.length (accepted tr) + 52 * read_count tr.
Proof.
  intros H. induction H as [|n tr s1 s2 H (L & m & C & B) St|n tr s1 a s2 H (L & m & C & B) St].
  - destruct (cost_init d input) as [L C]. split; [exact L|]. exists 75. split; [exact C|]. cbn. lia.
  - destruct (cost_step _ _ _ _ _ _ _ _ (steps_runs _ _ _ _ _ _ H) St L C) as (L' & m' & C' & B'). split; [exact L'|]. exists m'. split; [exact C'|]. cbn in B'. lia.
  - destruct (cost_step _ _ _ _ _ _ _ _ (steps_runs _ _ _ _ _ _ H) St L C) as (L' & m' & C' & B'). split; [exact L'|]. exists m'. split; [exact C'|].
    rewrite accepted_snoc, read_count_snoc, app_length. destruct a; cbn in *; lia.
Qed.
Theorem steps_bound cl d input n tr s : steps (step cl) (init d input) n tr s -> n <= 75 + 17 * List.length (accepted tr) + 52 * read_count tr.
Proof. intros H. destruct (bounded _ _ _ _ _ _ H) as (_ & m & _ & B). lia. Qed.

(* The read_count read are parts of what the peers of accepted connections sent. *)
Lemma parse_shorter b q r : parse b = POk q r -> List.length r < List.length b.
Proof.
  intros H. destruct (parse_local _ _ _ H) as (u & -> & Hu & _). rewrite app_length. destruct u as [|x u]; [|cbn; lia].
  exfalso. specialize (Hu []). cbn in Hu. discriminate.
Qed.
Definition sizes (f : nat -> bytes) (cs : list nat) : nat := list_sum (map (fun c => List.length (f c)) cs).
Lemma sizes_snoc f cs c : sizes f (cs ++ [c]) = sizes f cs + List.length (f c).
Proof. unfold sizes. rewrite map_app, list_sum_app. cbn. lia. Qed.
Lemma sizes_upd f c b cs : List.length b < List.length (f c) -> sizes (upd f c b) cs + (if in_dec Nat.eq_dec c cs then 1 else 0) <= sizes f cs.
Proof.
  intros L. unfold sizes. induction cs as [|x cs IH]; [cbn; lia|]. cbn [map list_sum fold_right] in *. destruct (upd_case f c x b) as [[-> E]|[N E]]; rewrite E.
  - destruct (in_dec Nat.eq_dec c (c :: cs)) as [_|X]; [|exfalso; apply X; left; reflexivity]. unfold list_sum in *. destruct (in_dec Nat.eq_dec c cs); lia.
  - unfold list_sum in *. destruct (in_dec Nat.eq_dec c cs) as [I|X]; destruct (in_dec Nat.eq_dec c (x :: cs)) as [J|Y]; try lia. exfalso. destruct J; [congruence|auto].
Qed.
Lemma reads_bound cl d input tr s : runs cl d input tr s -> NoDup (accepted tr) /\ (forall c, s_rd s c = RNone <-> ~ In c (accepted tr)) /\ (forall c, s_rd s c = RNone -> s_in s c = input c) /\
  read_count tr + sizes (s_in s) (accepted tr) <= sizes input (accepted tr).
Proof.
  revert tr s. apply runs_ind'.
  - split; [constructor|]. split; [intros c; cbn; tauto|]. split; [reflexivity|]. cbn. lia.
  - intros tr s l s' R (ND & A & I & B) M.
    assert (forall r (c : nat), s_rd s c <> RNone -> r <> RNone -> forall j, upd (s_rd s) c r j = RNone <-> s_rd s j = RNone) as Ud.
    { intros r c X Y j. destruct (upd_case (s_rd s) c j r) as [[-> ->]|[_ ->]]; tauto. }
    assert (forall s', (forall j, s_rd s' j = RNone <-> s_rd s j = RNone) -> s_in s' = s_in s -> forall l, match l with Some (SAccept _) | Some (SRead _ _ _ _) => False | _ => True end ->
      NoDup (accepted (ext tr l)) /\ (forall c, s_rd s' c = RNone <-> ~ In c (accepted (ext tr l))) /\ (forall c, s_rd s' c = RNone -> s_in s' c = input c) /\ read_count (ext tr l) + sizes (s_in s') (accepted (ext tr l)) <= sizes input (accepted (ext tr l))) as Same.
    { intros s2 E1 E2 x X. assert (accepted (ext tr x) = accepted tr /\ read_count (ext tr x) = read_count tr) as [-> ->].
      { destruct x as [a|]; [|auto]. cbn [ext]. rewrite accepted_snoc, read_count_snoc. destruct a; try contradiction; rewrite app_nil_r; split; lia || reflexivity. }
      rewrite E2. split; [exact ND|]. split; [intros c; rewrite E1; apply A|]. split; [intros c Y; apply I, E1, Y|exact B]. }
    moves M; try (apply Same; unf; [first [reflexivity|intros j; tauto|apply Ud; congruence]|reflexivity|]; try exact Logic.I; destruct l as [[]|]; exact Logic.I); unf.
    + cbn [ext]. rewrite accepted_snoc, read_count_snoc. split.
      { apply (NoDup_Add (a := c) (l := accepted tr)); [|split; [exact ND|apply A; exact P]]. rewrite <- (app_nil_r (accepted tr)) at 1. apply Add_app. }
      split. { intros j. rewrite in_app_iff. cbn. destruct (upd_case (s_rd s) c j (RIdle 0)) as [[-> ->]|[N ->]]; [split; [discriminate|tauto]|]. rewrite A. split; [intros X [Y|[Y|[]]]; congruence|tauto]. }
      split. { intros j. destruct (upd_case (s_rd s) c j (RIdle 0)) as [[-> ->]|[N ->]]; [discriminate|apply I]. }
      rewrite !sizes_snoc, (I c P). lia.
    + cbn [ext]. rewrite accepted_snoc, read_count_snoc, app_nil_r. pose proof (sizes_upd (s_in s) c r (accepted tr) (parse_shorter _ _ _ Q)) as L.
      revert L. destruct (in_dec Nat.eq_dec c (accepted tr)) as [X|X]; intros L; [|exfalso; apply A in X; congruence].
      split; [exact ND|]. split; [intros j; rewrite Ud by congruence; apply A|]. split; [|eapply Nat.le_trans; [|exact B]; rewrite <- Nat.add_assoc; apply Nat.add_le_mono_l; rewrite Nat.add_comm; exact L].
      intros j. rewrite Ud by congruence. intros Y. rewrite upd_ne by congruence. apply I, Y.
Qed.
Theorem input_bound cl d input n tr s : steps (step cl) (init d input) n tr s -> NoDup (accepted tr) /\ n <= 75 + list_sum (map (fun c => 17 + 52 * List.length (input c)) (accepted tr)).
Proof.
  intros H. destruct (reads_bound _ _ _ _ _ (steps_runs _ _ _ _ _ _ H)) as (ND & _ & _ & B). split; [exact ND|]. pose proof (steps_bound _ _ _ _ _ _ H) as L.
  assert (forall cs, list_sum (map (fun c => 17 + 52 * List.length (input c)) cs) = 17 * List.length cs + 52 * sizes input cs) as E.
  { intros cs. unfold sizes. induction cs as [|x cs IH]; [reflexivity|]. cbn [map list_sum fold_right List.length] in *. unfold list_sum in *. lia. }
  rewrite E. lia.
Qed.
