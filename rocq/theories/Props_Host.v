(* C93: the host and the identifier of a log record. *)
From Verif Require Import Base BaseFacts Resp Command Log Recovery Quote QuoteSpec QuoteProofs Host HostSpec HostProofs Props_Quote.
From Coq Require Import ZArith List Ascii String Bool Lia.
From stdpp Require Import gmap.
Open Scope Z_scope.

(* C93, the host: the first outer address of the first interface in use that has one; interfaces
   before it are down, loopback, or have none. *)
Theorem C93_host : forall l1 i l2 b, Forall has_none l1 -> in_use i -> has i b -> get_ip (Some (l1 ++ i :: l2)) = dotted b.
Proof. exact find_first. Qed.
Print Assumptions C93_host.
Definition lo : iface := mkIface true true (Some [Some [127; 0; 0; 1]]).
Definition tun : iface := mkIface false false None.
Definition six : iface := mkIface true false (Some [Some [254; 128; 0; 0; 0; 0; 0; 0; 0; 0; 0; 0; 0; 0; 0; 1]; None; Some [127; 0; 0; 2]]).
Definition eth : iface := mkIface true false (Some [None; Some [0; 0; 0; 0; 0; 0; 0; 0; 0; 0; 255; 255; 192; 168; 0; 7]; Some [10; 0; 0; 1]]).
Lemma six_none : has_none six.
Proof.
  intros _. eexists. split; [reflexivity|]. intros x b [<-|[<-|[<-|[]]]] (a & E & V & N); [|discriminate|]; injection E as <-; inversion V; subst; cbn in N; congruence.
Qed.
Lemma eth_has : has eth [192; 168; 0; 7].
Proof.
  eexists [None], _, _. split; [reflexivity|]. split; [intros x b [<-|[]] (a & E & _); discriminate|].
  eexists. split; [reflexivity|]. split; [constructor|cbn; lia].
Qed.
Example C93_host_ex : Forall has_none [lo; tun; six] /\ in_use eth /\ has eth [192; 168; 0; 7] /\ get_ip (Some [lo; tun; six; eth]) = bs "192.168.0.7".
Proof.
  split; [|split; [now split|split; [exact eth_has|vm_compute; reflexivity]]].
  constructor; [intros [_ U]; discriminate U|]. constructor; [intros [U _]; discriminate U|]. constructor; [exact six_none|constructor].
Qed.
(* If there is none, the host is "unknown". *)
Theorem C93_unknown : get_ip None = bs "unknown" /\ forall l, Forall has_none l -> get_ip (Some l) = bs "unknown".
Proof. split; [reflexivity|exact find_nothing]. Qed.
Print Assumptions C93_unknown.
(* C93 is false if the addresses of an interface cannot be read: those of the interfaces behind it are
   not looked at. *)
Theorem C93_error : forall l1 i l2, Forall has_none l1 -> in_use i -> if_addrs i = None -> get_ip (Some (l1 ++ i :: l2)) = bs "unknown".
Proof. exact find_error. Qed.
Print Assumptions C93_error.
Theorem C93_reachable_refuted : exists l i b, In i l /\ in_use i /\ has i b /\ get_ip (Some l) = bs "unknown".
Proof. exists [mkIface true false None; eth], eth, [192; 168; 0; 7]. split; [cbn; auto|]. split; [now split|]. split; [exact eth_has|vm_compute; reflexivity]. Qed.
Print Assumptions C93_reachable_refuted.
(* Hosts with different addresses are told apart. *)
Theorem C93_distinct : forall a b a' b', v4 a b -> v4 a' b' -> ip_ok b -> ip_ok b' -> dotted b = dotted b' -> b = b'.
Proof.
  intros a b a' b' V V' O O' E. destruct (v4_shape _ _ V) as (? & ? & ? & ? & ->). destruct (v4_shape _ _ V') as (? & ? & ? & ? & ->). exact (dotted_inj _ _ _ _ _ _ _ _ O O' E).
Qed.
Print Assumptions C93_distinct.
Example C93_distinct_ex : v4 [1; 12; 3; 4] [1; 12; 3; 4] /\ ip_ok [1; 12; 3; 4] /\ dotted [1; 12; 3; 4] <> dotted [11; 2; 3; 4].
Proof. split; [constructor|]. split; [repeat constructor; lia|vm_compute; discriminate]. Qed.

(* C93, the identifier: the first generator that does not panic; 36 characters, different for different
   identifiers. *)
Theorem C93_id : forall u w, List.length u = 16%nat -> List.length w = 16%nat -> ip_ok u -> ip_ok w ->
  (forall v, gen_uuid (Some u) v = gen_uuid None (Some u)) /\ gen_uuid None None = Panic /\
  (forall v s, gen_uuid (Some u) v = Ret s -> List.length s = 36%nat) /\ (forall v v', gen_uuid (Some u) v = gen_uuid (Some w) v' -> u = w).
Proof.
  intros u w L M A B. split; [reflexivity|]. split; [reflexivity|]. split.
  - intros v s E. injection E as <-. now apply uuid_length.
  - intros v v' E. injection E as E. exact (uuid_inj _ _ L M A B E).
Qed.
Print Assumptions C93_id.
Definition id_a : list Z := [18; 52; 86; 120; 154; 188; 77; 239; 128; 1; 2; 3; 4; 5; 6; 255].
Example C93_id_ex : List.length id_a = 16%nat /\ ip_ok id_a /\ gen_uuid (Some id_a) None = Ret (bs "12345678-9abc-4def-8001-0203040506ff").
Proof. split; [reflexivity|]. split; [repeat constructor; lia|vm_compute; reflexivity]. Qed.

(* With these, what is printed of the server's own records tells them apart and is one line (C92),
   whatever the machine and the client. *)
Theorem C93_apart : forall p a b if1 t q v a' b' if2 t' q' v',
  gen_uuid a b = Ret (t_id t) -> t_host t = get_ip if1 -> int64_ok (t_time t) -> log_of t q = Some v ->
  gen_uuid a' b' = Ret (t_id t') -> t_host t' = get_ip if2 -> int64_ok (t_time t') -> log_of t' q' = Some v' ->
  format_log p v = format_log p v' -> v = v'.
Proof. exact server_record_apart. Qed.
Print Assumptions C93_apart.
Theorem C93_line : forall p a b ifs t q v, (forall z, 0 <= z < 32 -> is_print p z = false) ->
  gen_uuid a b = Ret (t_id t) -> t_host t = get_ip ifs -> log_of t q = Some v -> Forall visible (format_log p v).
Proof. exact server_record_line. Qed.
Print Assumptions C93_line.
Example C93_line_ex : exists t v, gen_uuid (Some id_a) None = Ret (t_id t) /\ t_host t = get_ip (Some [lo; eth]) /\ int64_ok (t_time t) /\ log_of t qt_req = Some v /\
  Forall visible (format_log ascii_print v).
Proof.
  exists (mkStamp (bs "12345678-9abc-4def-8001-0203040506ff") 7 (bs "192.168.0.7")). eexists. assert (G : gen_uuid (Some id_a) None = Ret (bs "12345678-9abc-4def-8001-0203040506ff")) by (vm_compute; reflexivity).
  split; [exact G|]. split; [vm_compute; reflexivity|]. split; [vm_compute; split; [discriminate|reflexivity]|]. split; [vm_compute; reflexivity|].
  apply (C93_line ascii_print (Some id_a) None (Some [lo; eth]) (mkStamp (bs "12345678-9abc-4def-8001-0203040506ff") 7 (bs "192.168.0.7")) qt_req _ ascii_print_ok); [exact G|vm_compute; reflexivity|vm_compute; reflexivity].
Qed.
