(** C113, C114: the addresses of peers; [run_of] and [goes_on] are as in PropServer.v. *)
From Verif Require Import GoBase Bitfield BitfieldSpec GoMap PeerWire PeerWireSpec Strconv NetIP Tracker TrackerSpec TrackerProofs P2PPeer P2PServer P2PServerSpec P2PServerProofs P2PAddrSpec P2PAddrProofs.
From Verif Require PropServer.
Import PropServer.

(** ** C113 *)
(** A dial of an IPv4 peer with a port can succeed: the server then has a connection to
    just this IP and port, which goes on to the handshake. *)
Theorem C113_ipv4_peers_are_dialled_partial :
  forall hash id n have l s ev t tp w x y z, run_of hash id n have l s ev -> s_crashed s = false -> nth_error (s_threads s) t = Some (TDial tp true) -> dotted w x y z (p_ip tp) -> 0 <= p_port tp <= 65535 ->
  exists s' q, goes_on hash id n s [AGo t COk] s' [EvDial (p_ip tp ++ bs ":" ++ format_Z (p_port tp))] /\ s_peers s' = s_peers s ++ [q] /\ q_ip q = ipv4 [w; x; y; z] /\ q_port q = p_port tp /\
    place_of q = p_ip tp ++ bs ":" ++ format_Z (p_port tp) /\ nth_error (s_threads s') t = Some (THandler (List.length (s_peers s)) HConnect).
Proof. exact v4_reachable. Qed.
Print Assumptions C113_ipv4_peers_are_dialled_partial.
Example C113_ipv4_case : exists l s ev, ex_run_of l s ev /\ s_crashed s = false /\ nth_error (s_threads s) 0 = Some (TDial (ex_at 1000) true) /\ exists w x y z, dotted w x y z (p_ip (ex_at 1000)).
Proof.
  run [AAdd (ex_at 1000); ADialTake; ADialSpawn; AGo 0 COk]. split; [reflexivity|]. split; [vm_compute; reflexivity|]. exists x01, x02, x03, x04. apply dotted_show. reflexivity.
Qed.
(** A peer whose IP is written with colons is taken from the queue, dialled and never
    reached: whatever the network does, the dial ends with an error and no connection. *)
Theorem C113_ipv6_peers_are_never_reached_refuted :
  (forall hash id n have l s ev t tp c s' e, run_of hash id n have l s ev -> nth_error (s_threads s) t = Some (TDial tp true) -> In ":"%byte (p_ip tp) -> goes_on hash id n s [AGo t c] s' e ->
   c = CErr /\ s_peers s' = s_peers s /\ nth_error (s_threads s') t = Some TDialEnd) /\
  exists l s ev tp, ex_run_of l s ev /\ v6_peer tp /\ p_port tp = 6881 /\ nth_error (s_threads s) 0 = Some (TDial tp true).
Proof.
  split; [exact v6_unreachable|]. set (tp := {| p_id := []; p_ip := bs "2001:db8::1"; p_port := 6881 |}).
  exists [AAdd tp; ADialTake; ADialSpawn; AGo 0 COk]. do 2 eexists. exists tp. split; [apply ex_runs; vm_compute; reflexivity|]. split; [|split; vm_compute; reflexivity].
  eexists. split; vm_compute; reflexivity.
Qed.
Print Assumptions C113_ipv6_peers_are_never_reached_refuted.

(** ** C114 *)
(** After Block of a registered peer at an IPv4 address, AddPeer with this IP and port is
    without effect in every later history. *)
Theorem C114_blocked_ipv4_is_not_added_partial :
  forall hash id n have l s ev a s1 e p q l' s2 ev' w x y z tp, run_of hash id n have l s ev -> goes_on hash id n s [a] s1 e -> In (EvBlocked p) e ->
  nth_error (s_peers s) p = Some q -> registered s (name_of q) p -> dotted w x y z (p_ip tp) -> q_ip q = ipv4 [w; x; y; z] -> q_port q = p_port tp -> goes_on hash id n s1 l' s2 ev' ->
  forall t, named tp t -> ~ In (EvQueued t) ev'.
Proof. exact v4_stays_blocked. Qed.
Print Assumptions C114_blocked_ipv4_is_not_added_partial.
Example C114_ipv4_case : exists l s ev, ex_run_of l s ev /\ exists a s1 e q w x y z, goes_on ex_hash ex_self 2 s [a] s1 e /\ In (EvBlocked 0) e /\
  nth_error (s_peers s) 0 = Some q /\ registered s (name_of q) 0 /\ dotted w x y z (p_ip (ex_at 1000)) /\ q_ip q = ipv4 [w; x; y; z] /\ q_port q = p_port (ex_at 1000) /\ named (ex_at 1000) (bs "1.2.3.4:1000").
Proof.
  run (removelast ex_blocked). exists (AGo 2 COk). do 3 eexists. exists x01, x02, x03, x04. split; [exists ex_none; split; vm_compute; reflexivity|]. split; [among|]. split; [vm_compute; reflexivity|]. split; [among|].
  split; [apply dotted_show; reflexivity|]. split; [vm_compute; reflexivity|]. split; [reflexivity|]. eexists. split; vm_compute; reflexivity.
Qed.
(** Blocking has no effect for IPv6 peers: whichever peers were blocked, AddPeer puts an
    IPv6 peer into the queue if it was not there before.  In the history below the peer at
    2001:db8::1, port 1000, sends bad data and is blocked, and is then added. *)
Definition ex_ip6 : bytes := match parse_ip (bs "2001:db8::1") with Some x => x | None => [] end.
Definition ex_at6 : Tracker.peer := {| p_id := []; p_ip := bs "2001:db8::1"; p_port := 1000 |}.
Definition ex_blocked6 : list action := match ex_blocked with AAccept _ port :: l => AAccept ex_ip6 port :: l | l => l end.
Theorem C114_blocked_ipv6_is_added_refuted :
  (forall hash id n have l s ev tp a, run_of hash id n have l s ev -> v6_peer tp -> named tp a -> ~ In (EvQueued a) ev -> s_crashed s = false -> s_mu s = None -> zlen (s_queue s) < 50 ->
   exists s', goes_on hash id n s [AAdd tp] s' [EvQueued a]) /\
  exists l s ev q ip, ex_run_of l s ev /\ In (EvBlocked 0) ev /\ nth_error (s_peers s) 0 = Some q /\ v6_peer ex_at6 /\ parse_ip (p_ip ex_at6) = Some ip /\ q_ip q = ip /\ q_port q = p_port ex_at6 /\
    named ex_at6 (bs "2001:db8::1:1000") /\ ~ In (EvQueued (bs "2001:db8::1:1000")) ev /\ s_crashed s = false /\ s_mu s = None /\ zlen (s_queue s) < 50.
Proof.
  split; [exact v6_added_again|]. exists ex_blocked6. do 4 eexists. split; [apply ex_runs; vm_compute; reflexivity|]. split; [among|]. split; [vm_compute; reflexivity|].
  split; [eexists; split; vm_compute; reflexivity|]. split; [vm_compute; reflexivity|]. split; [vm_compute; reflexivity|]. split; [reflexivity|]. split; [eexists; split; vm_compute; reflexivity|].
  split; [absent|]. split; [vm_compute; reflexivity|]. split; vm_compute; reflexivity.
Qed.
Print Assumptions C114_blocked_ipv6_is_added_refuted.
