(** C49-C53, C55, C58, C59, C68-C70, C72-C74: the server and its peers.

    [run_of hash id n have l s ev]: a server for a torrent of n pieces, of which those in
    [have] were stored, can go through the actions l (steps of its goroutines in any order,
    connections, messages, failures, stops) to the state s, with the events ev on the way. *)
From Verif Require Import GoBase GoBaseProofs Bitfield BitfieldSpec GoMap PeerWire PeerWireSpec PeerWireProofs NetIP Tracker P2PPeer P2PServer P2PServerSpec P2PServerProofs P2PSortProofs P2PAnnounceProofs P2PRegistryProofs P2PLockProofs P2PUsefulProofs P2POriginProofs P2PSoloProofs P2PServerThms.

(** ** Examples: a torrent of two pieces, none stored; peers at 1.2.3.4 *)
Definition ex_hash : bytes := repeat "h"%byte 20.
Definition ex_self : bytes := repeat "s"%byte 20.
Definition ex_a : bytes := repeat "a"%byte 20.
Definition ex_b : bytes := repeat "b"%byte 20.
Definition ex_ip : bytes := match parse_ip (bs "1.2.3.4") with Some x => x | None => [] end.
Definition ex_at (port : Z) : Tracker.peer := {| p_id := []; p_ip := bs "1.2.3.4"; p_port := port |}.
Definition ex_addr (port : Z) : bytes := addr_of ex_ip port.
Definition ex_none : bytes := [x00].
Definition ex_run (l : list action) : option (sys * list event) := runs ex_hash ex_self ex_none (started ex_none) l.
Notation ex_run_of := (run_of ex_hash ex_self 2 ex_none).
Lemma ex_runs l s ev : ex_run l = Some (s, ev) -> ex_run_of l s ev.
Proof. intros H. exists ex_none. split; [reflexivity|]. split; [reflexivity|exact H]. Qed.
(** Goroutine t takes k steps; shakes hands with the peer x and registers it; hears a
    message. *)
Definition go (t k : nat) : list action := repeat (AGo t COk) k.
Definition ex_shake (x : bytes) : conn := [hs_encode {| hs_info := ex_hash; hs_peer := x |}].
Definition ex_connect (t : nat) (x : bytes) : list action := [AGo t COk; AGo t (CHand true (ex_shake x)); AGo t COk; AGo t COk].
Definition ex_hear (t : nat) (m : message) : list action := [AGo t COk; AGo t (CMsg m)].
(** A peer connects, announces piece 0 and unchokes; the server looks what to request. *)
Definition ex_look : list action :=
  AAccept ex_ip 1000 :: ex_connect 0 ex_a ++ ex_hear 0 (mk_have 0) ++ go 0 6 ++ ex_hear 0 (mk_plain UNCHOKE) ++ go 0 2 ++ [AGo 1 COk; AGo 1 (CSort [] [])].
(** ... and requests piece 0: goroutine 2 waits for it. *)
Definition ex_request : list action := ex_look ++ [AGo 1 COk].
Ltac run l := exists l; eexists; eexists; split; [apply ex_runs; vm_compute; reflexivity|].
Ltac among := vm_compute; repeat (try (left; reflexivity); right).
Ltac absent := vm_compute; let X := fresh in intros X; repeat (destruct X as [X|X]; [discriminate X|]); exact X.

(** ** C49 *)
Theorem C49_one_download_loop :
  forall hash id n have l s ev p, run_of hash id n have l s ev ->
  0 <= peer_outstanding p ev <= 1 /\ 0 <= loops p s <= 1 /\ (loops p s = 1 -> In p (g_queued (s_reg s))) /\
  (s_cancelled s = false -> In p (g_queued (s_reg s)) -> loops p s = 1).
Proof. exact download_loops. Qed.
Print Assumptions C49_one_download_loop.
Example C49_case : exists l s ev, ex_run_of l s ev /\ s_cancelled s = false /\ peer_outstanding 0 ev = 1 /\ loops 0 s = 1.
Proof. run ex_request. repeat split; vm_compute; reflexivity. Qed.

(** ** C50 *)
(** Never from two peers at once. *)
Theorem C50_one_requester_per_piece :
  forall hash id n have l s ev i, run_of hash id n have l s ev -> 0 <= piece_outstanding i ev <= 1.
Proof. exact piece_requesters. Qed.
Print Assumptions C50_one_requester_per_piece.
(** Only from a peer that announced it, and that was missing when the server looked for a
    piece to request from this peer; between the look and the request nothing happens that
    needs the server's lock. *)
Theorem C50_requests_announced_missing_partial :
  forall hash id n have l s ev e1 p i e2, run_of hash id n have l s ev -> ev = e1 ++ EvRequest p i :: e2 ->
  exists f1 f2, e1 = f1 ++ EvLooked p :: f2 /\ (forall x, In x f2 -> needs_lock x = false) /\ announced f1 p i /\ ~ stored_in have f1 i.
Proof. exact requests_chosen. Qed.
Print Assumptions C50_requests_announced_missing_partial.
Example C50_case : exists l s ev, ex_run_of l s ev /\ In (EvRequest 0 0) ev /\ piece_outstanding 0 ev = 1.
Proof. run ex_request. split; [among|vm_compute; reflexivity]. Qed.
(** What is missing: the piece may be stored in between, so a piece that is there can be
    requested (here the peer sends it unasked). *)
Theorem C50_never_when_stored_refuted :
  exists l s ev, ex_run_of l s ev /\ exists e1 e2, ev = e1 ++ EvRequest 0 0 :: e2 /\ stored_in ex_none e1 0.
Proof.
  run (ex_look ++ ex_hear 0 (mk_piece 0 0 (bs "x")) ++ [AGo 0 (CStored true); AGo 1 COk]).
  match goal with |- exists e1 e2, ?ev = _ /\ _ => exists (removelast ev), [] end. split; [vm_compute; reflexivity|]. right. among.
Qed.
Print Assumptions C50_never_when_stored_refuted.

(** ** C51 *)
Theorem C51_limits :
  forall hash id n have l s ev, run_of hash id n have l s ev ->
  0 <= handlers_running ev <= 50 /\ zlen (g_active (s_reg s)) <= 50 /\ NoDup (map fst (g_active (s_reg s))) /\
  forall x p, registered s x p -> exists q, nth_error (s_peers s) p = Some q /\ name_of q = x.
Proof. exact limits. Qed.
Print Assumptions C51_limits.
(** One connection per id and IP, if no peer was blocked and the server was not stopped. *)
Theorem C51_one_per_identity_partial :
  forall hash id n have l s ev p p' x ip, run_of hash id n have l s ev -> not_stopped l -> (forall b, ~ In (EvBlocked b) ev) ->
  In (EvConnected p x ip) ev -> In (EvConnected p' x ip) ev -> ~ In (EvDisconnected p) ev -> ~ In (EvDisconnected p') ev -> p = p'.
Proof. exact one_per_name. Qed.
Print Assumptions C51_one_per_identity_partial.
(** Two connections with different ids, and one with the id of the first that is
    refused. *)
Definition ex_three : list action :=
  AAccept ex_ip 1000 :: ex_connect 0 ex_a ++ AAccept ex_ip 2000 :: ex_connect 1 ex_b ++ AAccept ex_ip 3000 :: [AGo 2 COk; AGo 2 (CHand true (ex_shake ex_a)); AGo 2 COk].
Example C51_case : exists l s ev, ex_run_of l s ev /\ not_stopped l /\ (forall b, ~ In (EvBlocked b) ev) /\ handlers_running ev = 3 /\
  In (EvConnected 0 ex_a ex_ip) ev /\ In (EvConnected 1 ex_b ex_ip) ev /\ In (EvRefused 2) ev /\ zlen (g_active (s_reg s)) = 2.
Proof.
  run ex_three. split; [repeat split; absent|]. split; [intros b; absent|]. split; [vm_compute; reflexivity|]. repeat (split; [among|]). vm_compute. reflexivity.
Qed.
(** Otherwise not: peer 0 is blocked (a piece of it was corrupt); before its handler sees
    that, the same peer connects again as 1; then the handler of 0 unregisters 1; so the
    same peer can connect as 2. *)
Definition ex_blocked : list action := ex_request ++ [AGo 2 CBad; AGo 2 COk].
Definition ex_again : list action := ex_blocked ++ AAccept ex_ip 2000 :: ex_connect 3 ex_a.
Theorem C51_one_per_identity_refuted :
  exists l s ev, ex_run_of l s ev /\ not_stopped l /\ In (EvConnected 1 ex_a ex_ip) ev /\ In (EvConnected 2 ex_a ex_ip) ev /\
  ~ In (EvDisconnected 1) ev /\ ~ In (EvDisconnected 2) ev /\ ~ In (EvBlocked 1) ev /\ ~ In (EvBlocked 2) ev /\
  exists q q', nth_error (s_peers s) 1 = Some q /\ nth_error (s_peers s) 2 = Some q' /\ q_closed q = false /\ q_closed q' = false.
Proof.
  run (ex_again ++ go 0 2 ++ AAccept ex_ip 3000 :: ex_connect 4 ex_a). split; [repeat split; absent|].
  do 2 (split; [among|]). do 4 (split; [absent|]). do 2 eexists. repeat split; vm_compute; reflexivity.
Qed.
Print Assumptions C51_one_per_identity_refuted.

(** ** C52 *)
(** Connect fails in three ways.  In the first it keeps the server's lock; in the last
    (the bitfield could not be sent) the peer stays registered.  In the other, all is as
    it should be. *)
Theorem C52_refused_partial :
  forall hash id n have l s ev a s' e p, run_of hash id n have l s ev -> goes_on hash id n s [a] s' e -> In (EvRefused p) e ->
  exists t c q, a = AGo t c /\ nth_error (s_peers s') p = Some q /\
    ((s_mu s' = Some t /\ (forall x, ~ registered s' x p) /\
        (50 <= zlen (g_active (s_reg s)) \/ exists x p', In (place_of q, x) (g_idips (s_reg s)) /\ registered s x p')) \/
     (s_mu s' = s_mu s /\ s_mu s' <> Some t /\ (forall x, ~ registered s' x p)) \/
     (c = CErr /\ s_mu s' = None /\ registered s' (name_of q) p)).
Proof. exact refusals. Qed.
Print Assumptions C52_refused_partial.
(** Whoever holds the lock can release it by its own steps, unless a connection was
    refused or the server is stopping. *)
Theorem C52_lock_released_partial :
  forall hash id n have l s ev t, run_of hash id n have l s ev -> s_crashed s = false -> s_mu s = Some t ->
  (exists l' s' ev', (forall a, In a l' -> turn_of t a) /\ goes_on hash id n s l' s' ev' /\ s_mu s' = None) \/ (exists p, In (EvRefused p) ev) \/ s_cancelled s = true.
Proof. exact lock_released. Qed.
Print Assumptions C52_lock_released_partial.
Example C52_case :
  (exists l s ev, ex_run_of l s ev /\ exists a s' e, goes_on ex_hash ex_self 2 s [a] s' e /\ In (EvRefused 2) e) /\
  (exists l s ev, ex_run_of l s ev /\ s_crashed s = false /\ s_mu s = Some 1%nat /\ ~ In (EvRefused 0) ev /\ s_cancelled s = false).
Proof.
  split.
  - run (removelast ex_three). exists (AGo 2 COk). do 2 eexists. split; [exists ex_none; split; vm_compute; reflexivity|]. among.
  - run ex_look. repeat (split; [vm_compute; reflexivity|]). split; [absent|vm_compute; reflexivity].
Qed.
(** A remote that connects from an address that is connected stops the server for good:
    from then on no address is queued, no peer connected, disconnected or blocked, no piece
    looked for or requested. *)
Definition ex_twice : list action := AAccept ex_ip 1000 :: ex_connect 0 ex_a ++ [AAccept ex_ip 1000; AGo 1 COk].
Theorem C52_refused_lock_refuted :
  exists l s ev, ex_run_of l s ev /\ not_stopped l /\ s_crashed s = false /\ In (EvRefused 1) ev /\
  forall l' s' ev', goes_on ex_hash ex_self 2 s l' s' ev' -> forall x, In x ev' -> needs_lock x = false.
Proof.
  run ex_twice.
  split; [repeat split; absent|]. split; [vm_compute; reflexivity|]. split; [among|].
  intros l' s' ev' G. eapply (dead_lock ex_hash ex_self 2 ex_none ex_twice _ _ 1 1); [apply ex_runs; vm_compute; reflexivity|vm_compute; reflexivity| |exact G].
  right. left. vm_compute. reflexivity.
Qed.
Print Assumptions C52_refused_lock_refuted.
(** A refused peer that stays registered. *)
Theorem C52_refused_registered_refuted :
  exists l s ev, ex_run_of l s ev /\ In (EvRefused 0) ev /\ s_threads s = [TDone] /\ registered s (idip_of ex_a ex_ip) 0.
Proof. run (AAccept ex_ip 1000 :: removelast (ex_connect 0 ex_a) ++ [AGo 0 CErr; AGo 0 COk]). split; [among|]. split; [vm_compute; reflexivity|]. among. Qed.
Print Assumptions C52_refused_registered_refuted.

(** ** C53 *)
(** Every address is queued and dialled at most once in the life of a server, and dialled
    only if queued. *)
Theorem C53_once :
  forall hash id n have l s ev a, run_of hash id n have l s ev -> count (queues a) ev <= 1 /\ count (dials a) ev <= count (queues a) ev.
Proof. exact addresses_once. Qed.
Print Assumptions C53_once.
Definition ex_dialled : list action := [AAdd (ex_at 1000); AAdd (ex_at 1000); ADialTake; ADialSpawn; AGo 0 COk; AGo 0 COk; AAdd (ex_at 1000)].
Example C53_once_case : exists l s ev, ex_run_of l s ev /\ count (queues (ex_addr 1000)) ev = 1 /\ count (dials (ex_addr 1000)) ev = 1.
Proof. run ex_dialled. split; vm_compute; reflexivity. Qed.
(** After Block(p) no address that is known for p, in particular that of the connection if
    it is still registered, is queued; nor dialled, except by a dial that has begun. *)
Theorem C53_blocked_partial :
  forall hash id n have l s ev a s1 e p q x l' s2 ev', run_of hash id n have l s ev -> goes_on hash id n s [a] s1 e -> In (EvBlocked p) e ->
  nth_error (s_peers s) p = Some q -> (In x (known_for s (name_of q)) \/ (registered s (name_of q) p /\ x = place_of q)) -> goes_on hash id n s1 l' s2 ev' ->
  ~ In (EvQueued x) ev' /\ ((forall th, In th (s_threads s1) -> ~ dials_now x th) -> ~ In (EvDial x) ev').
Proof. exact blocked_addresses. Qed.
Print Assumptions C53_blocked_partial.
Example C53_blocked_case : exists l s ev, ex_run_of l s ev /\ exists a s1 e q, goes_on ex_hash ex_self 2 s [a] s1 e /\ In (EvBlocked 0) e /\
  nth_error (s_peers s) 0 = Some q /\ registered s (name_of q) 0 /\ place_of q = ex_addr 1000.
Proof.
  run (removelast ex_blocked). exists (AGo 2 COk). do 3 eexists. split; [exists ex_none; split; vm_compute; reflexivity|]. split; [among|]. split; [vm_compute; reflexivity|]. split; [among|vm_compute; reflexivity].
Qed.
(** A dial that has begun does go on, and the address of a peer that has already
    disconnected when it is blocked is not blocked at all. *)
Definition ex_dial_late : list action :=
  [AAdd (ex_at 1000); ADialTake; AAccept ex_ip 1000] ++ ex_connect 0 ex_a ++ ex_hear 0 (mk_have 0) ++ go 0 6 ++ ex_hear 0 (mk_plain UNCHOKE) ++ go 0 2 ++
  [AGo 1 COk; AGo 1 (CSort [] []); AGo 1 COk; ADialSpawn; AGo 3 COk; AGo 2 CBad; AGo 2 COk; AGo 3 CErr].
Definition ex_block_late : list action := ex_request ++ [AGo 0 COk; AGo 0 CErr; AGo 0 COk; AGo 2 CBad; AGo 2 COk; AAdd (ex_at 1000)].
Theorem C53_never_again_refuted :
  (exists l s ev, ex_run_of l s ev /\ exists q e1 e2, nth_error (s_peers s) 0 = Some q /\ place_of q = ex_addr 1000 /\
     ev = e1 ++ EvBlocked 0 :: e2 /\ In (EvDial (ex_addr 1000)) e2) /\
  (exists l s ev, ex_run_of l s ev /\ exists q e1 e2, nth_error (s_peers s) 0 = Some q /\ place_of q = ex_addr 1000 /\
     ev = e1 ++ EvBlocked 0 :: e2 /\ In (EvQueued (ex_addr 1000)) e2).
Proof.
  split.
  - run ex_dial_late. eexists. match goal with |- exists e1 e2, _ /\ _ /\ ?ev = _ /\ _ => exists (removelast (removelast ev)), [EvDial (ex_addr 1000)] end.
    repeat (split; [vm_compute; reflexivity|]). now left.
  - run ex_block_late. eexists. match goal with |- exists e1 e2, _ /\ _ /\ ?ev = _ /\ _ => exists (removelast (removelast ev)), [EvQueued (ex_addr 1000)] end.
    repeat (split; [vm_compute; reflexivity|]). now left.
Qed.
Print Assumptions C53_never_again_refuted.

(** ** C55 *)
(** The handshake succeeds exactly if the remote sent a well-formed handshake with our info
    hash and a peer id that is not ours and is the expected one, if one is expected. *)
Theorem C55_handshake_iff :
  forall own_hash own_id expected r id', proper r -> zlen own_hash = 20 ->
  (exists r', peer_handshake own_hash own_id expected true r = (id', Ok r')) <->
  (exists reserved rest, zlen reserved = 8 /\ zlen id' = 20 /\ concat r = "019"%byte :: bs "BitTorrent protocol" ++ reserved ++ own_hash ++ id' ++ rest) /\
  id' <> own_id /\ (expected = no_id \/ expected = id').
Proof. exact handshake_iff. Qed.
Print Assumptions C55_handshake_iff.
Example C55_handshake_case : exists r', peer_handshake ex_hash ex_self zero_id true (ex_shake ex_a) = (ex_a, Ok r').
Proof. eexists. vm_compute. reflexivity. Qed.
(** Only after such a handshake a peer is connected.  If we dialled it, the expected id
    is the one announced with the address, if any. *)
Theorem C55_connected_after_handshake :
  forall hash id n have l s ev p x ip, run_of hash id n have l s ev -> In (EvConnected p x ip) ev ->
  exists t r h r' expected port, In (AGo t (CHand true r)) l /\ hs_decode r = Ok (h, r') /\ hs_info h = hash /\ hs_peer h = x /\ x <> id /\
    came l expected ip port /\ (expected = no_id \/ expected = x).
Proof. exact connected_peers. Qed.
Print Assumptions C55_connected_after_handshake.
Example C55_connected_case : exists l s ev, ex_run_of l s ev /\ In (EvConnected 0 ex_a ex_ip) ev.
Proof. run ex_look. among. Qed.

(** ** C58 *)
(** False: the comparison looks up how many peers hold the pieces whose numbers are the
    positions compared.  Ten pieces; peer 0 has 5 and 9, peer 1 has 1 and 5; so 9 is the
    rarer of the two that peer 0 has, but 5 is requested, whatever the random choices. *)
Definition ex_ten : bytes := [x00; x00].
Definition ex_say (t : nat) (i : Z) (k : nat) : list action := ex_hear t (mk_have i) ++ go t k.
Definition ex_rare (rnd : list bool) : list action :=
  AAccept ex_ip 1000 :: ex_connect 0 ex_a ++ AAccept ex_ip 2000 :: ex_connect 1 ex_b ++ ex_say 0 5 6 ++ ex_say 0 9 5 ++ ex_say 1 1 6 ++ ex_say 1 5 5 ++
  ex_hear 0 (mk_plain UNCHOKE) ++ go 0 2 ++ [AGo 2 COk; AGo 2 (CSort rnd []); AGo 2 COk].
Theorem C58_rarest_first_refuted :
  forall rnd, exists s ev, run_of ex_hash ex_self 10 ex_ten (ex_rare rnd) s ev /\ In (EvRequest 0 5) ev /\ count (requests_piece 9) ev = 0 /\
  announced ev 0 9 /\ ~ stored_in ex_ten ev 9 /\ holders_of (s_reg s) 9 = [0%nat] /\ holders_of (s_reg s) 5 = [1%nat; 0%nat].
Proof.
  intros rnd. do 2 eexists. split; [exists ex_ten; split; [reflexivity|]; split; [reflexivity|]; vm_compute; reflexivity|].
  split; [among|]. split; [vm_compute; reflexivity|]. split; [exists (mk_have 9); split; [among|left; split; reflexivity]|].
  split; [|split; vm_compute; reflexivity]. intros [[_ [x [X Y]]]|X]; [vm_compute in X; injection X as <-; vm_compute in Y; discriminate Y|revert X; absent].
Qed.
Print Assumptions C58_rarest_first_refuted.
(** What holds: the choice is among what is available (see C50). *)

(** ** C59 *)
(** Disconnect(p) closes p and removes every trace of it, and of its name, from the
    indices, and changes nothing for other names. *)
Theorem C59_disconnect_partial :
  forall hash id n have l s ev a s' e p q, run_of hash id n have l s ev -> goes_on hash id n s [a] s' e -> In (EvDisconnected p) e -> nth_error (s_peers s) p = Some q ->
  (exists q', nth_error (s_peers s') p = Some q' /\ q_closed q' = true) /\
  (forall x, ~ registered s' x p) /\ (forall i, ~ In p (holders_of (s_reg s') i)) /\ known_for s' (name_of q) = [] /\ (forall b, ~ In (b, name_of q) (g_idips (s_reg s'))) /\
  (forall i p', p' <> p -> In p' (holders_of (s_reg s') i) <-> In p' (holders_of (s_reg s) i)) /\
  (forall x, x <> name_of q -> known_for s' x = known_for s x /\ (forall p', registered s' x p' <-> registered s x p') /\ forall b, In (b, x) (g_idips (s_reg s')) <-> In (b, x) (g_idips (s_reg s))).
Proof. exact disconnecting. Qed.
Print Assumptions C59_disconnect_partial.
(** It never comes back. *)
Theorem C59_stays_out :
  forall hash id n have l s ev p, run_of hash id n have l s ev -> In (EvDisconnected p) ev ->
  (forall x, ~ registered s x p) /\ (forall i, ~ In p (holders_of (s_reg s) i)).
Proof. exact stays_disconnected. Qed.
Print Assumptions C59_stays_out.
(** The holders of a piece are peers that announced it and have not been disconnected; the
    address indices agree. *)
Theorem C59_indices :
  forall hash id n have l s ev, run_of hash id n have l s ev ->
  (forall i p, In p (holders_of (s_reg s) i) -> announced ev p i /\ ~ In (EvDisconnected p) ev) /\
  (forall b x, In (b, x) (g_idips (s_reg s)) -> In b (known_for s x)) /\
  (forall x p q, registered s x p -> nth_error (s_peers s) p = Some q -> In (place_of q) (known_for s x)).
Proof. exact indices. Qed.
Print Assumptions C59_indices.
Example C59_case : exists l s ev, ex_run_of l s ev /\ holders_of (s_reg s) 0 = [0%nat] /\ known_for s (idip_of ex_a ex_ip) = [ex_addr 1000] /\
  exists a s' e, goes_on ex_hash ex_self 2 s [a] s' e /\ In (EvDisconnected 0) e.
Proof.
  run (ex_request ++ [AGo 0 COk; AGo 0 CErr]). do 2 (split; [vm_compute; reflexivity|]). exists (AGo 0 COk). do 2 eexists. split; [exists ex_none; split; vm_compute; reflexivity|]. among.
Qed.
(** What is missing: another connection with the same name.  After a Block the handler's
    own Disconnect unregisters the peer's new connection, which goes on. *)
Theorem C59_other_connection_refuted :
  exists l s ev, ex_run_of l s ev /\ registered s (idip_of ex_a ex_ip) 1 /\ exists a s' e q, goes_on ex_hash ex_self 2 s [a] s' e /\ e = [EvDisconnected 0] /\
  g_active (s_reg s') = [] /\ nth_error (s_peers s') 1 = Some q /\ q_closed q = false.
Proof.
  run (ex_again ++ [AGo 0 COk]). split; [among|]. exists (AGo 0 COk). do 3 eexists. split; [exists ex_none; split; vm_compute; reflexivity|]. repeat split; vm_compute; reflexivity.
Qed.
Print Assumptions C59_other_connection_refuted.

(** ** C68 *)
(** A peer that is connected, does not choke us and has a piece we miss is being worked
    on, or its handler is about to see to that: it is not forgotten. *)
Theorem C68_useful_peers_not_forgotten :
  forall hash id n have l s ev p q i, run_of hash id n have l s ev -> not_stopped l -> nth_error (s_peers s) p = Some q -> q_closed q = false -> q_rchoked q = false ->
  member (q_bits q) i -> ~ stored_in have ev i -> loops p s = 1 \/ exists h, In (THandler p h) (s_threads s) /\ busy_with i h.
Proof. exact useful_peers. Qed.
Print Assumptions C68_useful_peers_not_forgotten.
Example C68_case : exists l s ev, ex_run_of l s ev /\ not_stopped l /\ exists q, nth_error (s_peers s) 0 = Some q /\ q_closed q = false /\ q_rchoked q = false /\
  member (q_bits q) 0 /\ ~ stored_in ex_none ev 0 /\ loops 0 s = 1.
Proof.
  run ex_look. split; [repeat split; absent|]. eexists. do 3 (split; [vm_compute; reflexivity|]). split; [split; [lia|]; eexists; split; vm_compute; reflexivity|].
  split; [|vm_compute; reflexivity]. intros [[_ [x [X Y]]]|X]; [vm_compute in X; injection X as <-; vm_compute in Y; discriminate Y|revert X; absent].
Qed.

(** ** C69 *)
(** The server's lock is held while messages are sent: as long as such a send takes, the
    server does nothing that needs the lock, for any peer. *)
Definition ex_sending : list action := AAccept ex_ip 1000 :: removelast (ex_connect 0 ex_a).
Theorem C69_send_stalls_server_refuted :
  exists l s ev t, ex_run_of l s ev /\ not_stopped l /\ s_crashed s = false /\ nth_error (s_threads s) t = Some (THandler 0 HBitfield) /\
  forall l' s' ev', goes_on ex_hash ex_self 2 s l' s' ev' -> (forall a, In a l' -> ~ turn_of t a) -> forall x, In x ev' -> needs_lock x = false.
Proof.
  exists ex_sending. do 2 eexists. exists O. split; [apply ex_runs; vm_compute; reflexivity|]. split; [repeat split; absent|]. do 2 (split; [vm_compute; reflexivity|]).
  apply (lock_held ex_hash ex_self 2 ex_none ex_sending) with (ev := [EvHandler]); [apply ex_runs; vm_compute; reflexivity|vm_compute; reflexivity].
Qed.
Print Assumptions C69_send_stalls_server_refuted.

(** ** C70 *)
(** Once Stop has the lock, it unregisters and closes every registered peer and releases
    the lock. *)
Theorem C70_stop_closes_peers :
  forall hash id n have l s ev t s' e, run_of hash id n have l s ev -> nth_error (s_threads s) t = Some (TStop true) -> goes_on hash id n s [AGo t COk] s' e ->
  s_mu s' = None /\ s_cancelled s' = true /\ (forall x p, ~ registered s' x p) /\
  forall x p, registered s x p -> exists q, nth_error (s_peers s') p = Some q /\ q_closed q = true.
Proof. exact stopping. Qed.
Print Assumptions C70_stop_closes_peers.
Example C70_case : exists l s ev, ex_run_of l s ev /\ nth_error (s_threads s) 1 = Some (TStop true) /\ registered s (idip_of ex_a ex_ip) 0 /\ exists s' e, goes_on ex_hash ex_self 2 s [AGo 1 COk] s' e.
Proof.
  run (AAccept ex_ip 1000 :: ex_connect 0 ex_a ++ [AStop; AGo 1 COk]). split; [vm_compute; reflexivity|]. split; [among|]. do 2 eexists. exists ex_none. split; vm_compute; reflexivity.
Qed.
(** But it may never get it, without any connection having been refused: a handler that
    queues its peer when RequestPieces has ended keeps the lock for ever, so that the call
    of Stop never returns. *)
Definition ex_hang : list action :=
  AAccept ex_ip 1000 :: ex_connect 0 ex_a ++ [AGo 0 COk; AFail; ARequestsEnd; AGo 0 (CMsg (mk_plain UNCHOKE)); AGo 0 COk].
Theorem C70_stop_hangs_refuted :
  exists l s ev, ex_run_of l s ev /\ s_crashed s = false /\ (forall p, ~ In (EvRefused p) ev) /\ nth_error (s_threads s) 1 = Some (TStop false) /\
  forall l' s' ev', goes_on ex_hash ex_self 2 s l' s' ev' -> nth_error (s_threads s') 1 = Some (TStop false).
Proof.
  run ex_hang. split; [vm_compute; reflexivity|]. split; [intros p; absent|]. split; [vm_compute; reflexivity|].
  eapply (stop_waits ex_hash ex_self 2 ex_none ex_hang _ _ 0 0 1); [apply ex_runs; vm_compute; reflexivity|vm_compute; reflexivity| |vm_compute; reflexivity].
  right. right. split; [vm_compute; reflexivity|]. exists None. vm_compute. reflexivity.
Qed.
Print Assumptions C70_stop_hangs_refuted.

(** ** C72 *)
(** A piece we announce, in a bitfield or a have message, is stored; and a bitfield leaves
    out none that is. *)
Theorem C72_announced_pieces_stored :
  forall hash id n have l s ev e1 p m e2, run_of hash id n have l s ev -> ev = e1 ++ EvSent p m :: e2 ->
  (forall i, announces_piece m i -> stored_in have e1 i) /\ (m_type m = BITFIELD -> forall i, 0 <= i -> stored_in have e1 i -> member (m_bitfield m) i).
Proof. exact announcements. Qed.
Print Assumptions C72_announced_pieces_stored.
(** A piece arrives and is announced to the peer. *)
Example C72_case : exists l s ev, ex_run_of l s ev /\ exists e1 e2, ev = e1 ++ EvSent 0 (mk_have 0) :: e2 /\ stored_in ex_none e1 0.
Proof.
  run (ex_request ++ ex_hear 0 (mk_piece 0 0 (bs "x")) ++ [AGo 0 (CStored true); AGo 2 COk; AGo 2 (COrder [0%nat]); AGo 2 COk; AGo 2 COk]).
  match goal with |- exists e1 e2, ?ev = _ /\ _ => exists (removelast ev), [] end. split; [vm_compute; reflexivity|]. right. among.
Qed.

(** ** C73 *)
(** The bitfield is sent at most once, and before anything else, on a connection that is
    not refused. *)
Theorem C73_bitfield_first :
  forall hash id n have l s ev p, run_of hash id n have l s ev -> count (sends_bitfield p) ev <= 1 /\
  forall e1 m e2, ev = e1 ++ EvSent p m :: e2 -> m_type m = BITFIELD \/ (exists b, In (EvSent p (mk_bitfield b)) e1) \/ In (EvRefused p) e1.
Proof. exact greetings. Qed.
Print Assumptions C73_bitfield_first.
Example C73_case : exists l s ev, ex_run_of l s ev /\ count (sends_bitfield 0) ev = 1 /\ In (EvSent 0 (mk_plain INTERESTED)) ev.
Proof. run ex_look. split; [vm_compute; reflexivity|among]. Qed.

(** ** C74 *)
(** A connection that is refused is not closed: its handler ends and nobody reads what the
    remote sends. *)
Theorem C74_refused_closed_refuted :
  exists l s ev, ex_run_of l s ev /\ In (EvRefused 0) ev /\ s_threads s = [TDone] /\ g_active (s_reg s) = [] /\ exists q, s_peers s = [q] /\ q_closed q = false.
Proof.
  run [AAccept ex_ip 1000; AGo 0 COk; AGo 0 (CHand true (ex_shake ex_self)); AGo 0 COk]. split; [among|]. do 2 (split; [vm_compute; reflexivity|]). eexists. split; vm_compute; reflexivity.
Qed.
Print Assumptions C74_refused_closed_refuted.
