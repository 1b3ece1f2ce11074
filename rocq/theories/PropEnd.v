(** C85-C87: how connections end and why they are refused. *)
From Verif Require Import GoBase GoMap Bitfield BitfieldSpec PeerWire Metainfo MetainfoSpec NetIP P2PPeer P2PServer P2PServerSpec P2PEndSpec Fs Storage StorageSpec StorageSysSpec Node NodeSpec.
From Verif Require P2PEndProofs P2PNameProofs NodeErrorProofs PropServer PropNode PropStorage.
Import StorageSys.

(** ** C85 *)
(** A REQUEST or PIECE whose call of the storage fails is the last message the program
    takes from that peer, and it uploads nothing more to it: the connection has been
    closed, or closing it is all its handler can do, for which it needs the server's lock
    only. *)
Theorem C85_failed_message_ends :
  forall sha1 cfg env hash id, config_ok cfg -> forall f l n ev ev1 t c r ev2, node_run sha1 cfg env hash id f l n ev ->
  ev = ev1 ++ NRet t c r :: ev2 -> cannot c r ->
  exists p m, received ev1 p m /\ asks_for m c /\ (forall m', ~ received ev2 p m' /\ ~ In (NServed p m') ev2) /\
  (In (NEv (EvDisconnected p)) ev2 \/
   exists u, crashed n = false -> s_mu (n_srv n) = None -> exists n', node_run sha1 cfg env hash id f (l ++ [NServer (AGo u COk)]) n' (ev ++ [NEv (EvDisconnected p)])).
Proof. exact NodeErrorProofs.ends. Qed.
Print Assumptions C85_failed_message_ends.
(** After a PIECE whose block is stored, or was there already, the program takes the next
    message of that peer, whatever it is, unless it is stopping or has blocked the peer. *)
Theorem C85_handled_message_goes_on :
  forall sha1 cfg env hash id, config_ok cfg -> forall f l n ev blank t n' k b d r e, node_run sha1 cfg env hash id f l n ev -> bf_new (num_pieces (c_info cfg)) = Some blank ->
  nexec sha1 cfg env hash id blank n (NStep t) = Some (n', NRet t (CPut k b d) r :: e) -> r = RNil \/ r = RErr EBlockExists ->
  exists p m, received ev p m /\ asks_for m (CPut k b d) /\ takes_next sha1 cfg env hash id blank ev n' t p.
Proof. exact NodeErrorProofs.goes. Qed.
Print Assumptions C85_handled_message_goes_on.
(** ... and so after a block has been read for a REQUEST and sent. *)
Theorem C85_uploaded_block_goes_on :
  forall sha1 cfg env hash id, config_ok cfg -> forall f l n ev blank t n' e, node_run sha1 cfg env hash id f l n ev -> bf_new (num_pieces (c_info cfg)) = Some blank ->
  nexec sha1 cfg env hash id blank n (NWrite t true) = Some (n', e) ->
  exists p m d, received ev p m /\ asks_for m (CGet (m_index m) (m_begin m) (m_length m)) /\ In (NRet t (CGet (m_index m) (m_begin m) (m_length m)) (RBlock d)) ev /\
  e = [NServed p (mk_piece (m_index m) (m_begin m) d)] /\ takes_next sha1 cfg env hash id blank ev n' t p.
Proof. exact NodeErrorProofs.sends. Qed.
Print Assumptions C85_uploaded_block_goes_on.
(** Peer 1 sends a corrupt piece; peer 1 asks for a piece that is not there. *)
Example C85_case :
  (exists l n ev, PropNode.ex_run_of l n ev /\ In (NRet 3 (CPut 0 0 (bs "xy")) (RErr (EChecksum 0 (bs "xy") (bs "ab")))) ev /\ cannot (CPut 0 0 (bs "xy")) (RErr (EChecksum 0 (bs "xy") (bs "ab")))) /\
  (exists l n ev, PropNode.ex_run_of l n ev /\ In (NRet 3 (CGet 1 0 1) (RErr EIncompletePiece)) ev /\ cannot (CGet 1 0 1) (RErr EIncompletePiece) /\ crashed n = false /\ s_mu (n_srv n) = None).
Proof.
  split.
  - PropNode.run PropNode.ex_corrupt. split; [PropNode.among|discriminate].
  - PropNode.run (PropNode.ex_asked ++ PropNode.hear 3 (mk_request 1 0 1) ++ PropNode.call 3 2). split; [PropNode.among|]. repeat split.
Qed.
Definition ex_before : list naction := PropNode.ex_asked ++ PropNode.hear 0 (mk_piece 0 0 (bs "ab")) ++ PropNode.call 0 2.
Notation ex_exec := (nexec PropStorage.ex_id PropNode.ex_cfg PropStorage.ex_env PropServer.ex_hash PropServer.ex_self PropServer.ex_none).
Example C85_handled_case : exists l n ev n' e, PropNode.ex_run_of l n ev /\
  ex_exec n (NStep 0) = Some (n', NRet 0 (CPut 0 0 (bs "ab")) RNil :: e) /\ s_cancelled (n_srv n') = false /\ ~ In (NEv (EvBlocked 0)) ev.
Proof.
  exists ex_before. do 4 eexists. split; [apply PropNode.ex_runs; vm_compute; reflexivity|]. split; [vm_compute; reflexivity|]. split; [reflexivity|]. PropNode.absent.
Qed.
Example C85_uploaded_case : exists l n ev n' e, PropNode.ex_run_of l n ev /\
  ex_exec n (NWrite 3 true) = Some (n', e) /\ e = [NServed 1 (mk_piece 0 1 (bs "b"))] /\ s_cancelled (n_srv n') = false /\ ~ In (NEv (EvBlocked 1)) ev.
Proof.
  exists (ex_before ++ [NStep 0] ++ PropNode.call 2 2 ++ PropNode.srv (AGo 2 (COrder [0; 1]%nat) :: PropServer.go 2 4) ++ PropNode.hear 3 (mk_request 0 1 1) ++ PropNode.call 3 2).
  do 4 eexists. split; [apply PropNode.ex_runs; vm_compute; reflexivity|]. split; [vm_compute; reflexivity|]. split; [reflexivity|]. split; [reflexivity|]. PropNode.absent.
Qed.

(** ** C86 *)
(** A connection is closed because the program stops, because the peer was blocked, or
    because a read, a write, a request or a call of the storage failed for it. *)
Theorem C86_closed_for_a_reason :
  forall hash id n have l s ev p, run_of hash id n have l s ev -> In (EvDisconnected p) ev ->
  s_cancelled s = true \/ In (EvBlocked p) ev \/ broken hash id n have l p.
Proof. exact P2PEndProofs.closed_reasons. Qed.
Print Assumptions C86_closed_for_a_reason.
(** Peer 0 closes its connection. *)
Example C86_case : exists l s ev, PropServer.ex_run_of l s ev /\ In (EvDisconnected 0) ev /\ s_cancelled s = false /\ ~ In (EvBlocked 0) ev.
Proof. PropServer.run (AAccept PropServer.ex_ip 1000 :: PropServer.ex_connect 0 PropServer.ex_a ++ [AGo 0 COk; AGo 0 CErr; AGo 0 COk]). split; [PropServer.among|]. split; [reflexivity|]. PropServer.absent. Qed.

(** ** C87 *)
(** A new connection is refused because there are 50 peers, its address is that of a
    registered peer, the handshake fails, a registered peer has the same id and IP, or the
    bitfield cannot be sent. *)
Theorem C87_refused_for_a_reason :
  forall hash id n have l s ev a s' e p, run_of hash id n have l s ev -> goes_on hash id n s [a] s' e -> In (EvRefused p) e ->
  exists t c q, a = AGo t c /\ nth_error (s_peers s) p = Some q /\ why_refused hash id s c q.
Proof. exact P2PNameProofs.refused_reasons. Qed.
Print Assumptions C87_refused_for_a_reason.
(** After a handshake, a peer that differs from all registered ones in id or IP is
    registered and gets the bitfield, if fewer than 50 are. *)
Theorem C87_admitted :
  forall hash id n have l s ev t p q, run_of hash id n have l s ev -> s_crashed s = false -> s_mu s = None ->
  nth_error (s_threads s) t = Some (THandler p HRegister) -> nth_error (s_peers s) p = Some q -> zlen (g_active (s_reg s)) < 50 ->
  (forall p' q', registered s (name_of q') p' -> nth_error (s_peers s) p' = Some q' -> q_id q' = q_id q -> show_ip (q_ip q') <> show_ip (q_ip q)) ->
  exists s', goes_on hash id n s [AGo t COk; AGo t COk] s' [EvSent p (mk_bitfield (s_have s)); EvConnected p (q_id q) (q_ip q)] /\ registered s' (name_of q) p.
Proof. exact P2PNameProofs.admits. Qed.
Print Assumptions C87_admitted.
(** Two peers have one name only if id and IP are the same. *)
Theorem C87_names : forall x ip x' ip', idip_of x ip = idip_of x' ip' <-> x = x' /\ show_ip ip = show_ip ip'.
Proof. exact P2PNameProofs.names_differ. Qed.
Print Assumptions C87_names.
(** Peer 0 is registered; peer 1 has another id, at the same IP; peer 2 has the id of 0. *)
Example C87_case :
  (exists l s ev, PropServer.ex_run_of l s ev /\ s_crashed s = false /\ s_mu s = None /\ nth_error (s_threads s) 1 = Some (THandler 1 HRegister) /\
     zlen (g_active (s_reg s)) = 1 /\ exists q, nth_error (s_peers s) 1 = Some q /\ q_id q = PropServer.ex_b) /\
  (exists l s ev s' e, PropServer.ex_run_of l s ev /\ goes_on PropServer.ex_hash PropServer.ex_self 2 s [AGo 2 COk] s' e /\ In (EvRefused 2) e).
Proof.
  split.
  - PropServer.run (AAccept PropServer.ex_ip 1000 :: PropServer.ex_connect 0 PropServer.ex_a ++ [AAccept PropServer.ex_ip 2000; AGo 1 COk; AGo 1 (CHand true (PropServer.ex_shake PropServer.ex_b))]).
    repeat (split; [vm_compute; reflexivity|]). eexists. split; vm_compute; reflexivity.
  - exists (AAccept PropServer.ex_ip 1000 :: PropServer.ex_connect 0 PropServer.ex_a ++ AAccept PropServer.ex_ip 2000 :: PropServer.ex_connect 1 PropServer.ex_b ++ [AAccept PropServer.ex_ip 3000; AGo 2 COk; AGo 2 (CHand true (PropServer.ex_shake PropServer.ex_a))]).
    do 4 eexists. split; [apply PropServer.ex_runs; vm_compute; reflexivity|]. split; [exists PropServer.ex_none; split; [reflexivity|vm_compute; reflexivity]|]. PropServer.among.
Qed.
