(** C98, C99, C100, and C73, C75, C76 on the wire: what the connections of the client carry.

    [UK p (KSent m)]: m was written, whole, to the connection of p; [UK p (KRecv m)]: m was
    read from it. *)
From Verif Require Import GoBase GoMap Bitfield BitfieldSpec PeerWire Metainfo MetainfoSpec Fs Storage StorageSpec StorageSysSpec Node NodeSpec P2PConn P2PConnSpec Client ClientSpec ClientWireThms ClientBytesProofs.
From Verif Require P2PServerSpec PropServer PropStorage PropNode PropClient.
Import P2PServer StorageSys.

(** ** C98 *)
(** The messages written to a connection, other than the REQUESTs, are those the server
    sent to that peer, in the same order; the messages taken from it are those the server
    received, in the same order, and each of them came from the remote. *)
Theorem C98_sent_and_received :
  forall sha1 cfg env hash id, config_ok cfg -> i_piece_length (c_info cfg) <= 2 ^ 63 - 16384 -> forall f l c ev p, client_run sha1 cfg env hash id f l c ev ->
  wire_sent p ev = told p (node_events ev) /\ wire_handled p ev = heard p (node_events ev).
Proof. exact wire_agrees. Qed.
Print Assumptions C98_sent_and_received.
Theorem C98_received_came :
  forall sha1 cfg env hash id, config_ok cfg -> i_piece_length (c_info cfg) <= 2 ^ 63 - 16384 -> forall f l c ev p m, client_run sha1 cfg env hash id f l c ev ->
  In (UN (NEv (EvReceived p m))) ev -> In (UK p (KRecv m)) ev.
Proof. exact heard_came. Qed.
Print Assumptions C98_received_came.
(** While the program runs, each connection and the server agree on who is choked and on
    whether we are interested. *)
Theorem C98_flags :
  forall sha1 cfg env hash id, config_ok cfg -> i_piece_length (c_info cfg) <= 2 ^ 63 - 16384 -> forall f l c ev p q K, client_run sha1 cfg env hash id f l c ev ->
  crashed (u_node c) = false -> nth_error (s_peers (n_srv (u_node c))) p = Some q -> nth_error (u_conns c) p = Some K ->
  k_rchoked K = q_rchoked q /\ k_choked K = q_choked q /\ k_interested K = q_interested q.
Proof. exact flags_agree. Qed.
Print Assumptions C98_flags.
Example C98_case : config_ok PropNode.ex_cfg /\ i_piece_length (c_info PropNode.ex_cfg) <= 2 ^ 63 - 16384 /\
  exists l c ev, PropClient.ex_run_of l c ev /\ crashed (u_node c) = false /\ wire_sent 1 ev = [mk_bitfield PropServer.ex_none; mk_have 0; mk_plain UNCHOKE; mk_piece 0 1 (bs "b")] /\
    wire_handled 1 ev = [mk_request 0 1 1] /\ exists K, nth_error (u_conns c) 1 = Some K /\ k_choked K = false /\ k_interested K = false.
Proof.
  split; [exact PropNode.ex_ok|]. split; [exact PropClient.ex_fits|]. PropClient.run PropClient.ex_served. split; [reflexivity|]. split; [vm_compute; reflexivity|]. split; [vm_compute; reflexivity|].
  eexists. split; [vm_compute; reflexivity|]. split; reflexivity.
Qed.

(** ** C73, C75, C76 *)
(** Nothing is written to a connection before the bitfield, unless it was refused. *)
Theorem C73_on_the_wire :
  forall sha1 cfg env hash id, config_ok cfg -> i_piece_length (c_info cfg) <= 2 ^ 63 - 16384 -> forall f l c e1 p m e2, client_run sha1 cfg env hash id f l c (e1 ++ UK p (KSent m) :: e2) ->
  m_type m = BITFIELD \/ (exists b, In (UK p (KSent (mk_bitfield b))) e1) \/ In (UN (NEv (EvRefused p))) e1.
Proof. exact wire_first. Qed.
Print Assumptions C73_on_the_wire.
(** Every PIECE written to a connection answers a REQUEST that came over it, and carries
    the requested bytes of verified data. *)
Theorem C75_on_the_wire :
  forall sha1 cfg env hash id, config_ok cfg -> i_piece_length (c_info cfg) <= 2 ^ 63 - 16384 -> forall f l c ev p x, client_run sha1 cfg env hash id f l c ev ->
  In (UK p (KSent x)) ev -> m_type x = PIECE ->
  exists m d, In (UK p (KRecv m)) ev /\ m_type m = REQUEST /\ x = mk_piece (m_index m) (m_begin m) d /\ zlen d = m_length m /\
    (in_piece cfg (m_index m) (m_begin m) (m_length m) ->
       exists b, on_disk cfg (disk (u_node c)) (m_index m) = Some b /\ verified sha1 cfg (m_index m) b /\ d = slice b (m_begin m) (m_length m)) /\
    (d = [] \/ (exists b s, whole sha1 cfg b /\ 0 <= s /\ s + m_length m <= zlen b /\ d = slice b s (m_length m)) \/
     (exists b, 0 <= m_index m < num_pieces (c_info cfg) /\ verified sha1 cfg (m_index m) b /\ 0 <= m_begin m /\ m_begin m + m_length m <= zlen b /\ d = slice b (m_begin m) (m_length m))).
Proof. exact wire_pieces. Qed.
Print Assumptions C75_on_the_wire.
(** Every piece that a HAVE or BITFIELD on a connection announces is on the disk, with the
    right hash. *)
Theorem C76_on_the_wire :
  forall sha1 cfg env hash id, config_ok cfg -> i_piece_length (c_info cfg) <= 2 ^ 63 - 16384 -> forall f l c ev p m i, client_run sha1 cfg env hash id f l c ev ->
  In (UK p (KSent m)) ev -> 0 <= i -> P2PServerSpec.announces_piece m i ->
  i < num_pieces (c_info cfg) /\ exists b, on_disk cfg (disk (u_node c)) i = Some b /\ verified sha1 cfg i b.
Proof. exact wire_announced. Qed.
Print Assumptions C76_on_the_wire.
Example C76_on_the_wire_case : exists l c ev, PropClient.ex_run_of l c ev /\ In (UK 1 (KSent (mk_have 0))) ev /\ P2PServerSpec.announces_piece (mk_have 0) 0 /\
  In (UK 1 (KSent (mk_piece 0 1 (bs "b")))) ev /\ in_piece PropNode.ex_cfg 0 1 1.
Proof. PropClient.run PropClient.ex_served. split; [PropNode.among|]. split; [left; split; reflexivity|]. split; [PropNode.among|]. vm_compute. repeat split; discriminate. Qed.

(** ** C99 *)
(** No CHOKE, CANCEL or KEEPALIVE is ever written. *)
Theorem C99_kinds_of_message :
  forall sha1 cfg env hash id, config_ok cfg -> i_piece_length (c_info cfg) <= 2 ^ 63 - 16384 -> forall f l c ev p m, client_run sha1 cfg env hash id f l c ev ->
  In (UK p (KSent m)) ev -> In (m_type m) [BITFIELD; HAVE; INTERESTED; NOT_INTERESTED; UNCHOKE; REQUEST; PIECE].
Proof. exact wire_kinds. Qed.
Print Assumptions C99_kinds_of_message.
Example C99_case : exists l c ev, PropClient.ex_run_of l c ev /\ In (UK 0 (KSent (mk_plain INTERESTED))) ev /\ In (UK 0 (KSent (mk_request 0 0 2))) ev /\ In (UK 1 (KSent (mk_plain UNCHOKE))) ev.
Proof. PropClient.run PropClient.ex_served. repeat split; PropNode.among. Qed.

(** ** C100 *)
(** The bytes of the messages written to a connection, cut into segments in any way, are
    read by the protocol's decoder as exactly those messages: nothing is truncated on its
    way into the 32-bit fields.  It needs pieces and piece numbers of 32 bits, and a peer that
    does not ask for a block of about 4 GiB. *)
Theorem C100_understood :
  forall sha1 cfg env hash id, config_ok cfg -> num_pieces (c_info cfg) <= 2 ^ 32 -> i_piece_length (c_info cfg) <= 2 ^ 32 -> forall f l c ev p, client_run sha1 cfg env hash id f l c ev ->
  (forall q, In (UK p (KRecv q)) ev -> m_type q = REQUEST -> m_length q < 2 ^ 32 - 9) ->
  forall r n, concat r = concat (map encode_msg (written p ev)) -> (List.length (written p ev) < n)%nat -> read_messages n r = (written p ev, Err EEof).
Proof. exact understood. Qed.
Print Assumptions C100_understood.
(** Each is a message of the protocol, in the form the protocol gives it. *)
Theorem C100_frames :
  forall sha1 cfg env hash id, config_ok cfg -> num_pieces (c_info cfg) <= 2 ^ 32 -> i_piece_length (c_info cfg) <= 2 ^ 32 -> forall f l c ev p m, client_run sha1 cfg env hash id f l c ev ->
  (forall q, In (UK p (KRecv q)) ev -> m_type q = REQUEST -> m_length q < 2 ^ 32 - 9) -> In (UK p (KSent m)) ev -> exists x, m = PeerWireSpec.go_msg x /\ PeerWireSpec.frame x (encode_msg m).
Proof. exact framed. Qed.
Print Assumptions C100_frames.
(** The last condition is needed: the frame of such a block is read as a KEEPALIVE, and
    its content as messages. *)
Theorem C100_too_long_refuted :
  forall i b d, zlen d = 2 ^ 32 - 9 -> exists r', read_message [encode_msg (mk_piece i b d)] = Ok (mk_plain KEEPALIVE, r') /\ concat r' = "007"%byte :: put_u32 i ++ put_u32 b ++ d.
Proof. exact too_long. Qed.
Print Assumptions C100_too_long_refuted.
(** The values the model lets a received message have are those the decoder can return. *)
Theorem C100_received_range : forall r m r', read_message r = Ok (m, r') -> on_wire m = true.
Proof. exact read_on_wire. Qed.
Print Assumptions C100_received_range.
Example C100_case : num_pieces (c_info PropNode.ex_cfg) <= 2 ^ 32 /\ i_piece_length (c_info PropNode.ex_cfg) <= 2 ^ 32 /\
  exists l c ev, PropClient.ex_run_of l c ev /\ (forall q, In (UK 1 (KRecv q)) ev -> m_type q = REQUEST -> m_length q < 2 ^ 32 - 9) /\
    written 1 ev = [mk_bitfield PropServer.ex_none; mk_have 0; mk_plain UNCHOKE; mk_piece 0 1 (bs "b")] /\ In (mk_request 0 0 2) (written 0 ev) /\
    exists d : bytes, zlen d = 2 ^ 32 - 9.
Proof.
  split; [vm_compute; discriminate|]. split; [vm_compute; discriminate|]. PropClient.run PropClient.ex_served. split.
  { intros q I. apply ClientProofs.in_conn in I. vm_compute in I. repeat destruct I as [I|I]; try contradiction; try discriminate I. injection I as <-. reflexivity. }
  split; [vm_compute; reflexivity|]. split; [vm_compute; tauto|]. exists (repeat x00 (Z.to_nat (2 ^ 32 - 9))). unfold zlen. rewrite repeat_length. apply Z2Nat.id. lia.
Qed.
