(** Model of the sequential parts of p2p/peer.go: the handshake, the names of a peer and
    the arithmetic of a connection's addresses. *)
From Verif Require Import GoBase Strconv PeerWire NetIP Tracker.

(** [20]byte{} *)
Definition zero_id : bytes := repeat x00 20.

(** Handshake (peer.go:59-85): [own_hash], [own_id] are the server's, [id] is p.ID before,
    [written] tells whether the write of our handshake succeeded, [r] is what the remote
    sends.  The result is p.ID afterwards and, on success, what is left to read.
    Simplified: a deadline (61-62) is one of the ways in which [written] is false or [r]
    ends early. *)
Inductive herr := HWrite | HRead (e : rderr) | HInfoHash | HPeerId | HOwnId.
Definition peer_handshake (own_hash own_id id : bytes) (written : bool) (r : conn) : bytes * res herr conn :=
  if negb written then (id, Err HWrite)
  else match hs_decode r with
       | Panic => (id, Panic)
       | Err e => (id, Err (HRead e))
       | Ok (h, r') =>
           if negb (bytes_eqb (hs_info h) own_hash) then (id, Err HInfoHash)
           else if negb (bytes_eqb id zero_id) && negb (bytes_eqb id (hs_peer h)) then (id, Err HPeerId)
           else if bytes_eqb (hs_peer h) own_id then (hs_peer h, Err HOwnId)
           else (hs_peer h, Ok r')
       end.

(** IDIP (peer.go:87-90) of a peer with this id and remote IP (16-byte form). *)
Definition idip_of (id ip : bytes) : bytes := id ++ bs "[" ++ show_ip ip ++ bs "]".
(** RemoteAddr().String(), i.e. net.JoinHostPort (peer.go:92-94).  Simplified: no zone. *)
Definition join_host_port (host : bytes) (port : Z) : bytes :=
  if existsb (beqb ":"%byte) host then bs "[" ++ host ++ bs "]:" ++ format_Z port
  else host ++ bs ":" ++ format_Z port.
Definition addr_of (ip : bytes) (port : Z) : bytes := join_host_port (show_ip ip) port.

(** remoteAddr (server.go:499-505); [None] is the error "bad ip". *)
Definition remote_addr (tp : Tracker.peer) : option bytes :=
  match parse_ip (p_ip tp) with
  | None => None
  | Some ip => Some (show_ip ip ++ bs ":" ++ format_Z (p_port tp))
  end.
(** net.Dial (server.go:346) of fmt.Sprintf("%s:%d", peer.IP, peer.Port): an address with
    a further colon has "too many colons" and a port must be 0 to 65535; otherwise the
    network decides.  [tp] has a valid IP here (server.go:356-359), so no name is
    resolved. *)
Definition dialable (tp : Tracker.peer) : bool :=
  negb (existsb (beqb ":"%byte) (p_ip tp)) && (0 <=? p_port tp) && (p_port tp <=? 65535).
(** copy(p.ID[:], peer.ID) (server.go:351) into a zero array. *)
Definition copied_id (id : bytes) : bytes := copy20 zero_id id.
