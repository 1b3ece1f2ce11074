(** What the theorems about the server say, in terms of the events that can be seen from
    outside. *)
From Verif Require Import GoBase Bitfield BitfieldSpec PeerWire NetIP Tracker P2PPeer P2PServer.

(** A life of a server with this info hash and peer id for a torrent of n pieces, of which
    [have] were stored when it started: the actions l lead to the state s, with the events
    ev on the way.  Nothing is assumed about the order in which goroutines run, what peers
    send, which calls fail. *)
Definition run_of (hash id : bytes) (n : Z) (have : bytes) (l : list action) (s : sys) (ev : list event) : Prop :=
  exists blank, bf_new n = Some blank /\ zlen have = zlen blank /\ runs hash id blank (started have) l = Some (s, ev).
(** ... and goes on. *)
Definition goes_on (hash id : bytes) (n : Z) (s : sys) (l : list action) (s' : sys) (ev : list event) : Prop :=
  exists blank, bf_new n = Some blank /\ runs hash id blank s l = Some (s', ev).
(** Goroutine t takes a step. *)
Definition turn_of (t : nat) (a : action) : Prop := exists c, a = AGo t c.

(** How often something happened. *)
Definition count (f : event -> bool) (ev : list event) : Z := zlen (filter f ev).
Definition is_handler (e : event) : bool := match e with EvHandler => true | _ => false end.
Definition is_handler_end (e : event) : bool := match e with EvHandlerEnd => true | _ => false end.
(** Connection handlers that run. *)
Definition handlers_running (ev : list event) : Z := count is_handler ev - count is_handler_end ev.
(** Requests for piece i, to any peer, that were made and have not returned. *)
Definition requests_piece (i : Z) (e : event) : bool := match e with EvRequest _ j => i =? j | _ => false end.
Definition requested_piece (i : Z) (e : event) : bool := match e with EvRequested _ j => i =? j | _ => false end.
Definition piece_outstanding (i : Z) (ev : list event) : Z := count (requests_piece i) ev - count (requested_piece i) ev.
(** Pieces requested of peer p for which the request has not returned. *)
Definition requests_peer (p : nat) (e : event) : bool := match e with EvRequest q _ => Nat.eqb p q | _ => false end.
Definition requested_peer (p : nat) (e : event) : bool := match e with EvRequested q _ => Nat.eqb p q | _ => false end.
Definition peer_outstanding (p : nat) (ev : list event) : Z := count (requests_peer p) ev - count (requested_peer p) ev.
(** How often an address was queued and dialled. *)
Definition queues (a : bytes) (e : event) : bool := match e with EvQueued b => bytes_eqb a b | _ => false end.
Definition dials (a : bytes) (e : event) : bool := match e with EvDial b => bytes_eqb a b | _ => false end.
(** A message announces that its sender has piece i. *)
Definition announces_piece (m : message) (i : Z) : Prop :=
  (m_type m = HAVE /\ m_index m = i) \/ (m_type m = BITFIELD /\ member (m_bitfield m) i).
(** Queueing an address, admitting, dropping or blocking a peer, choosing and requesting a
    piece: everything the server does to make progress. *)
Definition needs_lock (x : event) : bool :=
  match x with EvQueued _ | EvConnected _ _ _ | EvDisconnected _ | EvBlocked _ | EvLooked _ | EvRequest _ _ => true | _ => false end.
(** The peer id that stands for none; the id given with a peer, cut or filled up to 20 bytes. *)
Definition no_id : bytes := repeat x00 20.
Definition given_id (id : bytes) : bytes := firstn 20 (id ++ no_id).
(** Where a connection to (ip, port) comes from, given the actions so far: the remote made
    it, or the peer was announced to us with this address and, if not zero, this id. *)
Definition came (l : list action) (id ip : bytes) (port : Z) : Prop :=
  (In (AAccept ip port) l /\ id = no_id) \/
  (exists tp, In (AAdd tp) l /\ parse_ip (p_ip tp) = Some ip /\ p_port tp = port /\ id = given_id (p_id tp)).
(** Peer p has told that it has piece i. *)
Definition announced (ev : list event) (p : nat) (i : Z) : Prop := exists m, In (EvReceived p m) ev /\ announces_piece m i.
(** Piece i was stored when the server started or since. *)
Definition stored_in (have : bytes) (ev : list event) (i : Z) : Prop := member have i \/ In (EvStored i) ev.
Definition sends_bitfield (p : nat) (e : event) : bool := match e with EvSent q m => Nat.eqb p q && (m_type m =? BITFIELD) | _ => false end.
(** A goroutine that brings peer p to the download loop, looks for a piece to request
    from p, requests one, or waits to look again. *)
Definition carries (p : nat) (th : thread) : bool :=
  match th with
  | THandler q (HToken _) | TRequester q (RLock | RRead | RPick _) | TWaiter q _ => Nat.eqb p q
  | TPiece q _ (PRun | PShare | PHave _ | PSend _ _ | PBlock | PToken) => Nat.eqb p q
  | _ => false
  end.
Definition loops (p : nat) (s : sys) : Z := zlen (filter (carries p) (s_threads s)).
(** Nobody has stopped the server, and it has not failed. *)
Definition not_stopped (l : list action) : Prop := ~ In AStop l /\ ~ In AFail l /\ ~ In AServeEnd l.
(** The server has registered connection p under this name (id and IP). *)
Definition registered (s : sys) (x : bytes) (p : nat) : Prop := In (x, p) (g_active (s_reg s)).
(** A goroutine that has checked that a is not blocked and now dials it. *)
Definition dials_now (a : bytes) (th : thread) : Prop := exists tp, th = TDial tp true /\ remote_addr tp = Some a.
(** A handler that is about to mark its peer for download because of piece i (or anyway). *)
Definition busy_with (i : Z) (h : hpc) : Prop := match h with HQueue _ => True | HRecord j _ | HCheck j _ => j = i | _ => False end.
(** The addresses known for a name. *)
Definition known_for (s : sys) (x : bytes) : list bytes := addrs_of (s_reg s) x.
