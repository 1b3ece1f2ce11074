(** Vocabulary for the theorems about the end of connections. *)
From Verif Require Import GoBase Bitfield P2PServer P2PServerSpec.

(** Among the actions l of a server is one of the handler of peer p that failed: a read
    from or a write to the peer, a refused request, a call of the storage. *)
Definition broken (hash id : bytes) (n : Z) (have : bytes) (l : list action) (p : nat) : Prop :=
  exists l1 t c l2 s ev h, l = l1 ++ AGo t c :: l2 /\ run_of hash id n have l1 s ev /\
  nth_error (s_threads s) t = Some (THandler p h) /\ (c = CErr \/ c = CStored false).

(** * The whole program *)
From Verif Require Import PeerWire Storage StorageSys Node NodeSpec.
(** The call that message m from a peer leads to. *)
Definition asks_for (m : message) (c : call) : Prop :=
  (m_type m = REQUEST /\ c = CGet (m_index m) (m_begin m) (m_length m)) \/ (m_type m = PIECE /\ c = CPut (m_index m) (m_begin m) (m_piece m)).
(** The call of the storage for a peer's message did not do what was asked (a block that
    is there already is no failure). *)
Definition cannot (c : call) (r : result) : Prop :=
  match c, r with
  | CGet _ _ _, RErr _ => True
  | CPut _ _ _, RErr e => e <> EBlockExists
  | _, _ => False
  end.
(** The handler of peer p, goroutine t, takes the next message, whatever it is, unless the
    program is stopping or has blocked the peer. *)
Definition takes_next sha1 cfg env hash id (blank : bytes) (ev : list nevent) (n : node) (t p : nat) : Prop :=
  P2PServer.s_cancelled (n_srv n) = true \/ In (NEv (EvBlocked p)) ev \/
  forall m, on_wire m = true -> exists n', nruns sha1 cfg env hash id blank n [NServer (AGo t COk); NServer (AGo t (CMsg m))] = Some (n', [NEv (EvReceived p m)]).

(** * Refused connections *)
From Verif Require Import NetIP P2PPeer.
(** Why Connect may return an error for the peer q when its handler goes on with c. *)
Definition why_refused (hash id : bytes) (s : sys) (c : choice) (q : remote) : Prop :=
  50 <= zlen (g_active (s_reg s)) \/                                              (* too many peers *)
  (exists x p, In (place_of q, x) (g_idips (s_reg s)) /\ registered s x p) \/       (* its address is that of a registered peer *)
  (exists written r, c = CHand written r /\ forall i r', peer_handshake hash id (q_id q) written r <> (i, Ok r')) \/  (* no handshake *)
  (exists p q', registered s (name_of q') p /\ nth_error (s_peers s) p = Some q' /\ q_id q' = q_id q /\ show_ip (q_ip q') = show_ip (q_ip q)) \/
                                                                                    (* a registered peer has its id and IP *)
  c = CErr.                                                                         (* the bitfield could not be sent *)
