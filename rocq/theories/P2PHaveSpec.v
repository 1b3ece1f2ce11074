(** Vocabulary for the theorems about announcing pieces. *)
From Verif Require Import GoBase Bitfield BitfieldSpec PeerWire P2PServer P2PServerSpec.

(** Peer p has been told of piece i: in a HAVE, or in its BITFIELD. *)
Definition told (ev : list event) (p : nat) (i : Z) : Prop := exists m, In (EvSent p m) ev /\ announces_piece m i.
(** Among the actions l is the return, with nil, of a call of Peer.requestPiece for piece i. *)
Definition fetched (hash id : bytes) (n : Z) (have : bytes) (l : list action) (i : Z) : Prop :=
  exists l1 t l2 s ev p, l = l1 ++ AGo t COk :: l2 /\ run_of hash id n have l1 s ev /\ nth_error (s_threads s) t = Some (TPiece p i PRun).
(** ... is a HAVE of piece i that could not be sent. *)
Definition unsent (hash id : bytes) (n : Z) (have : bytes) (l : list action) (i : Z) : Prop :=
  exists l1 t l2 s ev p x to, l = l1 ++ AGo t CErr :: l2 /\ run_of hash id n have l1 s ev /\ nth_error (s_threads s) t = Some (TPiece p i (PSend x to)).
(** Goroutine t is announcing piece i. *)
Definition announcing (s : sys) (t : nat) (i : Z) : Prop :=
  exists p r, nth_error (s_threads s) t = Some (TPiece p i r) /\ (r = PShare \/ (exists to, r = PHave to) \/ exists x to, r = PSend x to).
(** ... and has just found open the connection it is going to send to next, which has since
    been closed. *)
Definition too_late (s : sys) (t : nat) (i : Z) : Prop :=
  exists p x to q, nth_error (s_threads s) t = Some (TPiece p i (PSend x to)) /\ nth_error (s_peers s) x = Some q /\ q_closed q = true.
(** Peer p is registered, Connect has returned nil for it and its connection is open. *)
Definition joined (s : sys) (ev : list event) (p : nat) : Prop :=
  (exists x, registered s x p) /\ (exists id ip, In (EvConnected p id ip) ev) /\ exists q, nth_error (s_peers s) p = Some q /\ q_closed q = false.
(** This is a HAVE of piece i to peer p. *)
Definition have_sent (p : nat) (i : Z) (e : event) : bool :=
  match e with EvSent q m => Nat.eqb p q && (m_type m =? HAVE) && (m_index m =? i) | _ => false end.
(** The HAVEs of piece i among the messages l. *)
Definition haves (i : Z) (l : list message) : list message := filter (fun m => (m_type m =? HAVE) && (m_index m =? i)) l.
