(** Vocabulary for the theorems about unchoking. *)
From Verif Require Import GoBase PeerWire P2PServer P2PServerSpec.

(** We do not choke peer p. *)
Definition unchoked (s : sys) (p : nat) : Prop := exists q, nth_error (s_peers s) p = Some q /\ q_choked q = false.
(** Peer p is registered and its connection is open. *)
Definition connected (s : sys) (p : nat) : Prop := (exists x, registered s x p) /\ exists q, nth_error (s_peers s) p = Some q /\ q_closed q = false.
(** An UNCHOKE was sent to peer p. *)
Definition unchokes (p : nat) (e : event) : bool := match e with EvSent x m => Nat.eqb p x && (m_type m =? UNCHOKE) | _ => false end.
