(** Vocabulary for C135. *)
From Verif Require Import GoBase Tracker Pex PexSpec PexIdSpec.

(** What the tracker holds in memory: a torrent, and an address under it. *)
Definition holds_torrent (s : px_state) (h : bytes) : Prop := exists m, In (h, m) s.
Definition holds (s : px_state) (h a : bytes) : Prop := exists m x, In (h, m) s /\ In (a, x) m.
(** How many entries it holds for a torrent. *)
Definition holds_count (s : px_state) (h : bytes) (n : nat) : Prop := exists m, In (h, m) s /\ length m = n.
