(** Vocabulary for a peer that is left idle. *)
From Verif Require Import GoBase Bitfield BitfieldSpec P2PServer P2PServerSpec.

(** Some goroutine is at work on piece i: it waits for it, or has just got it or failed to. *)
Definition fetching (i : Z) (s : sys) : Prop := exists p r, In (TPiece p i r) (s_threads s).
(** The server has gone through all pieces peer p could give, has asked for none and is
    about to leave the peer alone for a while (server.go:415-423). *)
Definition leaves_idle (p : nat) (s : sys) : Prop := In (TRequester p (RPick [])) (s_threads s).
(** After the first actions [l0] of a run, and before more than [l] are made, someone was at
    work on piece i. *)
Definition fetched_between (hash id : bytes) (n : Z) (have : bytes) (l0 l : list action) (i : Z) : Prop :=
  exists x y s ev, l = l0 ++ x ++ y /\ run_of hash id n have (l0 ++ x) s ev /\ fetching i s.
