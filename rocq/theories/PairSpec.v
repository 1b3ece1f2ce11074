(** Two clients of the program that are connected to each other: peer 0 of each is the other. *)
From Verif Require Import GoBase PeerWire Fs Storage P2PConn P2PServer Node Client DownloadSpec.

(** In a handshake a client reads what the other one, with the info hash and the peer id given,
    writes in its own. *)
Definition reads_handshake (hash id : bytes) (a : uaction) : Prop :=
  forall t written r, a = UNode (NServer (AGo t (CHand written r))) -> concat r = hs_encode {| hs_info := hash; hs_peer := id |}.

(** The two directions of the connection, seen from one end: what this client has written and
    the other not read yet, and what the other has written. Messages come in the order in which
    they were written, and none is lost. *)
Definition wires : Type := list message * list message.
Inductive passes : list kevent -> wires -> wires -> Prop :=
| passes_nothing s : passes [] s s
| passes_sent m tr out inn s : passes tr (out ++ [m], inn) s -> passes (KSent m :: tr) (out, inn) s
| passes_received m tr out inn s : passes tr (out, inn) s -> passes (KRecv m :: tr) (out, m :: inn) s.
Definition swap (s : wires) : wires := (snd s, fst s).

Section Pair.
Variable sha1 : bytes -> bytes.
(** Each has its directories, its disk and its peer id. *)
Variables (cfg1 cfg2 : config) (env1 env2 : nat -> Fs.choice) (hash id1 id2 blank : bytes).

(** A run of both, step by step in any order. *)
Inductive together : client -> client -> wires -> client -> client -> wires -> Prop :=
| together_done c1 c2 s : together c1 c2 s c1 c2 s
| together_first c1 c2 s a c1' e s' d1 d2 s'' : uexec sha1 cfg1 env1 hash id1 blank c1 a = Some (c1', e) -> reads_handshake hash id2 a ->
    passes (traffic 0 e) s s' -> together c1' c2 s' d1 d2 s'' -> together c1 c2 s d1 d2 s''
| together_second c1 c2 s a c2' e s' d1 d2 s'' : uexec sha1 cfg2 env2 hash id2 blank c2 a = Some (c2', e) -> reads_handshake hash id1 a ->
    passes (traffic 0 e) (swap s) (swap s') -> together c1 c2' s' d1 d2 s'' -> together c1 c2 s d1 d2 s''.
End Pair.
