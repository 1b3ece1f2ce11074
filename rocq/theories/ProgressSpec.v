(** What goroutines of the server wait for. *)
From Verif Require Import GoBase P2PServer.

(** The goroutine is in a call of Send, Unchoke or NotInterest on the connection of a peer:
    Connect sends the bitfield (server.go:302), requestPieceFromPeer is no longer interested
    (388), UnchokePeers (221), a HAVE is sent (437). *)
Definition on_call (th : thread) : option nat :=
  match th with
  | THandler p HBitfield | TRequester p (RNotInterest | RNotInterested) | TUnchoke p _ | TPiece _ _ (PSend p _) => Some p
  | _ => None
  end.
