(** The block requests requestPiece makes for one piece (p2p/peer.go:279-301). *)
From Verif Require Import GoBase Storage.

(** The loop of peer.go:285-294, without the requests themselves: the (begin, blockLength)
    pairs; [None]: out of fuel. *)
Fixpoint request_loop (fuel : nat) (begin len : Z) : option (list (Z * Z)) :=
  match fuel with
  | O => None
  | S fuel' =>
      if begin <? len then
        option_map (cons (begin, Z.min BL (wrap_s 64 (len - begin)))) (request_loop fuel' (wrap_s 64 (begin + BL)) len)
      else Some []
  end.
(** For a piece of [len] bytes (peer.go:281); the loop runs at most len / BL + 1 times. *)
Definition piece_requests (len : Z) : option (list (Z * Z)) := request_loop (Z.to_nat (len / BL) + 2) 0 len.
