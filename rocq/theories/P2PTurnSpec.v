(** What C132 talks about: the requests a connection received and the answers it gave. *)
From Verif Require Import GoBase GoMap PeerWire P2PConn P2PConnSpec.

(** Where a block is: its piece and the offset in it. *)
Definition place : Type := Z * Z.
Definition place_of (m : message) : place := (m_index m, m_begin m).
(** The REQUESTs received, in order. *)
Definition requests (ev : list kevent) : list place :=
  flat_map (fun e => match e with KRecv m => if is_type REQUEST m then [place_of m] else [] | _ => [] end) ev.
(** What was done about requests, in order: a PIECE was written, or the request was dropped
    because of a CANCEL. *)
Definition answers (ev : list kevent) : list place :=
  flat_map (fun e => match e with
                     | KSent m => if is_type PIECE m then [place_of m] else []
                     | KSuppressed (i, b, _) => [(i, b)]
                     | _ => []
                     end) ev.
(** How many REQUESTs for a place were received, and how many PIECEs for it were written. *)
Definition same_place (p : place) (m : message) : bool := (m_index m =? fst p) && (m_begin m =? snd p).
Definition asked_for (p : place) (ev : list kevent) : Z := tally (fun e => match e with KRecv m => is_type REQUEST m && same_place p m | _ => false end) ev.
Definition given (p : place) (ev : list kevent) : Z := tally (fun e => match e with KSent m => is_type PIECE m && same_place p m | _ => false end) ev.
