(** Model of the request Tracker.get sends (p2p/multitracker.go:103-113, 118). *)
From Verif Require Import GoBase Metainfo Tracker Storage.

(** The Request literal (multitracker.go:104-113): [uploaded] and [downloaded] are the
    counters of the server, [m] the state of its storage, [event] the event name
    (started, completed, stopped or empty).  Simplified: the subtraction of [Left] does
    not wrap (the counter of the storage model is unbounded too). *)
Definition announce_request (i : info) (m : mem) (peer_id : bytes) (port uploaded downloaded : Z) (event : bytes) : request := {|
  r_info_hash := i_sha1 i; r_peer_id := peer_id; r_ip := []; r_port := port;
  r_uploaded := uploaded; r_downloaded := downloaded; r_left := i_length i - t_downloaded m;
  r_event := event; r_compact := true |}.
(** url.RawQuery = req.Encode() (multitracker.go:118): what was in the query of the
    announce URL before is replaced. *)
Definition announce_query (i : info) (m : mem) (peer_id : bytes) (port uploaded downloaded : Z) (event : bytes) : bytes :=
  request_encode (announce_request i m peer_id port uploaded downloaded event).
