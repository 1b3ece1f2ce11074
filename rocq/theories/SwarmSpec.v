(** Vocabulary for C82: drip clients that use drip's own tracker. *)
From Verif Require Import GoBase BencTypes BencSpec BencRoundSpec NetIP Metainfo Storage Tracker TrackerSpec Pex PexSpec Announce.

(** A client: the IPv4 address its requests come from, the port it listens on, its id. *)
Record client := { cl_host : bytes; cl_port : Z; cl_id : bytes }.
Definition client_ok (c : client) : Prop :=
  (exists a b c' d, dotted a b c' d (cl_host c)) /\ 1 <= cl_port c <= 65535 /\ zlen (cl_id c) = 20.
(** [visit h c ev t clk e]: the event [e] is the announce of torrent [h] that client [c]
    sends at time [t] with event name [ev], whatever its progress. *)
Definition visit (h : bytes) (c : client) (ev : bytes) (t : Z) (clk : bytes -> Z) (e : px_event_t) : Prop :=
  client_ok c /\ zlen h = 20 /\
  exists i m up down, i_sha1 i = h /\ Forall (int_fits W64) [up; down; i_length i - t_downloaded m] /\
    e = EvRequest (announce_query i m (cl_id c) (cl_port c) up down ev) (Some (cl_host c)) t clk.
(** All that happens to the tracker: announces of clients, for any torrent, and sweeps. *)
Definition swarm_event (e : px_event_t) : Prop :=
  match e with EvSweep _ _ => True | _ => exists h c ev t clk, visit h c ev t clk e end.
(** The last announce of [h] by the client at this address was at time [t], with event [ev]. *)
Definition last_visit (hist : list px_event_t) (h host : bytes) (port t : Z) (ev : bytes) : Prop :=
  exists pre e post c clk, hist = pre ++ e :: post /\ visit h c ev t clk e /\ cl_host c = host /\ cl_port c = port /\
    forall e' c' ev' t' clk', In e' post -> visit h c' ev' t' clk' e' -> (cl_host c', cl_port c') <> (host, port).
