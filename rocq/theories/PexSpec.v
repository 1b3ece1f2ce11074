(** Vocabulary for C32-C34: announces, histories and clocks. *)
From Verif Require Import GoBase BencTypes BencEncode BencDecode BencSpec NetIP Tracker TrackerSpec Pex.
From Coq Require Import Permutation.

(** A minute in nanoseconds; the event with which a peer leaves. *)
Definition a_minute : Z := 60 * 1000000000.
Definition leaving : bytes := bs "stopped".

(** [announces query remote h a p ev compact]: the request is a well-formed announce to
    torrent [h] from address [a] (the standard text of its IP, a colon, its port) by
    peer [p] with event [ev]. *)
Definition announces (query : bytes) (remote : option bytes) (h a : bytes) (p : peer) (ev : bytes) (compact : bool) : Prop :=
  exists r ip, request_means query r /\ h = r_info_hash r /\
    (r_ip r = [] /\ remote = Some (p_ip p) \/ r_ip r <> [] /\ p_ip p = r_ip r) /\
    parse_ip (p_ip p) = Some ip /\ r_port r <> 0 /\ p_port p = r_port r /\ p_id p = r_peer_id r /\
    a = addr_text (show_ip ip) (p_port p) /\ ev = r_event r /\ compact = r_compact r.
(** The same for an event of the history, with its time. *)
Definition announce_event (e : px_event_t) (h a : bytes) (p : peer) (ev : bytes) (t : Z) : Prop :=
  match e with
  | EvRequest q remote now _ => t = now /\ exists c, announces q remote h a p ev c
  | EvSweep _ _ => False
  end.
(** The last announce to [h] from [a] in the history was at time [t] with event [ev]. *)
Definition last_announce (hist : list px_event_t) (h a : bytes) (t : Z) (ev : bytes) : Prop :=
  exists pre e post p, hist = pre ++ e :: post /\ announce_event e h a p ev t /\
    forall e', In e' post -> forall p' ev' t', ~ announce_event e' h a p' ev' t'.

(** [timed t hist t']: the clock does not run backwards from [t] through the history to [t']. *)
Inductive timed : Z -> list px_event_t -> Z -> Prop :=
| tm_nil t t' : t <= t' -> timed t [] t'
| tm_request q remote now clk t t1 t' hist : t <= now -> (forall a, now <= clk a <= t1) -> timed t1 hist t' ->
    timed t (EvRequest q remote now clk :: hist) t'
| tm_sweep h clk t t1 t' hist : t <= t1 -> (forall a, t <= clk a <= t1) -> timed t1 hist t' ->
    timed t (EvSweep h clk :: hist) t'.

(** The address a peer stands for. *)
Definition has_addr (p : peer) (a : bytes) : Prop := exists ip, parse_ip (p_ip p) = Some ip /\ a = addr_text (show_ip ip) (p_port p).
(** Addresses are announced in their standard text. *)
Definition standard_ip (t : bytes) : Prop := exists ip, parse_ip t = Some ip /\ show_ip ip = t.
Definition standard_event (e : px_event_t) : Prop := forall h a p ev t, announce_event e h a p ev t -> standard_ip (p_ip p).
