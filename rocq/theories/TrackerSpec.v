(** Vocabulary for the properties of api/tracker. *)
From Verif Require Import GoBase BencTypes BencSpec BencRoundSpec UrlSpec NetIP Tracker.

(** A Request as Go holds it: 20-byte arrays and 64-bit integers. *)
Definition request_fits (r : request) : Prop :=
  zlen (r_info_hash r) = 20 /\ zlen (r_peer_id r) = 20 /\
  Forall (int_fits W64) [r_port r; r_uploaded r; r_downloaded r; r_left r].

(** A query all of whose non-empty pieces are key=value pairs, properly percent-encoded. *)
Definition well_formed_query (q : bytes) : Prop :=
  exists segs, pieces q segs /\ forall seg, In seg segs -> seg <> [] -> exists k v, piece_means seg k v.
(** A numeric parameter: absent or empty is 0, otherwise a decimal 64-bit integer. *)
Definition int_param (t : bytes) (z : Z) : Prop := t = [] /\ z = 0 \/ go_int z t.
(** [request_means q r]: [q] is a well-formed announce query with the parameters [r]. *)
Definition request_means (q : bytes) (r : request) : Prop :=
  well_formed_query q /\ exists ps, query_means q ps /\
    r_info_hash r = firstn 20 (first_value (bs "info_hash") ps ++ repeat x00 20) /\
    r_peer_id r = firstn 20 (first_value (bs "peer_id") ps ++ repeat x00 20) /\
    r_ip r = first_value (bs "ip") ps /\
    int_param (first_value (bs "port") ps) (r_port r) /\
    int_param (first_value (bs "uploaded") ps) (r_uploaded r) /\
    int_param (first_value (bs "downloaded") ps) (r_downloaded r) /\
    int_param (first_value (bs "left") ps) (r_left r) /\
    r_event r = first_value (bs "event") ps /\
    (r_compact r = true <-> first_value (bs "compact") ps = bs "1").

(** [dotted a b c d t]: [t] is the usual text of the IPv4 address a.b.c.d. *)
Definition dotted (a b c d : byte) (t : bytes) : Prop :=
  exists ta tb tc td, dec_text (b2z a) ta /\ dec_text (b2z b) tb /\ dec_text (b2z c) tc /\ dec_text (b2z d) td /\
    t = ta ++ "."%byte :: tb ++ "."%byte :: tc ++ "."%byte :: td.
(** [compact_form p w]: [w] is the six-byte form of an IPv4 peer: address, then port,
    most significant byte first. *)
Definition compact_form (p : peer) (w : bytes) : Prop :=
  exists a b c d e f, dotted a b c d (p_ip p) /\ p_port p = 256 * b2z e + b2z f /\ w = [a; b; c; d; e; f].
Definition ipv4_peer (p : peer) : Prop := (exists a b c d, dotted a b c d (p_ip p)) /\ 0 <= p_port p < 65536.
Definition without_id (p : peer) : peer := {| p_id := []; p_ip := p_ip p; p_port := p_port p |}.

(** What parsePeers expects of an entry: a dictionary with the three fields. *)
Definition peer_shaped (v : bval) : Prop :=
  exists m i a p, v = BDict m /\ In (bs "peer id", BStr i) m /\ In (bs "ip", BStr a) m /\ In (bs "port", BInt p) m.

(** The peer a client sees after a compact response: no id, IPv4 address in its usual
    text (also for IPv4-mapped IPv6 text), port reduced to 16 bits. *)
Definition compact_view (p p' : peer) : Prop :=
  exists ip a b c d, parse_ip (p_ip p) = Some ip /\ to4 ip = Some [a; b; c; d] /\
    dotted a b c d (p_ip p') /\ p_port p' = p_port p mod 65536 /\ p_id p' = [].
(** [client_view ps ps']: a client that receives [ps] sees [ps']. *)
Definition client_view (ps ps' : peers) : Prop :=
  ps_compact ps' = ps_compact ps /\
  if ps_compact ps then Forall2 compact_view (ps_list ps) (ps_list ps') else ps_list ps' = ps_list ps.

Definition peer_fits (p : peer) : Prop := len_fits (p_id p) /\ len_fits (p_ip p) /\ int_fits WInt (p_port p).
(** A peer list that can be sent: compact lists have only IPv4 addresses, other lists
    are not empty. *)
Definition sendable (ps : peers) : Prop :=
  if ps_compact ps
  then 6 * zlen (ps_list ps) <= 2 ^ 48 /\
       Forall (fun p => exists ip q, parse_ip (p_ip p) = Some ip /\ to4 ip = Some q) (ps_list ps)
  else ps_list ps <> [] /\ Forall peer_fits (ps_list ps).
Definition response_fits (r : response) : Prop :=
  Forall len_fits [rs_failure r; rs_warning r; rs_tracker_id r] /\
  Forall (int_fits WInt) [rs_interval r; rs_min_interval r; rs_complete r; rs_incomplete r] /\
  match rs_peers r with Some ps => sendable ps | None => True end.
Definition with_peers (ps : option peers) (r : response) : response := {|
  rs_failure := rs_failure r; rs_interval := rs_interval r; rs_peers := ps; rs_warning := rs_warning r;
  rs_min_interval := rs_min_interval r; rs_tracker_id := rs_tracker_id r; rs_complete := rs_complete r; rs_incomplete := rs_incomplete r |}.
