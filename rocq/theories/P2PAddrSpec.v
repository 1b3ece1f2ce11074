(** Vocabulary for C113 and C114: the addresses of peers. *)
From Verif Require Import GoBase Strconv NetIP Tracker.

(** The IP of this peer of a tracker is an IPv6 address (not an IPv4 address in disguise). *)
Definition v6_peer (tp : Tracker.peer) : Prop := exists ip, parse_ip (p_ip tp) = Some ip /\ to4 ip = None.
(** The text under which AddPeer knows a peer: its IP in standard form, a colon, its port. *)
Definition named (tp : Tracker.peer) (a : bytes) : Prop := exists ip, parse_ip (p_ip tp) = Some ip /\ a = show_ip ip ++ bs ":" ++ format_Z (p_port tp).
