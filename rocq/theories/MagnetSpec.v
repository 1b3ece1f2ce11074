(** What a magnet link stands for. *)
From Verif Require Import GoBase UrlSpec Magnet.

(** A byte that can stand in the query of a link. *)
Definition link_byte (c : byte) : Prop := 32 <= b2z c /\ b2z c <> 127 /\ c <> "#"%byte.
(** The magnet described by the pairs of a query, with a given length. *)
Definition magnet_of (ps : list (bytes * bytes)) (len : Z) : magnet := {|
  mg_topic := first_value (bs "xt") ps; mg_name := first_value (bs "dn") ps; mg_length := len;
  mg_trackers := all_values (bs "tr") ps; mg_web_seed := first_value (bs "ws") ps; mg_peers := all_values (bs "x.pe") ps |}.
