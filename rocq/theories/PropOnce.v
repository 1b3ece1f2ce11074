(** C128: a peer is told of a piece at most once. *)
From Verif Require Import GoBase GoMap Bitfield BitfieldSpec PeerWire Metainfo MetainfoSpec Fs Storage StorageSpec StorageSysSpec Node NodeSpec P2PServer P2PServerSpec P2PHaveSpec P2PConn P2PConnSpec Client ClientSpec.
From Verif Require P2POnceProofs ClientOnceProofs PropServer PropShare PropNode PropClient.

(** ** C128 *)
(** However the goroutines run, whatever peers send and whichever calls fail: no peer gets two
    HAVEs of one piece, and none gets a HAVE of a piece that was complete at the start. *)
Theorem C128_have_at_most_once :
  forall hash id n have l s ev i p, run_of hash id n have l s ev ->
  count (have_sent p i) ev <= 1 /\ (member have i -> count (have_sent p i) ev = 0).
Proof. exact P2POnceProofs.told_once. Qed.
Print Assumptions C128_have_at_most_once.
(** Of all messages written to a connection, at most one is a HAVE of piece i. *)
Theorem C128_on_the_wire :
  forall sha1 cfg env hash id, config_ok cfg -> i_piece_length (c_info cfg) <= 2 ^ 63 - 16384 -> forall f l c ev p i, client_run sha1 cfg env hash id f l c ev ->
  zlen (haves i (written p ev)) <= 1.
Proof. exact ClientOnceProofs.written_once. Qed.
Print Assumptions C128_on_the_wire.
(** The piece is stored when it comes unasked, is requested all the same, and both peers are
    told once. *)
Definition ex_again : list action :=
  PropServer.ex_look ++ PropServer.ex_hear 0 (mk_piece 0 0 (bs "x")) ++ [AGo 0 (CStored true); AGo 1 COk] ++ AAccept PropServer.ex_ip 2000 :: PropServer.ex_connect 3 PropServer.ex_b ++
  AGo 2 COk :: AGo 2 (COrder [0; 1]%nat) :: PropServer.go 2 5.
Example C128_case : exists l s ev, PropServer.ex_run_of l s ev /\ In (EvStored 0) ev /\ count (requests_piece 0) ev = 1 /\ count (have_sent 0 0) ev = 1 /\ count (have_sent 1 0) ev = 1.
Proof. PropServer.run ex_again. split; [PropServer.among|]. repeat split. Qed.
Example C128_on_the_wire_case : config_ok PropNode.ex_cfg /\ i_piece_length (c_info PropNode.ex_cfg) <= 2 ^ 63 - 16384 /\
  exists l c ev, PropClient.ex_run_of l c ev /\ haves 0 (written 1 ev) = [mk_have 0].
Proof. split; [apply PropNode.ex_ok|]. split; [vm_compute; discriminate|]. PropClient.run PropClient.ex_served. vm_compute. reflexivity. Qed.
