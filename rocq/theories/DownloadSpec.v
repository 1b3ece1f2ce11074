(** What a seeder that has the content of the torrent does on its connection. *)
From Verif Require Import GoBase Bitfield BitfieldSpec PeerWire Metainfo Storage StorageSpec P2PConn Client ClientSpec.

(** The messages that were read from and written to the connection of peer p, in order. *)
Definition traffic (p : nat) (ev : list uevent) : list kevent :=
  filter (fun x => match x with KRecv _ | KSent _ => true | _ => false end) (conn_events p ev).

Section Seeder.
Variable cfg : config.
Variable c : bytes.        (* the content of the torrent *)

(** The first message of a seeder is the bitfield of all pieces; it unchokes who has told that
    it is interested; and it answers requests for blocks with the bytes of the content. *)
Definition seeder_says (before : list kevent) (m : message) : Prop :=
  (exists b, m = mk_bitfield b /\ zlen b = (num_pieces (c_info cfg) + 7) / 8 /\ (forall i, member b i <-> 0 <= i < num_pieces (c_info cfg)) /\ (forall x, ~ In (KRecv x) before)) \/
  (m = mk_plain UNCHOKE /\ In (KSent (mk_plain INTERESTED)) before) \/
  (exists i x y, In (KSent (mk_request i x y)) before /\ m = mk_piece i x (slice c (i * i_piece_length (c_info cfg) + x) y)).
Definition seeder (tr : list kevent) : Prop := forall before m after, tr = before ++ KRecv m :: after -> seeder_says before m.
End Seeder.
