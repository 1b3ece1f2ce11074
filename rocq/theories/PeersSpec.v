(** Clients connected to each other. *)
From Verif Require Import GoBase PeerWire Metainfo Fs Storage StorageSpec Node NodeSpec P2PConn Client ClientSpec.

(** A run of the client: its torrent and directories, what the operating system does, its
    info hash and peer id, the disk before the first start, what was done, the state
    reached and what happened. *)
Record member := {
  mb_cfg : config; mb_env : nat -> Fs.choice; mb_hash : bytes; mb_id : bytes; mb_fs : fs;
  mb_acts : list uaction; mb_state : client; mb_events : list uevent }.
Definition member_run (sha1 : bytes -> bytes) (x : member) : Prop :=
  client_run sha1 (mb_cfg x) (mb_env x) (mb_hash x) (mb_id x) (mb_fs x) (mb_acts x) (mb_state x) (mb_events x).

(** A swarm of such clients for one torrent.  [link (a, p)] = (b, q): the connection that is
    peer p of member a is peer q of member b.  What is read at one end of a connection was
    written at the other (nothing is said about when, and what is written may be lost), and
    no frame is read that is too short for its type (C100: none is written). *)
Definition swarm (sha1 : bytes -> bytes) (i : info) (ms : list member) (link : nat * nat -> nat * nat) : Prop :=
  (forall x, In x ms -> member_run sha1 x /\ c_info (mb_cfg x) = i /\ config_ok (mb_cfg x)) /\
  (forall e, link (link e) = e) /\
  (forall a x p m, nth_error ms a = Some x -> In (UK p (KRecv m)) (mb_events x) ->
     exists y, nth_error ms (fst (link (a, p))) = Some y /\ In (UK (snd (link (a, p))) (KSent m)) (mb_events y)) /\
  (forall x p, In x ms -> ~ In (UN (NEv (P2PServer.EvMalformed p))) (mb_events x)).

(** [c] is what the torrent [i] is about, and the pieces of no other content have the same
    SHA-1 hashes. *)
Definition only_content (sha1 : bytes -> bytes) (i : info) (c : bytes) : Prop :=
  zlen c = MetainfoSpec.total_size i /\
  forall k, 0 <= k < num_pieces i -> forall b, zlen b = piece_size i k -> sha1 b = piece_hash i k <-> b = slice c (k * i_piece_length i) (piece_size i k).
