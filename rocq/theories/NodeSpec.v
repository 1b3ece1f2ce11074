(** Runs of the whole program, and what can be seen of them. *)
From Verif Require Import GoBase GoMap Bitfield BitfieldSpec PeerWire Metainfo MetainfoSpec Fs Storage StorageSpec StorageSysSpec Node.
From Verif Require P2PServer P2PServerSpec StorageSys.

(** What the server did, and which calls of the storage returned. *)
Definition srv_events (ev : list nevent) : list P2PServer.event := flat_map (fun e => match e with NEv x => [x] | _ => [] end) ev.
Definition sto_events (ev : list nevent) : list StorageSys.event := flat_map (fun e => match e with NRet _ c r => [StorageSys.Ret c r] | _ => [] end) ev.
Definition received (ev : list nevent) (p : nat) (m : message) : Prop := In (NEv (P2PServer.EvReceived p m)) ev.

Section Runs.
Variable sha1 : bytes -> bytes.
Variable cfg : config.
Variable env : nat -> Fs.choice.
Variable hash id : bytes.

(** The disk had no trace of the torrent once ([f]); after any use of it, crashes and
    restarts ([ls]) the program is started again and goes through the actions l to n. *)
Definition node_run (f : fs) (l : list naction) (n : node) (ev : list nevent) : Prop :=
  untouched cfg f /\
  exists tick ls w es blank, StorageSys.execs sha1 cfg env (StorageSys.Dead f tick) ls = Some (StorageSys.Running w [], es) /\
    bf_new (num_pieces (c_info cfg)) = Some blank /\ nruns sha1 cfg env hash id blank (nstart (StorageSys.Running w [])) l = Some (n, ev).
(** What the disk holds. *)
Definition disk (n : node) : fs := disk_of (n_sto n).
Definition crashed (n : node) : bool := P2PServer.s_crashed (n_srv n).
(** Piece k is stored. *)
Definition stored (n : node) (k : Z) : Prop := 0 <= k < num_pieces (c_info cfg) /\ on_disk cfg (disk n) k <> None.
(** A message names a piece that does not exist, or no place in it. *)
Definition out_of_range (m : message) : Prop :=
  (m_type m = HAVE /\ num_pieces (c_info cfg) <= m_index m) \/
  (m_type m = BITFIELD /\ exists i, member (m_bitfield m) i /\ num_pieces (c_info cfg) <= i) \/
  (m_type m = REQUEST /\ num_pieces (c_info cfg) <= m_index m) \/
  (m_type m = PIECE /\ (num_pieces (c_info cfg) <= m_index m \/ piece_size (c_info cfg) (m_index m) <= m_begin m)).
(** Peer p was asked for piece i, and after that a block made the piece fail its check. *)
Definition blamed (ev : list nevent) (p : nat) (i : Z) : Prop :=
  exists ev1 ev2 t b d x g h, ev = ev1 ++ ev2 /\ In (NEv (P2PServer.EvRequest p i)) ev1 /\ In (NRet t (StorageSys.CPut i b d) (StorageSys.RErr (EChecksum x g h))) ev2.
(** Why the program can crash: a frame was too short; a message was out of range; or a
    piece was requested that, before the request came to reset it, was complete or had
    failed (a wrong checksum, an I/O error). *)
Definition cause (n : node) (ev : list nevent) : Prop :=
  (exists p, In (NEv (P2PServer.EvMalformed p)) ev) \/
  (exists p m, received ev p m /\ out_of_range m) \/
  (exists p i ev1 ev2, ev = ev1 ++ NEv (P2PServer.EvRequest p i) :: ev2 /\ (forall u r, ~ In (NRet u (StorageSys.CReset i) r) ev2) /\
    0 <= i < num_pieces (c_info cfg) /\
    (on_disk cfg (disk n) i <> None \/
     exists t b d e, In (NRet t (StorageSys.CPut i b d) (StorageSys.RErr e)) ev /\ (e = EIO \/ exists x g h, e = EChecksum x g h))).
End Runs.
