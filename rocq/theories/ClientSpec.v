(** Runs of the client, and what can be seen of them. *)
From Verif Require Import GoBase GoMap Bitfield PeerWire Metainfo MetainfoSpec Fs Storage StorageSpec StorageSysSpec Node NodeSpec P2PConn P2PConnSpec Client.
From Verif Require P2PServer P2PServerSpec StorageSys.

(** What the server and its storage did; what happened on the connection of p. *)
Definition node_events (ev : list uevent) : list nevent := flat_map (fun e => match e with UN x => [x] | UK _ _ => [] end) ev.
Definition conn_events (p : nat) (ev : list uevent) : list kevent := flat_map (fun e => match e with UK q x => if Nat.eqb p q then [x] else [] | UN _ => [] end) ev.
Definition server_events (ev : list uevent) : list P2PServer.event := srv_events (node_events ev).

(** Peer p is being asked for piece i: the client has begun to ask for it, and has since then
    neither ended this nor begun again; [since]: what has happened since. *)
Definition asking (p : nat) (i : Z) (ev since : list uevent) : Prop :=
  exists before, ev = before ++ UN (NEv (P2PServer.EvRequest p i)) :: since /\
  forall j, ~ In (UN (NEv (P2PServer.EvRequest p j))) since /\ ~ In (UN (NEv (P2PServer.EvRequested p j))) since.

(** The messages written on the connection of p that are not REQUESTs, and the messages handled
    that came from it, in order: as seen on the connection, and as seen by the server. *)
Definition wire_sent (p : nat) (ev : list uevent) : list message :=
  flat_map (fun x => match x with KSent m => if m_type m =? REQUEST then [] else [m] | _ => [] end) (conn_events p ev).
(** All messages written to the connection of p, in order. *)
Definition written (p : nat) (ev : list uevent) : list message :=
  flat_map (fun x => match x with KSent m => [m] | _ => [] end) (conn_events p ev).
Definition told (p : nat) (ev : list nevent) : list message :=
  flat_map (fun x => match x with
                     | NEv (P2PServer.EvSent q m) | NServed q m => if Nat.eqb p q then [m] else []
                     | _ => []
                     end) ev.
Definition wire_handled (p : nat) (ev : list uevent) : list message :=
  flat_map (fun x => match x with KHandled m => [m] | _ => [] end) (conn_events p ev).
Definition heard (p : nat) (ev : list nevent) : list message :=
  flat_map (fun x => match x with NEv (P2PServer.EvReceived q m) => if Nat.eqb p q then [m] else [] | _ => [] end) ev.

Section Runs.
Variable sha1 : bytes -> bytes.
Variable cfg : config.
Variable env : nat -> Fs.choice.
Variable hash id : bytes.

(** As in NodeSpec.v: after any use of the disk, the program is started and goes through
    the actions l to c. *)
Definition client_run (f : fs) (l : list uaction) (c : client) (ev : list uevent) : Prop :=
  untouched cfg f /\
  exists tick ls w es blank, StorageSys.execs sha1 cfg env (StorageSys.Dead f tick) ls = Some (StorageSys.Running w [], es) /\
    bf_new (num_pieces (c_info cfg)) = Some blank /\ uruns sha1 cfg env hash id blank (ustart (StorageSys.Running w [])) l = Some (c, ev).
(** x bytes from offset b are one of the blocks piece i is fetched in: 16384 bytes from a
    multiple of 16384, less at the end. *)
Definition block_of (i b x : Z) : Prop := 0 <= i < num_pieces (c_info cfg) /\ tile (piece_size (c_info cfg) i) b x.
(** All blocks of piece i came from p among these events. *)
Definition all_came (p : nat) (i : Z) (ev : list uevent) : Prop :=
  forall b x, block_of i b x -> exists m, In (UK p (KRecv m)) ev /\ m_type m = PIECE /\ m_index m = i /\ m_begin m = b /\ zlen (m_piece m) = x.
End Runs.
