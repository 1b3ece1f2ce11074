(** C117: a torrent can be downloaded.

    [seeder cfg c tr] (DownloadSpec.v): the messages read from a connection with the traffic
    tr are those of a peer that has the content c. It sends the bitfield of all pieces,
    unchokes who is interested, and answers requests with the bytes of the content. *)
From Verif Require Import GoBase Bitfield BitfieldSpec PeerWire Metainfo MetainfoSpec Fs Storage StorageSpec StorageSysSpec StorageHealthSpec Node NodeSpec P2PConn P2PServer Client ClientSpec DownloadSpec DownloadMainProofs.
From Verif Require StorageHonestProofs PropStorage PropServer PropHealth.
Import StorageSys.

(** ** C117 *)
(** The client is started on a disk that works, whatever was downloaded before and however
    often the process was killed. One peer connects, at whatever address. There is a run of
    the client in which that peer does only what a seeder does, nothing crashes, and at the
    end the content of the torrent is in place with the right hashes; the pieces that were
    missing at the start are those of the seeder. *)
Theorem C117_torrent_can_be_downloaded :
  forall sha1 cfg env, config_ok cfg -> works env -> files_fit cfg -> forall c, whole sha1 cfg c ->
  forall hash id blank ip rid port f tick ls w es, untouched cfg f -> roomy cfg env f ->
  StorageSys.execs sha1 cfg env (Dead f tick) ls = Some (Running w [], es) ->
  bf_new (num_pieces (c_info cfg)) = Some blank -> List.length hash = 20%nat -> List.length rid = 20%nat -> rid <> id ->
  num_pieces (c_info cfg) <= 2 ^ 32 -> i_piece_length (c_info cfg) <= 2 ^ 32 ->
  exists l u ev w' ts' d, uruns sha1 cfg env hash id blank (ustart (Running w [])) l = Some (u, ev) /\ s_crashed (srv u) = false /\
    seeder cfg c (traffic 0 ev) /\ (forall q, In q (s_peers (srv u)) -> q_id q = rid /\ q_ip q = ip /\ q_port q = port) /\
    n_sto (u_node u) = Running w' ts' /\ content cfg (w_fs w') = Some d /\ whole sha1 cfg d /\
    forall k, 0 <= k < num_pieces (c_info cfg) -> ~ member (advertised w) k ->
      slice d (k * i_piece_length (c_info cfg)) (piece_size (c_info cfg) k) = slice c (k * i_piece_length (c_info cfg)) (piece_size (c_info cfg) k).
Proof. exact download. Qed.
Print Assumptions C117_torrent_can_be_downloaded.
(** The torrent "abc" in pieces "ab" and "c"; an earlier run has stored the first and was killed. *)
Definition ex_before : list label := LStart :: PropStorage.ex_put 0 0 (bs "ab") ++ [LCrash; LStart].
Example C117_case : exists w es, config_ok (PropStorage.ex_cfg PropStorage.ex_two) /\ works PropHealth.ex_disk /\ files_fit (PropStorage.ex_cfg PropStorage.ex_two) /\
  whole PropStorage.ex_id (PropStorage.ex_cfg PropStorage.ex_two) (bs "abc") /\ untouched (PropStorage.ex_cfg PropStorage.ex_two) PropStorage.ex_fs /\ roomy (PropStorage.ex_cfg PropStorage.ex_two) PropHealth.ex_disk PropStorage.ex_fs /\
  StorageSys.execs PropStorage.ex_id (PropStorage.ex_cfg PropStorage.ex_two) PropHealth.ex_disk (Dead PropStorage.ex_fs 0) ex_before = Some (Running w [], es) /\
  bf_new (num_pieces PropStorage.ex_two) = Some PropServer.ex_none /\ List.length PropServer.ex_hash = 20%nat /\ num_pieces PropStorage.ex_two <= 2 ^ 32 /\ i_piece_length PropStorage.ex_two <= 2 ^ 32 /\
  member (advertised w) 0 /\ ~ member (advertised w) 1.
Proof.
  destruct (PropStorage.ex_ok PropStorage.ex_two (or_intror eq_refl)) as [O U]. destruct (PropHealth.ex_healthy PropStorage.ex_two (or_intror eq_refl)) as (W & R & F).
  do 2 eexists. split; [exact O|]. split; [exact W|]. split; [exact F|]. split; [exact (proj1 PropHealth.C84_case)|]. split; [exact U|]. split; [exact R|]. split; [vm_compute; reflexivity|].
  split; [reflexivity|]. split; [reflexivity|]. split; [cbn; lia|]. split; [cbn; lia|]. split; [split; [lia|eexists; split; reflexivity]|]. intros (_ & x & X & B). injection X as <-. discriminate B.
Qed.
