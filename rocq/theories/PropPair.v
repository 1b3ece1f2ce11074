(** C118: a client of the program gets the torrent from another.

    [together ... c1 c2 s d1 d2 s'] (PairSpec.v): both run, step by step in any order. Peer 0 of
    each is the other. What one writes the other reads, in order; s is what was written and not
    yet read. In the handshake each reads what the other one sends. *)
From Verif Require Import GoBase Bitfield BitfieldSpec PeerWire NetIP Tracker TrackerSpec Metainfo MetainfoSpec Fs Storage StorageSpec StorageSysSpec StorageHealthSpec Node NodeSpec P2PConn P2PServer Client ClientSpec DownloadSpec PairSpec PairProofs.
From Verif Require TrackerProofs PropStorage PropServer PropHealth PropDownload.
Import StorageSys.

(** ** C118 *)
(** Two clients with the same torrent, each with its own directories on a disk that works,
    after whatever was downloaded before and however often the processes were killed. The
    first lacks a piece. The second has all, and is told the address of the first, an IPv4
    address. There is a run of both in which nothing crashes, all that was written was read,
    each has just one peer, which is the other, and at the end the first has the content in
    place with the right hashes. The pieces it lacked are those of the second, whose content
    is unchanged. *)
Theorem C118_client_gets_torrent_from_client :
  forall sha1 cfg1 cfg2 env1 env2, c_info cfg2 = c_info cfg1 -> config_ok cfg1 -> config_ok cfg2 -> works env1 -> works env2 -> files_fit cfg1 -> files_fit cfg2 ->
  forall hash id1 id2 blank f1 tick1 ls1 w1 es1 f2 tick2 ls2 w2 es2 tp x1 x2 x3 x4 ip port,
  untouched cfg1 f1 -> roomy cfg1 env1 f1 -> untouched cfg2 f2 -> roomy cfg2 env2 f2 ->
  StorageSys.execs sha1 cfg1 env1 (Dead f1 tick1) ls1 = Some (Running w1 [], es1) ->
  StorageSys.execs sha1 cfg2 env2 (Dead f2 tick2) ls2 = Some (Running w2 [], es2) ->
  (exists k, 0 <= k < num_pieces (c_info cfg1) /\ ~ member (advertised w1) k) -> (forall k, 0 <= k < num_pieces (c_info cfg1) -> member (advertised w2) k) ->
  bf_new (num_pieces (c_info cfg1)) = Some blank -> num_pieces (c_info cfg1) <= 2 ^ 32 -> i_piece_length (c_info cfg1) <= 2 ^ 32 ->
  List.length hash = 20%nat -> List.length id1 = 20%nat -> List.length id2 = 20%nat -> id1 <> id2 ->
  dotted x1 x2 x3 x4 (p_ip tp) -> 0 <= p_port tp <= 65535 -> p_id tp = [] \/ p_id tp = id1 ->
  exists u1 u2 w1' ts1 w2' ts2 c1 c2, together sha1 cfg1 cfg2 env1 env2 hash id1 id2 blank (ustart (Running w1 [])) (ustart (Running w2 [])) ([], []) u1 u2 ([], []) /\
    s_crashed (srv u1) = false /\ s_crashed (srv u2) = false /\
    (exists q, s_peers (srv u1) = [q] /\ q_id q = id2 /\ q_ip q = ip /\ q_port q = port) /\
    (exists q, s_peers (srv u2) = [q] /\ q_id q = id1 /\ q_ip q = ipv4 [x1; x2; x3; x4] /\ q_port q = p_port tp) /\
    n_sto (u_node u1) = Running w1' ts1 /\ n_sto (u_node u2) = Running w2' ts2 /\
    content cfg1 (w_fs w1') = Some c1 /\ whole sha1 cfg1 c1 /\ content cfg2 (w_fs w2) = Some c2 /\ content cfg2 (w_fs w2') = Some c2 /\
    forall k, 0 <= k < num_pieces (c_info cfg1) -> ~ member (advertised w1) k ->
      slice c1 (k * i_piece_length (c_info cfg1)) (piece_size (c_info cfg1) k) = slice c2 (k * i_piece_length (c_info cfg1)) (piece_size (c_info cfg1) k).
Proof. exact client_feeds_client. Qed.
Print Assumptions C118_client_gets_torrent_from_client.
(** The torrent "abc" in pieces "ab" and "c". The first client has stored "ab" and was killed;
    the second has stored both. *)
Definition ex_seeded : list label := LStart :: PropStorage.ex_put 0 0 (bs "ab") ++ PropStorage.ex_put 1 1 (bs "c") ++ [LCrash; LStart].
Example C118_case : exists w1 es1 w2 es2, config_ok (PropStorage.ex_cfg PropStorage.ex_two) /\ works PropHealth.ex_disk /\ files_fit (PropStorage.ex_cfg PropStorage.ex_two) /\
  untouched (PropStorage.ex_cfg PropStorage.ex_two) PropStorage.ex_fs /\ roomy (PropStorage.ex_cfg PropStorage.ex_two) PropHealth.ex_disk PropStorage.ex_fs /\
  StorageSys.execs PropStorage.ex_id (PropStorage.ex_cfg PropStorage.ex_two) PropHealth.ex_disk (Dead PropStorage.ex_fs 0) PropDownload.ex_before = Some (Running w1 [], es1) /\
  StorageSys.execs PropStorage.ex_id (PropStorage.ex_cfg PropStorage.ex_two) PropHealth.ex_disk (Dead PropStorage.ex_fs 0) ex_seeded = Some (Running w2 [], es2) /\
  (exists k, 0 <= k < num_pieces PropStorage.ex_two /\ ~ member (advertised w1) k) /\ (forall k, 0 <= k < num_pieces PropStorage.ex_two -> member (advertised w2) k) /\
  bf_new (num_pieces PropStorage.ex_two) = Some PropServer.ex_none /\ num_pieces PropStorage.ex_two <= 2 ^ 32 /\ i_piece_length PropStorage.ex_two <= 2 ^ 32 /\
  List.length PropServer.ex_hash = 20%nat /\ List.length PropServer.ex_a = 20%nat /\ List.length PropServer.ex_b = 20%nat /\ PropServer.ex_a <> PropServer.ex_b /\
  (exists x1 x2 x3 x4, dotted x1 x2 x3 x4 (p_ip (PropServer.ex_at 1000))) /\ p_id (PropServer.ex_at 1000) = [].
Proof.
  destruct (PropStorage.ex_ok PropStorage.ex_two (or_intror eq_refl)) as [O U]. destruct (PropHealth.ex_healthy PropStorage.ex_two (or_intror eq_refl)) as (W & R & F).
  do 4 eexists. split; [exact O|]. split; [exact W|]. split; [exact F|]. split; [exact U|]. split; [exact R|]. split; [vm_compute; reflexivity|]. split; [vm_compute; reflexivity|].
  split; [exists 1; split; [cbn; lia|]; intros (_ & x & X & B); injection X as <-; discriminate B|].
  split. { intros k Hk. change (num_pieces PropStorage.ex_two) with 2 in Hk. assert (D : k = 0 \/ k = 1) by lia. destruct D as [D|D]; subst k; (split; [lia|eexists; split; reflexivity]). }
  split; [reflexivity|]. split; [cbn; lia|]. split; [cbn; lia|]. do 3 (split; [reflexivity|]). split; [discriminate|]. split; [|reflexivity]. exists x01, x02, x03, x04. apply TrackerProofs.dotted_show. reflexivity.
Qed.
