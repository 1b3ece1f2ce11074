(** C101: clients of this program among themselves.

    [swarm sha1 i ms link] (PeersSpec.v): ms are runs of the client for the torrent i, and
    what is read at one end of a connection was written at the other. *)
From Verif Require Import GoBase GoMap Bitfield BitfieldSpec PeerWire Metainfo MetainfoSpec Fs Storage StorageSpec StorageSysSpec Node NodeSpec P2PConn Client ClientSpec PeersSpec PeersProofs.
From Verif Require StorageHonestProofs P2PServerSpec PropServer PropStorage PropNode PropClient.
Import P2PServer StorageSys.

(** ** Examples: the torrent "abc" in pieces "ab" and "c"; a member that has it and one that
    does not *)
Notation ex_step id := (uexec PropStorage.ex_id PropNode.ex_cfg PropStorage.ex_env PropServer.ex_hash id PropServer.ex_none).
Notation ex_steps id := (uruns PropStorage.ex_id PropNode.ex_cfg PropStorage.ex_env PropServer.ex_hash id PropServer.ex_none).
Definition ex_start (ls : list label) : option client :=
  match execs PropStorage.ex_id PropNode.ex_cfg PropStorage.ex_env (Dead PropStorage.ex_fs 0) ls with
  | Some (Running w [], _) => Some (ustart (Running w []))
  | _ => None
  end.
(** As in PropClient.v: the steps on the connections that bring about the given steps. *)
Fixpoint drive (id : bytes) (fuel : nat) (c : client) (l : list uaction) : list uaction :=
  match fuel, l with
  | S fuel', a :: l' =>
      match (fix first (m : list uaction) (own : bool) := match m with
             | [] => None
             | b :: m' => match ex_step id c b with Some (c', _) => Some (b, c', own) | None => first m' false end
             end) (PropClient.moves c a) true with
      | Some (b, c', own) => b :: drive id fuel' c' (if own then l' else l)
      | None => l
      end
  | _, _ => l
  end.
Definition ex_member (id : bytes) (ls : list label) (l : list uaction) : option member :=
  match ex_start ls with
  | Some c => let l' := drive id 400 c l in
      match ex_steps id c l' with
      | Some (c', ev) => Some {| mb_cfg := PropNode.ex_cfg; mb_env := PropStorage.ex_env; mb_hash := PropServer.ex_hash; mb_id := id; mb_fs := PropStorage.ex_fs; mb_acts := l'; mb_state := c'; mb_events := ev |}
      | None => None
      end
  | None => None
  end.
Lemma ex_members id ls l x : ex_member id ls l = Some x -> member_run PropStorage.ex_id x /\ c_info (mb_cfg x) = PropStorage.ex_one /\ config_ok (mb_cfg x).
Proof.
  unfold ex_member, ex_start. intros H. destruct (execs _ _ _ _ _) as [[[w [|]|] es]|] eqn:E in H; try discriminate H. set (l' := drive _ _ _ _) in H. clearbody l'.
  cbv zeta in H. match type of H with match ?r with _ => _ end = _ => destruct r as [[c' ev]|] eqn:U; [|discriminate H] end. injection H as <-.
  split; [|split; [reflexivity|exact PropNode.ex_ok]]. split; [apply PropStorage.ex_ok; now left|]. exists O, ls, w, es, PropServer.ex_none. split; [exact E|]. split; [reflexivity|exact U].
Qed.
(** The one that has the torrent was stopped and started again after it had got it.  It lets
    the other ask for a piece. *)
Definition ex_full : list label := LStart :: PropStorage.ex_put 0 0 (bs "ab") ++ PropStorage.ex_put 1 1 (bs "c") ++ [LCrash; LStart].
Definition ex_serve : list uaction :=
  PropClient.nodes (PropNode.srv (AAccept PropServer.ex_ip 1000 :: PropServer.ex_connect 0 PropServer.ex_self ++ AUnchoke :: PropServer.go 1 2) ++
    PropNode.hear 0 (mk_bitfield PropServer.ex_none) ++ PropNode.hear 0 (mk_plain INTERESTED) ++
    PropNode.hear 0 (mk_request 0 0 2) ++ PropNode.call 0 1 ++ [NWrite 0 true]).
Definition ex_serves : list uaction := ex_serve ++ PropClient.nodes (PropNode.hear 0 (mk_request 1 0 1) ++ PropNode.call 0 1 ++ [NWrite 0 true]).
Definition ex_ask : list uaction :=
  PropClient.nodes (PropNode.srv (AAccept PropServer.ex_ip 1000 :: PropServer.ex_connect 0 PropServer.ex_a) ++
    PropNode.hear 0 (mk_bitfield [z2b 192]) ++ PropNode.srv (PropServer.go 0 11) ++
    PropNode.hear 0 (mk_plain UNCHOKE) ++ PropNode.srv (PropServer.go 0 2 ++ [AGo 1 COk; AGo 1 (CSort [] []); AGo 1 COk]) ++ PropNode.call 2 1) ++
  [UCall 2; UConn 0 2 KOk] ++ repeat (UConn 0 3 KOk) 4.
Definition ex_fetch : list uaction :=
  ex_ask ++
  PropClient.nodes (PropNode.hear 0 (mk_piece 0 0 (bs "ab")) ++ PropNode.call 0 3 ++ PropNode.call 2 2 ++
    PropNode.srv (AGo 2 (COrder [0]%nat) :: PropServer.go 2 5 ++ [AGo 3 COk; AGo 3 (CSort [] []); AGo 3 COk]) ++ PropNode.call 4 1) ++
  [UCall 4; UConn 0 5 KOk] ++ repeat (UConn 0 6 KOk) 4 ++
  PropClient.nodes (PropNode.hear 0 (mk_piece 1 0 (bs "c")) ++ PropNode.call 0 3 ++ PropNode.call 4 2 ++ PropNode.srv (AGo 4 (COrder [0]%nat) :: PropServer.go 4 5)).
(** The answer to the first request comes after its deadline, when the piece has just been
    asked for again. *)
Definition ex_late : list uaction :=
  ex_ask ++ [UConn 0 3 KErr; UConn 0 3 KOk; UConn 0 2 KOk] ++
  PropClient.nodes (PropNode.srv [AGo 2 CErr; AGo 2 COk; AGo 2 COk; AGo 3 COk; AGo 3 (CSort [] []); AGo 3 COk] ++ PropNode.hear 0 (mk_piece 0 0 (bs "ab")) ++ PropNode.call 0 3 ++ PropNode.call 4 1).
Definition ex_link (e : nat * nat) : nat * nat := match e with (O, O) => (1, 0) | (1, O) => (O, O) | _ => e end%nat.
Definition recvs (ev : list uevent) : list (nat * message) := flat_map (fun e => match e with UK p (KRecv m) => [(p, m)] | _ => [] end) ev.
Definition sents (ev : list uevent) : list (nat * message) := flat_map (fun e => match e with UK p (KSent m) => [(p, m)] | _ => [] end) ev.
Definition malformed (ev : list uevent) : list nat := flat_map (fun e => match e with UN (NEv (EvMalformed p)) => [p] | _ => [] end) ev.
Lemma recvs_in ev p m : In (UK p (KRecv m)) ev <-> In (p, m) (recvs ev).
Proof.
  unfold recvs. rewrite in_flat_map. split; [intros I; eexists; split; [exact I|now left]|]. intros (e & I & J). destruct e as [|q []]; try contradiction J. destruct J as [J|[]]. injection J as -> ->. exact I.
Qed.
Lemma sents_in ev p m : In (p, m) (sents ev) -> In (UK p (KSent m)) ev.
Proof. unfold sents. rewrite in_flat_map. intros (e & I & J). destruct e as [|q []]; try contradiction J. destruct J as [J|[]]. injection J as -> ->. exact I. Qed.
Lemma malformed_in ev p : In (UN (NEv (EvMalformed p))) ev -> In p (malformed ev).
Proof. unfold malformed. rewrite in_flat_map. intros I. eexists. split; [exact I|now left]. Qed.
Lemma ex_swarm l1 l2 x y :
  ex_member PropServer.ex_self [LStart] l1 = Some x -> ex_member PropServer.ex_a ex_full l2 = Some y ->
  (forall p m, In (p, m) (recvs (mb_events x)) -> p = O /\ In (O, m) (sents (mb_events y))) ->
  (forall p m, In (p, m) (recvs (mb_events y)) -> p = O /\ In (O, m) (sents (mb_events x))) ->
  malformed (mb_events x) = [] -> malformed (mb_events y) = [] -> swarm PropStorage.ex_id PropStorage.ex_one [x; y] ex_link.
Proof.
  intros Hx Hy X Y Mx My. split; [|split; [|split]].
  - intros z [<-|[<-|[]]]; [exact (ex_members _ _ _ _ Hx)|exact (ex_members _ _ _ _ Hy)].
  - intros [[|[|a]] [|b]]; reflexivity.
  - intros [|[|a]] z p m N I; cbn in N; [| |now destruct a]; injection N as <-; apply recvs_in in I.
    + destruct (X _ _ I) as [-> S]. exists y. split; [reflexivity|]. apply sents_in. exact S.
    + destruct (Y _ _ I) as [-> S]. exists x. split; [reflexivity|]. apply sents_in. exact S.
  - intros z p [<-|[<-|[]]] I; apply malformed_in in I; [rewrite Mx in I|rewrite My in I]; exact I.
Qed.
Ltac pieces := vm_compute; let X := fresh in intros ? ? X; repeat (destruct X as [X|X]; [injection X as <- <-; split; [reflexivity|repeat (try (left; reflexivity); right)]|]); destruct X.
Lemma ex_only : only_content PropStorage.ex_id PropStorage.ex_one (bs "abc").
Proof.
  split; [reflexivity|]. intros k K b B. unfold PropStorage.ex_id. change (num_pieces PropStorage.ex_one) with 2 in K. assert (k = 0 \/ k = 1) as [-> | ->] by lia.
  - change (piece_hash PropStorage.ex_one 0) with (bs "ab"). change (slice (bs "abc") _ _) with (bs "ab"). reflexivity.
  - change (piece_hash PropStorage.ex_one 1) with (bs "c"). change (slice (bs "abc") _ _) with (bs "c"). reflexivity.
Qed.
Lemma ex_fits : i_piece_length PropStorage.ex_one <= 2 ^ 63 - 16384. Proof. vm_compute. discriminate. Qed.

(** ** C101 *)
(** Whatever a member receives as a block is what the torrent has there. *)
Theorem C101_blocks_right :
  forall sha1 i ms link, swarm sha1 i ms link -> i_piece_length i <= 2 ^ 63 - 16384 -> forall c a x p m, only_content sha1 i c ->
  nth_error ms a = Some x -> In (UK p (KRecv m)) (mb_events x) -> m_type m = PIECE ->
  0 <= m_index m < num_pieces i /\ 0 <= m_begin m /\ m_begin m + zlen (m_piece m) <= piece_size i (m_index m) /\
  m_piece m = slice c (m_index m * i_piece_length i + m_begin m) (zlen (m_piece m)).
Proof.
  intros sha1 i ms link sw fits c a x p m OC N I T. destruct (member_ok _ _ _ _ sw _ _ N) as (_ & <- & _). destruct (swarm_blocks _ _ _ _ sw fits c a x p m OC N I T) as (K & (B & _ & L) & E). split; [exact K|]. split; [lia|]. split; [lia|exact E].
Qed.
Print Assumptions C101_blocks_right.
(** No piece fails its check, whatever goes wrong with the files, and nobody is blocked. *)
Theorem C101_checks_pass :
  forall sha1 i ms link, swarm sha1 i ms link -> i_piece_length i <= 2 ^ 63 - 16384 -> forall c a x t k b d n g h, only_content sha1 i c ->
  nth_error ms a = Some x -> ~ In (UN (NRet t (CPut k b d) (RErr (EChecksum n g h)))) (mb_events x).
Proof.
  intros sha1 i ms link sw fits c a x t k b d n g h OC N I. apply (swarm_no_mismatch _ _ _ _ sw fits c a x OC N). exists t, k, b, d, n, g, h. unfold node_events. apply in_flat_map. eexists. split; [exact I|now left].
Qed.
Print Assumptions C101_checks_pass.
Theorem C101_nobody_blocked :
  forall sha1 i ms link, swarm sha1 i ms link -> i_piece_length i <= 2 ^ 63 - 16384 -> forall c a x p, only_content sha1 i c ->
  nth_error ms a = Some x -> ~ In (UN (NEv (EvBlocked p))) (mb_events x).
Proof. exact swarm_no_block. Qed.
Print Assumptions C101_nobody_blocked.
(** No member receives a message about a piece or a place that does not exist. *)
Theorem C101_in_range :
  forall sha1 i ms link, swarm sha1 i ms link -> i_piece_length i <= 2 ^ 63 - 16384 -> forall a x p m,
  nth_error ms a = Some x -> In (UK p (KRecv m)) (mb_events x) -> ~ out_of_range (mb_cfg x) m.
Proof. exact swarm_in_range. Qed.
Print Assumptions C101_in_range.
(** A member that crashes had asked for a piece and then got it before the call that resets
    it had been made, or a file operation had failed in PutBlock. *)
Theorem C101_crash_partial :
  forall sha1 i ms link, swarm sha1 i ms link -> i_piece_length i <= 2 ^ 63 - 16384 -> forall c a x, only_content sha1 i c ->
  nth_error ms a = Some x -> crashed (u_node (mb_state x)) = true ->
  exists p k ev1 ev2, mb_events x = ev1 ++ UN (NEv (EvRequest p k)) :: ev2 /\ (forall u r, ~ In (UN (NRet u (CReset k) r)) ev2) /\ 0 <= k < num_pieces i /\
    (on_disk (mb_cfg x) (disk (u_node (mb_state x))) k <> None \/ exists t b d, In (UN (NRet t (CPut k b d) (RErr EIO))) (mb_events x)).
Proof. exact swarm_crash. Qed.
Print Assumptions C101_crash_partial.
(** One member fetches the whole torrent from the other. *)
Example C101_case : exists x y, swarm PropStorage.ex_id PropStorage.ex_one [x; y] ex_link /\ i_piece_length PropStorage.ex_one <= 2 ^ 63 - 16384 /\ only_content PropStorage.ex_id PropStorage.ex_one (bs "abc") /\
  In (UK 0 (KRecv (mk_piece 0 0 (bs "ab")))) (mb_events x) /\ In (UK 0 (KRecv (mk_piece 1 0 (bs "c")))) (mb_events x) /\
  In (UK 0 (KRecv (mk_request 1 0 1))) (mb_events y) /\ content (mb_cfg x) (disk (u_node (mb_state x))) = Some (bs "abc").
Proof.
  eexists. eexists. split; [apply (ex_swarm ex_fetch ex_serves); [vm_compute; reflexivity|vm_compute; reflexivity|pieces|pieces|vm_compute; reflexivity|vm_compute; reflexivity]|].
  split; [exact ex_fits|]. split; [exact ex_only|]. repeat (split; [PropNode.among|]). vm_compute. reflexivity.
Qed.
(** A member does crash, with no failure of any file operation: the answer to a request comes
    after its deadline, when the piece has just been asked for again. *)
Theorem C101_no_crash_refuted :
  exists x y, swarm PropStorage.ex_id PropStorage.ex_one [x; y] ex_link /\ i_piece_length PropStorage.ex_one <= 2 ^ 63 - 16384 /\ only_content PropStorage.ex_id PropStorage.ex_one (bs "abc") /\
  (forall t, ch_fail (mb_env x t) = false /\ ch_fail (mb_env y t) = false) /\ crashed (u_node (mb_state x)) = true.
Proof.
  eexists. eexists. split; [apply (ex_swarm ex_late ex_serve); [vm_compute; reflexivity|vm_compute; reflexivity|pieces|pieces|vm_compute; reflexivity|vm_compute; reflexivity]|].
  split; [exact ex_fits|]. split; [exact ex_only|]. split; [intros t; split; reflexivity|]. vm_compute. reflexivity.
Qed.
Print Assumptions C101_no_crash_refuted.
