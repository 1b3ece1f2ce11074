(** C60, C75-C79: the whole program, server and storage together.

    [node_run sha1 cfg env hash id f l n ev]: on a disk that once was f, without a trace of
    the torrent, and after any use of the storage with crashes and restarts, the program is
    started and can go through the actions l (steps of its goroutines in any order,
    connections, messages, failures of file operations) to n, with the events ev. *)
From Verif Require Import GoBase GoMap Bitfield BitfieldSpec PeerWire PeerWireSpec PeerWireProofs Metainfo MetainfoSpec Fs Storage StorageSpec StorageSysSpec Node NodeSpec NodeThms.
From Verif Require P2PServerSpec PropServer PropStorage.
Import P2PServer StorageSys.

(** ** Examples: the torrent "abc" in pieces "ab" and "c"; nothing is stored *)
Definition ex_cfg : config := PropStorage.ex_cfg PropStorage.ex_one.
Definition ex_go (l : list naction) : option (node * list nevent) :=
  match execs PropStorage.ex_id ex_cfg PropStorage.ex_env (Dead PropStorage.ex_fs 0) [LStart] with
  | Some (Running w [], _) => nruns PropStorage.ex_id ex_cfg PropStorage.ex_env PropServer.ex_hash PropServer.ex_self PropServer.ex_none (nstart (Running w [])) l
  | _ => None
  end.
Notation ex_run_of := (node_run PropStorage.ex_id ex_cfg PropStorage.ex_env PropServer.ex_hash PropServer.ex_self PropStorage.ex_fs).
Lemma ex_ok : config_ok ex_cfg. Proof. apply PropStorage.ex_ok. now left. Qed.
Lemma ex_runs l n ev : ex_go l = Some (n, ev) -> ex_run_of l n ev.
Proof.
  unfold ex_go. intros H. split; [apply PropStorage.ex_ok; now left|].
  destruct (execs _ _ _ _ _) as [[[w [|]|] es]|] eqn:E in H; try discriminate H.
  exists O, [LStart], w, es, PropServer.ex_none. split; [exact E|]. split; [reflexivity|exact H].
Qed.
(** Steps of the server; goroutine t makes its call, which takes k steps. *)
Definition srv (l : list action) : list naction := map NServer l.
Definition call (t k : nat) : list naction := NCall t :: repeat (NStep t) k.
Definition hear (t : nat) (m : message) : list naction := srv (PropServer.ex_hear t m).
Ltac run l := exists l; eexists; eexists; split; [apply ex_runs; vm_compute; reflexivity|].
Ltac among := vm_compute; repeat (try (left; reflexivity); right).
Ltac absent := vm_compute; let X := fresh in intros X; repeat (destruct X as [X|X]; [discriminate X|]); exact X.
(** Peer 0 announces piece 0 and is asked for it (goroutine 2); peer 1 connects. *)
Definition ex_asked : list naction :=
  srv PropServer.ex_request ++ srv (AAccept PropServer.ex_ip 2000 :: PropServer.ex_connect 3 PropServer.ex_b) ++ call 2 1.
(** ... peer 0 sends the piece, it is stored, a HAVE is sent to both, and peer 1 asks for a
    part of it. *)
Definition ex_served : list naction :=
  ex_asked ++ hear 0 (mk_piece 0 0 (bs "ab")) ++ call 0 3 ++ call 2 2 ++ srv (AGo 2 (COrder [0; 1]%nat) :: PropServer.go 2 4) ++
  hear 3 (mk_request 0 1 1) ++ call 3 2 ++ [NWrite 3 true].
(** ... peer 1 sends wrong data for it. *)
Definition ex_corrupt : list naction := ex_asked ++ hear 3 (mk_piece 0 0 (bs "xy")) ++ call 3 3 ++ call 2 2 ++ srv [AGo 2 COk].

(** ** The two models fit together: a goroutine that has come to a call of the storage can
    make it, and whatever a step of the call gives, the server goes on with it; a block it got is sent or not.  All messages that
    ReadMessage returns have fields in the range assumed for received ones. *)
Theorem node_calls :
  forall sha1 cfg env hash id, config_ok cfg -> forall f l n ev t c, node_run sha1 cfg env hash id f l n ev -> crashed n = false ->
  at_call n t = Some c -> exists n', node_run sha1 cfg env hash id f (l ++ [NCall t]) n' ev /\ n_srv n' = n_srv n.
Proof. exact composed. Qed.
Print Assumptions node_calls.
Theorem node_answers :
  forall sha1 cfg env hash id, config_ok cfg -> forall f l n ev blank t j x, node_run sha1 cfg env hash id f l n ev ->
  bf_new (num_pieces (c_info cfg)) = Some blank -> crashed n = false -> mget Nat.eqb t (n_jobs n) = Some (JCall j) ->
  exec sha1 cfg env (n_sto n) (LStep j) = Some x -> nexec sha1 cfg env hash id blank n (NStep t) <> None.
Proof. exact composed_steps. Qed.
Print Assumptions node_answers.
Theorem node_writes :
  forall sha1 cfg env hash id, config_ok cfg -> forall f l n ev blank t d k, node_run sha1 cfg env hash id f l n ev ->
  bf_new (num_pieces (c_info cfg)) = Some blank -> crashed n = false -> mget Nat.eqb t (n_jobs n) = Some (JBlock d) ->
  nexec sha1 cfg env hash id blank n (NWrite t k) <> None.
Proof. exact composed_writes. Qed.
Print Assumptions node_writes.
Theorem node_messages : forall r m r', read_message r = Ok (m, r') -> on_wire m = true.
Proof. exact read_on_wire. Qed.
Print Assumptions node_messages.

(** ** C60 *)
(** The program crashes only for: a frame too short for its type; a message that names a
    piece that does not exist, or no place in it; or a piece requested that, before the
    request came to reset it, was complete or had failed. *)
Theorem C60_crashes_partial :
  forall sha1 cfg env hash id, config_ok cfg -> forall f l n ev, node_run sha1 cfg env hash id f l n ev -> crashed n = true -> cause cfg n ev.
Proof. exact crash_causes. Qed.
Print Assumptions C60_crashes_partial.
(** A HAVE for a piece beyond the last, after the handshake. *)
Theorem C60_have_crashes_refuted :
  exists l n ev, ex_run_of l n ev /\ crashed n = true /\ received ev 0 (mk_have 8) /\ forall m, received ev 0 m -> m = mk_have 8.
Proof.
  run (srv (AAccept PropServer.ex_ip 1000 :: PropServer.ex_connect 0 PropServer.ex_a) ++ hear 0 (mk_have 8) ++ srv [AGo 0 COk]).
  split; [vm_compute; reflexivity|]. split; [among|]. intros m H. vm_compute in H. repeat (destruct H as [H|H]; [try discriminate H; now injection H|]). destruct H.
Qed.
Print Assumptions C60_have_crashes_refuted.
(** A REQUEST for a piece beyond the last, from a peer that is not choked. *)
Theorem C60_request_crashes_refuted :
  exists l n ev, ex_run_of l n ev /\ crashed n = true /\ received ev 0 (mk_request 2 0 1) /\ forall m, received ev 0 m -> m = mk_request 2 0 1.
Proof.
  run (srv (AAccept PropServer.ex_ip 1000 :: PropServer.ex_connect 0 PropServer.ex_a ++ [AUnchoke; AGo 1 COk; AGo 1 COk]) ++ hear 0 (mk_request 2 0 1) ++ call 0 1).
  split; [vm_compute; reflexivity|]. split; [among|]. intros m H. vm_compute in H. repeat (destruct H as [H|H]; [try discriminate H; now injection H|]). destruct H.
Qed.
Print Assumptions C60_request_crashes_refuted.
(** A frame cut short: the five bytes are a HAVE without an index. *)
Theorem C60_short_frame_crashes_refuted :
  (exists l n ev, ex_run_of l n ev /\ crashed n = true /\ In (NEv (EvMalformed 0)) ev) /\ read_message [[x00; x00; x00; x01; x04]] = Panic.
Proof.
  split; [|reflexivity]. run (srv (AAccept PropServer.ex_ip 1000 :: PropServer.ex_connect 0 PropServer.ex_a ++ [AGo 0 COk; AGo 0 CPanic])). split; [vm_compute; reflexivity|among].
Qed.
Print Assumptions C60_short_frame_crashes_refuted.

(** ** C79 *)
(** An honest peer can crash the program (C79_honest_peers_crash_refuted in PropClient.v). *)
(** With messages in range, pieces not failing, and no piece completed
    between a request for it and its reset, the program does not crash. *)
Theorem C79_no_crash_partial :
  forall sha1 cfg env hash id, config_ok cfg -> forall f l n ev, node_run sha1 cfg env hash id f l n ev ->
  (forall p, ~ In (NEv (EvMalformed p)) ev) -> (forall p m, received ev p m -> ~ out_of_range cfg m) ->
  (forall t k b d e, In (NRet t (CPut k b d) (RErr e)) ev -> e <> EIO /\ forall x g h, e <> EChecksum x g h) ->
  (forall p i ev1 ev2, ev = ev1 ++ NEv (EvRequest p i) :: ev2 -> (exists t r, In (NRet t (CReset i) r) ev2) \/ on_disk cfg (disk n) i = None) ->
  crashed n = false.
Proof.
  intros sha1 cfg env hash id ok f l n ev R A B D E. destruct (crashed n) eqn:C; [exfalso|reflexivity].
  destruct (crash_causes _ _ _ _ _ ok _ _ _ _ R C) as [(p & X)|[(p & m & X & Y)|(p & i & ev1 & ev2 & X & Y & K & [Z|(t & b & d & e & Z & [W|(x & g & h & W)])])]].
  - exact (A _ X).
  - exact (B _ _ X Y).
  - destruct (E _ _ _ _ X) as [(t & r & V)|V]; [exact (Y _ _ V)|exact (Z V)].
  - destruct (D _ _ _ _ _ Z) as [V _]. exact (V W).
  - destruct (D _ _ _ _ _ Z) as [_ V]. exact (V _ _ _ W).
Qed.
Print Assumptions C79_no_crash_partial.
(** Piece 0 is requested, stored and uploaded. *)
Example C79_case : exists l n ev, ex_run_of l n ev /\
  (forall p, ~ In (NEv (EvMalformed p)) ev) /\ (forall p m, received ev p m -> ~ out_of_range ex_cfg m) /\
  (forall t k b d e, In (NRet t (CPut k b d) (RErr e)) ev -> e <> EIO /\ forall x g h, e <> EChecksum x g h) /\
  (forall p i ev1 ev2, ev = ev1 ++ NEv (EvRequest p i) :: ev2 -> (exists t r, In (NRet t (CReset i) r) ev2) \/ on_disk ex_cfg (disk n) i = None) /\
  In (NEv (EvStored 0)) ev /\ In (NEv (EvRequest 0 0)) ev /\ on_disk ex_cfg (disk n) 0 = Some (bs "ab").
Proof.
  run ex_served. split; [intros p; absent|]. split.
  { intros p m H. assert (G : In m [mk_have 0; mk_plain UNCHOKE; mk_piece 0 0 (bs "ab"); mk_request 0 1 1]).
    { vm_compute in H. repeat (destruct H as [H|H]; [try discriminate H; injection H as <- <-; among|]). destruct H. }
    destruct G as [<-|[<-|[<-|[<-|[]]]]]; intros [[X Y]|[[X [i [_ Y]]]|[[X Y]|[X [Y|Y]]]]]; try discriminate X; vm_compute in Y; congruence. }
  split; [intros t k b d e H; exfalso; revert H; absent|]. split; [|split; [among|split; [among|vm_compute; reflexivity]]].
  intros p i ev1 ev2 E. left. repeat (destruct ev1 as [|? ev1]; [try discriminate E; injection E as <- <- <-; do 2 eexists; among|cbn [app] in E; injection E as _ E]). destruct ev1; discriminate E.
Qed.

(** ** C75 *)
(** Every PIECE sent answers a REQUEST of that peer and has the requested length; if the
    range lies in the piece, its bytes are those of the piece on the disk, which has the
    right hash; otherwise still bytes of the torrent. *)
Theorem C75_uploads_are_genuine :
  forall sha1 cfg env hash id, config_ok cfg -> forall f l n ev p x, node_run sha1 cfg env hash id f l n ev -> In (NServed p x) ev ->
  exists m d, received ev p m /\ m_type m = REQUEST /\ x = mk_piece (m_index m) (m_begin m) d /\ zlen d = m_length m /\
    (in_piece cfg (m_index m) (m_begin m) (m_length m) ->
       exists c, on_disk cfg (disk n) (m_index m) = Some c /\ verified sha1 cfg (m_index m) c /\ d = slice c (m_begin m) (m_length m)) /\
    (d = [] \/ (exists c s, whole sha1 cfg c /\ 0 <= s /\ s + m_length m <= zlen c /\ d = slice c s (m_length m)) \/
     (exists c, 0 <= m_index m < num_pieces (c_info cfg) /\ verified sha1 cfg (m_index m) c /\ 0 <= m_begin m /\ m_begin m + m_length m <= zlen c /\ d = slice c (m_begin m) (m_length m))).
Proof. exact uploads. Qed.
Print Assumptions C75_uploads_are_genuine.
Example C75_case : exists l n ev, ex_run_of l n ev /\ In (NServed 1 (mk_piece 0 1 (bs "b"))) ev /\ in_piece ex_cfg 0 1 1.
Proof. run ex_served. split; [among|vm_compute; repeat split; discriminate]. Qed.

(** ** C76 *)
(** Every piece announced by a HAVE or BITFIELD is on the disk with the right hash, then
    and from then on. *)
Theorem C76_announced_pieces_are_verified :
  forall sha1 cfg env hash id, config_ok cfg -> forall f l n ev p m i, node_run sha1 cfg env hash id f l n ev ->
  In (NEv (EvSent p m)) ev -> 0 <= i -> P2PServerSpec.announces_piece m i ->
  i < num_pieces (c_info cfg) /\ exists c, on_disk cfg (disk n) i = Some c /\ verified sha1 cfg i c.
Proof. exact advertised_verified. Qed.
Print Assumptions C76_announced_pieces_are_verified.
Example C76_case : exists l n ev, ex_run_of l n ev /\ In (NEv (EvSent 1 (mk_have 0))) ev /\ P2PServerSpec.announces_piece (mk_have 0) 0.
Proof. run ex_served. split; [among|]. left. split; reflexivity. Qed.

(** ** C77 *)
(** A peer is blocked only if a piece it was asked for then failed its check, the last block
    being one that some peer sent. *)
Theorem C77_blocked_after_failure_partial :
  forall sha1 cfg env hash id, config_ok cfg -> forall f l n ev p, node_run sha1 cfg env hash id f l n ev -> In (NEv (EvBlocked p)) ev ->
  exists i, blamed ev p i /\ exists q m t x g h, received ev q m /\ m_type m = PIECE /\ m_index m = i /\ In (NRet t (CPut i (m_begin m) (m_piece m)) (RErr (EChecksum x g h))) ev.
Proof. exact blocked_after. Qed.
Print Assumptions C77_blocked_after_failure_partial.
Example C77_case : exists l n ev, ex_run_of l n ev /\ In (NEv (EvBlocked 0)) ev.
Proof. run ex_corrupt. among. Qed.
(** ** C78 *)
(** False of the code: a piece that failed its check is never stored by this process, and
    the next request for it makes it crash. *)
Theorem C78_corrupt_piece_stays_missing :
  forall sha1 cfg env hash id, config_ok cfg -> forall f l n ev t k b d x g h, node_run sha1 cfg env hash id f l n ev -> crashed n = false ->
  In (NRet t (CPut k b d) (RErr (EChecksum x g h))) ev -> ~ stored cfg n k /\ ~ member (s_have (n_srv n)) k.
Proof. exact corrupt_stays. Qed.
Print Assumptions C78_corrupt_piece_stays_missing.
Theorem C78_corrupt_piece_crashes :
  forall sha1 cfg env hash id, config_ok cfg -> forall f l n ev t k b d x g h u, node_run sha1 cfg env hash id f l n ev -> crashed n = false ->
  In (NRet t (CPut k b d) (RErr (EChecksum x g h))) ev -> at_call n u = Some (CReset k) ->
  exists n', node_run sha1 cfg env hash id f (l ++ [NCall u; NStep u]) n' ev /\ crashed n' = true.
Proof. exact corrupt_crashes. Qed.
Print Assumptions C78_corrupt_piece_crashes.
(** Peer 1 says it has the piece too, and is asked for it after peer 0 was blocked. *)
Definition ex_again : list naction :=
  srv PropServer.ex_request ++ srv (AAccept PropServer.ex_ip 2000 :: PropServer.ex_connect 3 PropServer.ex_b ++ PropServer.ex_hear 3 (mk_have 0) ++ PropServer.go 3 6 ++ PropServer.ex_hear 3 (mk_plain UNCHOKE) ++ PropServer.go 3 2) ++ call 2 1 ++
  hear 0 (mk_piece 0 0 (bs "xy")) ++ call 0 3 ++ call 2 2 ++ srv (PropServer.go 2 3).
Example C78_case : exists l n ev, ex_run_of l n ev /\ crashed n = false /\ In (NRet 0 (CPut 0 0 (bs "xy")) (RErr (EChecksum 0 (bs "xy") (bs "ab")))) ev /\ at_call n 6 = Some (CReset 0).
Proof. run (ex_again ++ srv [AGo 4 COk; AGo 4 (CSort [] []); AGo 4 COk]). split; [vm_compute; reflexivity|]. split; [among|vm_compute; reflexivity]. Qed.
