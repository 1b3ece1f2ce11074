(** C77 and C79 (in part), C95-C97: the client, that is the server, its storage and all its
    connections together.

    [client_run sha1 cfg env hash id f l c ev]: as [node_run], with what happens on each
    connection: the remotes send what they like, the goroutines of the connections take
    their steps in any order with those of the server. *)
From Verif Require Import GoBase GoMap Bitfield BitfieldSpec PeerWire Metainfo MetainfoSpec Fs Storage StorageSpec StorageSysSpec Node NodeSpec P2PConn P2PConnSpec P2PConnProofs P2PAskProofs Client ClientSpec ClientProofs ClientWantProofs.
From Verif Require P2PServerSpec PropServer PropStorage PropNode PropConn.
Import P2PServer StorageSys.

(** ** Examples: the torrent "abc" in pieces "ab" and "c"; nothing is stored *)
Notation ex_step := (uexec PropStorage.ex_id PropNode.ex_cfg PropStorage.ex_env PropServer.ex_hash PropServer.ex_self PropServer.ex_none).
Notation ex_steps := (uruns PropStorage.ex_id PropNode.ex_cfg PropStorage.ex_env PropServer.ex_hash PropServer.ex_self PropServer.ex_none).
Notation ex_run_of := (client_run PropStorage.ex_id PropNode.ex_cfg PropStorage.ex_env PropServer.ex_hash PropServer.ex_self PropStorage.ex_fs).
Definition ex_start : option client :=
  match execs PropStorage.ex_id PropNode.ex_cfg PropStorage.ex_env (Dead PropStorage.ex_fs 0) [LStart] with
  | Some (Running w [], _) => Some (ustart (Running w []))
  | _ => None
  end.
(** The steps on the connections that bring about the given steps of the server. *)
Definition conn_moves (c : client) : list uaction :=
  concat (map (fun p => match nth_error (u_conns c) p with Some K => map (fun k => UConn p k KOk) (seq 0 (List.length (k_threads K))) | None => [] end) (seq 0 (List.length (u_conns c)))).
Definition moves (c : client) (a : uaction) : list uaction :=
  a :: match a with
       | UNode (NServer (AGo t ch)) =>
           UCall t :: match ch, thread_of c t with CMsg m, Some (THandler p HReceive) => [UConn p 0 KOk; UConn p 0 (KMsg m)] | _, _ => [] end ++ conn_moves c
       | UNode (NCall t) => UCall t :: conn_moves c
       | UNode _ => conn_moves c
       | _ => []
       end.
Fixpoint drive (fuel : nat) (c : client) (l : list uaction) : list uaction :=
  match fuel, l with
  | S fuel', a :: l' =>
      match (fix first (m : list uaction) (own : bool) := match m with
             | [] => None
             | b :: m' => match ex_step c b with Some (c', _) => Some (b, c', own) | None => first m' false end
             end) (moves c a) true with
      | Some (b, c', own) => b :: drive fuel' c' (if own then l' else l)
      | None => l
      end
  | _, _ => l
  end.
Definition ex_drive (l : list uaction) : list uaction := match ex_start with Some c => drive 400 c l | None => [] end.
Lemma ex_runs l c ev : match ex_start with Some c0 => ex_steps c0 l | None => None end = Some (c, ev) -> ex_run_of l c ev.
Proof.
  unfold ex_start. intros H. split; [apply PropStorage.ex_ok; now left|].
  destruct (execs _ _ _ _ _) as [[[w [|]|] es]|] eqn:E in H; try discriminate H.
  exists O, [LStart], w, es, PropServer.ex_none. split; [exact E|]. split; [reflexivity|exact H].
Qed.
Lemma ex_fits : i_piece_length (c_info PropNode.ex_cfg) <= 2 ^ 63 - 16384. Proof. vm_compute. discriminate. Qed.
Ltac run l := exists (ex_drive l); eexists; eexists; split; [apply ex_runs; vm_compute; reflexivity|].
Definition nodes (l : list naction) : list uaction := map UNode l.
(** Peer 0 announces piece 0 and unchokes; goroutine 2 asks for it: it calls requestPiece on
    the connection, the goroutine of the block writes the REQUEST. *)
Definition ex_asked : list uaction := nodes PropNode.ex_asked ++ [UCall 2; UConn 0 2 KOk] ++ repeat (UConn 0 3 KOk) 4.
(** ... the piece comes, is stored, a HAVE is sent to both; peer 1 asks for a part of it. *)
Definition ex_served : list uaction :=
  ex_asked ++ nodes (PropNode.hear 0 (mk_piece 0 0 (bs "ab")) ++ PropNode.call 0 3 ++ PropNode.call 2 2 ++ PropNode.srv (AGo 2 (COrder [0; 1]%nat) :: PropServer.go 2 4) ++
    PropNode.srv (AUnchoke :: PropServer.go 4 2) ++
    PropNode.hear 3 (mk_request 0 1 1) ++ PropNode.call 3 2 ++ [NWrite 3 true]).
(** ... peer 1 sends wrong bytes for the piece peer 0 was asked for, then peer 0 the right ones. *)
Definition ex_blamed : list uaction :=
  ex_asked ++ nodes (PropNode.hear 3 (mk_piece 0 0 (bs "xy")) ++ PropNode.call 3 3 ++ PropNode.hear 0 (mk_piece 0 0 (bs "ab")) ++ PropNode.call 0 1 ++ PropNode.call 2 2 ++ PropNode.srv [AGo 2 COk]).
(** The request fails (the deadline), the piece is asked for again, and comes before that
    request resets it. *)
Definition ex_late : list uaction :=
  nodes (PropNode.srv PropServer.ex_request ++ PropNode.call 2 1) ++ [UCall 2; UConn 0 2 KOk] ++ repeat (UConn 0 3 KOk) 4 ++ [UConn 0 3 KErr; UConn 0 3 KOk; UConn 0 2 KOk] ++
  nodes (PropNode.srv [AGo 2 CErr; AGo 2 COk; AGo 2 COk; AGo 3 COk; AGo 3 (CSort [] []); AGo 3 COk] ++ PropNode.hear 0 (mk_piece 0 0 (bs "ab")) ++ PropNode.call 0 3 ++ PropNode.call 4 1).

(** ** What is proved of runs of the server with its storage, and of runs of a connection,
    holds in every run of the client. *)
Theorem client_runs_server :
  forall sha1 cfg env hash id f l c ev, client_run sha1 cfg env hash id f l c ev -> exists l', node_run sha1 cfg env hash id f l' (u_node c) (node_events ev).
Proof. exact client_node. Qed.
Print Assumptions client_runs_server.
Theorem client_runs_connections :
  forall sha1 cfg env hash id f l c ev, client_run sha1 cfg env hash id f l c ev -> List.length (u_conns c) = List.length (s_peers (n_srv (u_node c))) /\
  forall p K, nth_error (u_conns c) p = Some K -> exists l', krun_of l' K (conn_events p ev).
Proof. exact client_conns. Qed.
Print Assumptions client_runs_connections.
Example client_case : exists l c ev, ex_run_of l c ev /\ List.length (u_conns c) = 2%nat /\ In (UN (NEv (EvSent 1 (mk_have 0)))) ev /\ In (UK 1 (KSent (mk_have 0))) ev /\ In (UK 1 (KSent (mk_piece 0 1 (bs "b")))) ev.
Proof. run ex_served. split; [reflexivity|]. repeat split; PropNode.among. Qed.

(** ** C57, C96: requests of one peer do not overlap *)
(** If the answer to a pending block comes, its call can return: what C57_answered_partial
    assumes is so. *)
Theorem C57_answered :
  forall sha1 cfg env hash id, config_ok cfg -> i_piece_length (c_info cfg) <= 2 ^ 63 - 16384 -> forall f l c ev p K e1 t r e2 v, client_run sha1 cfg env hash id f l c ev ->
  nth_error (u_conns c) p = Some K -> conn_events p ev = e1 ++ KPending t r :: e2 -> tally (ev_returned t) e2 = 0 -> first_answer r e2 = Some v ->
  exists o, may_return false K t r o.
Proof.
  intros sha1 cfg env hash id ok fits f l c ev p K e1 t r e2 v R N E T A. destruct (client_conns _ _ _ _ _ _ _ _ _ R) as [_ W]. destruct (W p K N) as [l' X].
  pose proof (pulls_one _ _ _ _ _ ok fits _ _ _ _ R p) as O. rewrite E in X, O. exact (PropConn.C57_answered_partial l' K e1 t r e2 v X O T A).
Qed.
Print Assumptions C57_answered.
(** At most 16 blocks are asked of a peer at a time. *)
Theorem C96_at_most_16 :
  forall sha1 cfg env hash id, config_ok cfg -> i_piece_length (c_info cfg) <= 2 ^ 63 - 16384 -> forall f l c ev p, client_run sha1 cfg env hash id f l c ev ->
  outstanding (conn_events p ev) <= 16.
Proof. exact sixteen. Qed.
Print Assumptions C96_at_most_16.
(** A requestPiece on a connection begins only after the one before has ended, and asks for
    no block twice. *)
Theorem C96_one_at_a_time :
  forall sha1 cfg env hash id, config_ok cfg -> i_piece_length (c_info cfg) <= 2 ^ 63 - 16384 -> forall f l c ev p, client_run sha1 cfg env hash id f l c ev ->
  one_at_a_time (conn_events p ev).
Proof. intros sha1 cfg env hash id ok fits f l c ev p R. exact (pulls_one _ _ _ _ _ ok fits _ _ _ _ R p). Qed.
Print Assumptions C96_one_at_a_time.
Example C96_case : config_ok PropNode.ex_cfg /\ i_piece_length (c_info PropNode.ex_cfg) <= 2 ^ 63 - 16384 /\
  exists l c ev, ex_run_of l c ev /\ outstanding (conn_events 0 ev) = 1 /\ exists K e1 e2, nth_error (u_conns c) 0 = Some K /\ conn_events 0 ev = e1 ++ KPending 3 (0, 0, 2) :: e2 /\ tally (ev_returned 3) e2 = 0 /\ first_answer (0, 0, 2) e2 = Some None.
Proof.
  split; [exact PropNode.ex_ok|]. split; [exact ex_fits|]. run (ex_asked ++ nodes (PropNode.hear 0 (mk_piece 0 0 (bs "ab")) ++ PropNode.call 0 3)). split; [reflexivity|].
  eexists. eexists ?[a]. eexists. split; [reflexivity|]. split.
  - vm_compute. instantiate (a := [_; _; _; _; _; _; _; _]). reflexivity.
  - split; reflexivity.
Qed.

(** ** C95: what is asked for *)
(** Every REQUEST that is written is for a block of a piece that is being asked of that peer
    just now. *)
Theorem C95_requests_wanted :
  forall sha1 cfg env hash id, config_ok cfg -> i_piece_length (c_info cfg) <= 2 ^ 63 - 16384 -> forall f l c e1 p m e2,
  client_run sha1 cfg env hash id f l c (e1 ++ UK p (KSent m) :: e2) -> m_type m = REQUEST ->
  exists since, asking p (m_index m) e1 since /\ block_of cfg (m_index m) (m_begin m) (m_length m).
Proof. exact requests_wanted. Qed.
Print Assumptions C95_requests_wanted.
(** A piece is asked of a peer only after it came from that peer, over its connection, that
    it has the piece, and when the server looked it did not have it. *)
Theorem C95_asked_chosen :
  forall sha1 cfg env hash id, config_ok cfg -> i_piece_length (c_info cfg) <= 2 ^ 63 - 16384 -> forall f l c e1 p i e2,
  client_run sha1 cfg env hash id f l c (e1 ++ UN (NEv (EvRequest p i)) :: e2) ->
  exists g1 g2 l1 c1 m, e1 = g1 ++ UN (NEv (EvLooked p)) :: g2 /\ client_run sha1 cfg env hash id f l1 c1 g1 /\
    In (UK p (KRecv m)) g1 /\ P2PServerSpec.announces_piece m i /\ ~ member (s_have (n_srv (u_node c1))) i.
Proof. exact asked_chosen. Qed.
Print Assumptions C95_asked_chosen.
Example C95_case : config_ok PropNode.ex_cfg /\ i_piece_length (c_info PropNode.ex_cfg) <= 2 ^ 63 - 16384 /\
  exists l c ev, ex_run_of l c ev /\ (exists e1 e2, ev = e1 ++ UK 0 (KSent (mk_request 0 0 2)) :: e2) /\ exists e1 e2, ev = e1 ++ UN (NEv (EvRequest 0 0)) :: e2.
Proof. split; [exact PropNode.ex_ok|]. split; [exact ex_fits|]. run ex_asked. split; apply in_split; PropNode.among. Qed.

(** ** C97: what follows on a piece *)
(** A HAVE is sent only after some peer was asked for the piece and then sent all its
    blocks; the storage's answer on a piece comes, and a peer is blocked, only then. *)
Theorem C97_told_after_all_came :
  forall sha1 cfg env hash id, config_ok cfg -> i_piece_length (c_info cfg) <= 2 ^ 63 - 16384 -> forall f l c e1 x m e2,
  client_run sha1 cfg env hash id f l c (e1 ++ UN (NEv (EvSent x m)) :: e2) -> m_type m = HAVE ->
  exists p before since, e1 = before ++ UN (NEv (EvRequest p (m_index m))) :: since /\ all_came cfg p (m_index m) since.
Proof. exact told_came. Qed.
Print Assumptions C97_told_after_all_came.
Theorem C97_waited_until_all_came :
  forall sha1 cfg env hash id, config_ok cfg -> i_piece_length (c_info cfg) <= 2 ^ 63 - 16384 -> forall f l c e1 t i r e2,
  client_run sha1 cfg env hash id f l c (e1 ++ UN (NRet t (CWait i) r) :: e2) ->
  exists p before since, e1 = before ++ UN (NEv (EvRequest p i)) :: since /\ all_came cfg p i since.
Proof. exact waited_came. Qed.
Print Assumptions C97_waited_until_all_came.
Example C97_case : exists l c ev, ex_run_of l c ev /\ (exists e1 e2, ev = e1 ++ UN (NEv (EvSent 1 (mk_have 0))) :: e2) /\ (exists e1 e2, ev = e1 ++ UN (NRet 2 (CWait 0) RNil) :: e2) /\ block_of PropNode.ex_cfg 0 0 2.
Proof.
  run ex_served. split; [apply in_split; PropNode.among|]. split; [apply in_split; PropNode.among|]. split; [vm_compute; intuition congruence|]. split; [vm_compute; intuition congruence|]. split; [exists 0; reflexivity|reflexivity].
Qed.

(** ** C77 *)
(** A peer is blocked only if it was asked for a piece, has since then sent all blocks of
    that piece, and the piece failed its check after that request. *)
Theorem C77_blocked_sent_partial :
  forall sha1 cfg env hash id, config_ok cfg -> i_piece_length (c_info cfg) <= 2 ^ 63 - 16384 -> forall f l c e1 p e2,
  client_run sha1 cfg env hash id f l c (e1 ++ UN (NEv (EvBlocked p)) :: e2) ->
  exists i before since, e1 = before ++ UN (NEv (EvRequest p i)) :: since /\ all_came cfg p i since /\ blamed (node_events e1) p i.
Proof. exact blocked_came. Qed.
Print Assumptions C77_blocked_sent_partial.
(** But not that it sent wrong data: peer 0 was asked for the piece, sent the right bytes and
    is blocked; peer 1, which sent wrong bytes for it before, is not. *)
Theorem C77_wrong_peer_blocked_refuted :
  exists l c ev, ex_run_of l c ev /\ In (UN (NEv (EvBlocked 0))) ev /\ (forall m, In (UK 0 (KRecv m)) ev -> m_type m = PIECE -> m = mk_piece 0 0 (bs "ab")) /\
  verified PropStorage.ex_id PropNode.ex_cfg 0 (bs "ab") /\
  In (UK 1 (KRecv (mk_piece 0 0 (bs "xy")))) ev /\ ~ In (UN (NEv (EvBlocked 1))) ev.
Proof.
  run ex_blamed. split; [PropNode.among|]. split; [|split; [|split; [PropNode.among|PropNode.absent]]].
  - intros m H. vm_compute in H. repeat (destruct H as [H|H]; [try discriminate H; injection H as <-; intros X; first [discriminate X|reflexivity]|]). destruct H.
  - split; reflexivity.
Qed.
Print Assumptions C77_wrong_peer_blocked_refuted.

(** ** C79 *)
(** One peer, all of whose messages are right: asked for a piece it answers after the
    deadline, the piece is asked for again, and the answer comes before that request has
    begun.  The program crashes. *)
Theorem C79_honest_peers_crash_refuted :
  exists l c ev, ex_run_of l c ev /\ crashed (u_node c) = true /\
  (forall p m, In (UK p (KRecv m)) ev -> ~ out_of_range PropNode.ex_cfg m /\ (m_type m = PIECE -> m = mk_piece 0 0 (bs "ab"))) /\
  (exists e1 e2, ev = e1 ++ UK 0 (KRecv (mk_piece 0 0 (bs "ab"))) :: e2 /\ In (UK 0 (KSent (mk_request 0 0 2))) e1 /\ ~ In (UK 0 (KRecv (mk_piece 0 0 (bs "ab")))) (e1 ++ e2)) /\
  (forall p, ~ In (UN (NEv (EvMalformed p))) ev) /\ (forall t k e, ~ In (UN (NRet t k (RErr e))) ev).
Proof.
  run ex_late. split; [vm_compute; reflexivity|]. split; [|split; [|split; [intros p; PropNode.absent|intros t k e; PropNode.absent]]].
  - intros p m H. assert (G : In m [mk_have 0; mk_plain UNCHOKE; mk_piece 0 0 (bs "ab")]).
    { vm_compute in H. repeat (destruct H as [H|H]; [try discriminate H; injection H as <- <-; PropNode.among|]). destruct H. }
    split; [|destruct G as [<-|[<-|[<-|[]]]]; [discriminate|discriminate|reflexivity]].
    destruct G as [<-|[<-|[<-|[]]]]; intros [[X Y]|[[X [i [_ Y]]]|[[X Y]|[X [Y|Y]]]]]; try discriminate X; vm_compute in Y; congruence.
  - match goal with |- exists e1 e2, ?ev = _ /\ _ => let n := eval vm_compute in (List.length ev - 5)%nat in exists (firstn n ev), (skipn (S n) ev) end.
    split; [vm_compute; reflexivity|]. split; [PropNode.among|PropNode.absent].
Qed.
Print Assumptions C79_honest_peers_crash_refuted.
