(** A client that has the whole torrent dials a peer and sends it what it asks for. *)
From Verif Require Import GoBase GoBaseProofs GoMap BencDecode Bitfield BitfieldSpec BitfieldProofs PeerWire Metainfo MetainfoSpec Tracker NetIP Fs Storage StorageSpec StorageSysSpec StorageSys StorageFsProofs StorageProofs StorageSysProofs StorageClaimProofs StorageHealthSpec StorageHealthSysProofs StorageHonestProofs
  Node NodeSpec P2PConn P2PPeer P2PServer Client ClientSpec DownloadSpec PairSpec.
From Verif Require Import DownloadProofs.
From Verif Require DownloadStoreProofs StorageMoreProofs.

Section Serve.
Variable sha1 : bytes -> bytes.
Variable cfg : config.
Variable env : nat -> Fs.choice.
Variable own_hash own_id blank : bytes.
Variables (ip rid : bytes) (port : Z).
Notation uexec := (uexec sha1 cfg env own_hash own_id blank).
Notation goes := (goes sha1 cfg env own_hash own_id blank rid).
Notation via := (via sha1 cfg env own_hash own_id blank rid).
Notation viae := (viae sha1 cfg env own_hash own_id blank rid).
Notation quiet := (quiet sha1 cfg env own_hash own_id blank rid).
Ltac no_hand := intros ? ? ? Q; discriminate Q.
Ltac go1 t ch := eapply (go1 sha1 cfg env own_hash own_id blank rid _ _ _ _ _ _ _ _ _ _ _ _ _ _ _ _ _ _ t ch).
Ltac go2 t ch k kc ek := eapply (go2 sha1 cfg env own_hash own_id blank rid _ _ _ _ _ _ _ _ _ _ _ _ _ _ _ _ _ _ _ _ t ch k kc ek).
Ltac go3 k kc ek := eapply (go3 sha1 cfg env own_hash own_id blank rid _ _ _ _ _ _ _ _ _ _ _ _ k kc ek).
Ltac go4 t a ek := eapply (go4 sha1 cfg env own_hash own_id blank rid _ _ _ _ _ _ _ _ _ _ _ _ _ t a ek).

Definition peer_to (b : bytes) (rint ch : bool) : remote :=
  {| q_id := rid; q_ip := ip; q_port := port; q_bits := b; q_rchoked := true; q_rinterested := rint; q_closed := false; q_choked := ch; q_interested := false |}.
Definition conn_to (ch : bool) (mu : option nat) (L : list kthread) : kstate :=
  {| k_rchoked := true; k_choked := ch; k_interested := false; k_mu := mu; k_inflight := []; k_cancelled := []; k_futs := []; k_threads := L; k_crashed := false |}.
Variable a : bytes.
Definition reg_to (H : list (Z * list nat)) : registry :=
  {| g_known := [a]; g_addrs := [(idip_of rid ip, [addr_of ip port])]; g_idips := [(addr_of ip port, idip_of rid ip)]; g_blocked := []; g_active := [(idip_of rid ip, 0%nat)];
     g_holders := H; g_queued := []; g_inflight := [] |}.
Definition reg_known : registry := {| g_known := [a]; g_addrs := []; g_idips := []; g_blocked := []; g_active := []; g_holders := []; g_queued := []; g_inflight := [] |}.

(** * The connection is made *)
Variables (tp : Tracker.peer) (r r' : conn).
Hypothesis heard : concat r = hs_encode {| hs_info := own_hash; hs_peer := rid |}.
Hypothesis shake : peer_handshake own_hash own_id (copied_id (p_id tp)) true r = (rid, Ok r').
Hypothesis parsed : parse_ip (p_ip tp) = Some ip.
Hypothesis at_port : p_port tp = port.
Hypothesis dial : dialable tp = true.
Hypothesis addr : remote_addr tp = Some a.
Definition before (w : world) (slots : Z) (queue : list Tracker.peer) (taken : option Tracker.peer) (T : list P2PServer.thread) : client :=
  {| u_node := {| n_srv := {| s_peers := []; s_threads := T; s_mu := None; s_slots := slots; s_queue := queue; s_reg := reg_known; s_have := t_bitfield (w_mem w);
       s_serving := true; s_dialing := true; s_taken := taken; s_requesting := true; s_cancelled := false; s_crashed := false |}; n_sto := Running w []; n_jobs := []; n_msgs := [] |};
     u_conns := []; u_calls := []; u_errs := [] |}.
Lemma dials w : goes (ustart (Running w [])) (cl (peer_to blank false true) [THandler 0 HReceive] None (reg_to []) (t_bitfield (w_mem w)) (Running w []) [] [] (conn_to true None [TServe CRead; TOver]) [])
  [KSent (mk_bitfield (t_bitfield (w_mem w)))].
Proof using heard shake parsed at_port dial addr.
  set (have := t_bitfield (w_mem w)).
  eapply (quiet _ (UNode (NServer (AAdd tp))) (before w 0 [tp] None [])); [|no_hand| |].
  { unfold Client.uexec, nexec, Node.serve, P2PServer.exec, add_peer. cbn. rewrite addr. reflexivity. }
  { reflexivity. }
  eapply (quiet _ (UNode (NServer ADialTake)) (before w 0 [] (Some tp) [])); [reflexivity|no_hand|reflexivity|].
  eapply (quiet _ (UNode (NServer ADialSpawn)) (before w 1 [] None [TDial tp false])); [reflexivity|no_hand|reflexivity|].
  eapply (quiet _ (UNode (NServer (AGo 0%nat COk))) (before w 1 [] None [TDial tp true])); [|no_hand| |].
  { unfold Client.uexec, nexec, Node.serve, P2PServer.exec, step_thread. cbn. rewrite addr. reflexivity. }
  { reflexivity. }
  set (q0 := new_peer blank (copied_id (p_id tp)) ip port).
  eapply (quiet _ (UNode (NServer (AGo 0%nat COk))) (cl q0 [THandler 0 HConnect] None reg_known have (Running w []) [] [] kstart [])); [|no_hand| |].
  { unfold Client.uexec, nexec, Node.serve, P2PServer.exec, step_thread. cbn -[copied_id]. rewrite addr, parsed, dial, at_port. reflexivity. }
  { reflexivity. }
  eapply (via _ (cl q0 [THandler 0 HHandshake] None reg_known have (Running w []) [] [] kstart [])). { go1 0%nat COk; reflexivity. }
  eapply (via _ (cl (peer_to blank false true) [THandler 0 HRegister] None reg_known have (Running w []) [] [] kstart [])).
  { go1 0%nat (CHand true r); [reflexivity|cbn; now apply bytes_eqb_eq| |reflexivity..]. cbn [step_thread sy s_threads nth_error step_handler s_peers q_id q0 new_peer]. rewrite shake. reflexivity. }
  eapply (via _ (cl (peer_to blank false true) [THandler 0 HBitfield] (Some 0%nat) (reg_to []) have (Running w []) [] [] kstart [])). { go1 0%nat COk; reflexivity. }
  eapply (via _ (cl (peer_to blank false true) [THandler 0 HBitfield] (Some 0%nat) (reg_to []) have (Running w []) [] [] (conn_to true None [TServe CRead; TSend (mk_bitfield have) SLock]) [(0%nat, (0%nat, 1%nat))])).
  { go4 0%nat (KSend (mk_bitfield have)) (@nil kevent); reflexivity. }
  eapply (via _ (cl (peer_to blank false true) [THandler 0 HBitfield] (Some 0%nat) (reg_to []) have (Running w []) [] [] (conn_to true (Some 1%nat) [TServe CRead; TSend (mk_bitfield have) SWrite]) [(0%nat, (0%nat, 1%nat))])).
  { go3 1%nat KOk (@nil kevent); reflexivity. }
  eapply (viae _ (cl (peer_to blank false true) [THandler 0 HLoop] None (reg_to []) have (Running w []) [] [] (conn_to true None [TServe CRead; TOver]) []) _ [_] []).
  { go2 0%nat COk 1%nat (KMsg (mk_bitfield have)) [KSent (mk_bitfield have)]; reflexivity. }
  go1 0%nat COk; reflexivity.
Qed.

(** * What the peer has *)
Notation st b rint ch H T have sto msgs L := (cl (peer_to b rint ch) T None (reg_to H) have sto [] msgs (conn_to ch None L) []).
Lemma learns rint ch E D have sto msgs items : forall bits H, Forall (fun i => 0 <= i < 8 * zlen bits /\ member have i /\ i < 8 * zlen have) items -> exists bits' H',
  goes (st bits rint ch H (THandler 0 (next_have items) :: E) have sto msgs (TServe CHaves :: D)) (st bits' rint ch H' (THandler 0 HLoop :: E) have sto msgs (TServe CHaves :: D)) [] /\ zlen bits' = zlen bits.
Proof.
  induction items as [|i items IH]; intros bits H F; [exists bits, H; split; [apply goes_refl|reflexivity]|].
  apply Forall_cons_iff in F as [(R1 & M & R2) F]. destruct (bf_add_spec bits i R1) as (b1 & A1 & Z1 & _). destruct (bf_has_spec have i) as (h & A2 & M2); [lia|]. assert (h = true) as -> by now apply M2. rewrite <- Z1 in F.
  set (H1 := mput Z.eqb i (sadd Nat.eqb 0%nat (holders_of (reg_to H) i)) H). destruct (IH b1 H1 F) as (bits' & H' & G & Z'). exists bits', H'. split; [|congruence].
  eapply (via _ (st b1 rint ch H (THandler 0 (HRecord i items) :: E) have sto msgs (TServe CHaves :: D))).
  { go1 0%nat COk; [reflexivity|reflexivity| |reflexivity..]. cbn [step_thread next_have sy s_threads nth_error step_handler s_peers peer_to q_bits]. rewrite A1. reflexivity. }
  eapply (via _ (st b1 rint ch H1 (THandler 0 (HCheck i items) :: E) have sto msgs (TServe CHaves :: D))). { go1 0%nat COk; reflexivity. }
  eapply via; [|exact G]. go1 0%nat COk; [reflexivity|reflexivity| |reflexivity|reflexivity|reflexivity|destruct items; reflexivity]. cbn [step_thread sy s_threads nth_error step_handler s_peers s_have]. rewrite A2. reflexivity.
Qed.
(** A message comes in. *)
Lemma msg_refl m : msg_eqb m m = true.
Proof. unfold msg_eqb. rewrite !Z.eqb_refl, !(proj2 (bytes_eqb_eq _ _) eq_refl). reflexivity. Qed.
Lemma takes_in b rint ch H E have sto msgs D m : on_wire m = true -> m_type m <> PIECE -> m_type m <> CHOKE ->
  goes (st b rint ch H (THandler 0 HReceive :: E) have sto msgs (TServe CRead :: D)) (st b rint ch H (THandler 0 HReceive :: E) have sto msgs (TServe (CHandle m) :: D)) [KRecv m].
Proof.
  intros OW NP NC. eapply (via _ (st b rint ch H (THandler 0 HReceive :: E) have sto msgs (TServe (CTake m) :: D))).
  { go3 0%nat (KMsg m) (@nil kevent); [reflexivity| |reflexivity|reflexivity|reflexivity]. cbn [inside]. rewrite OW. reflexivity. }
  go3 0%nat KOk [KRecv m]; [reflexivity|reflexivity| |reflexivity|reflexivity]. unfold kexec. cbn [conn_to k_crashed k_threads nth_error step_serve].
  apply Z.eqb_neq in NP, NC. rewrite NP, NC. reflexivity.
Qed.
Lemma handles b b' rint rint' ch H E h h' have sto D m m0 : on_wire m = true -> handle (peer_to b rint ch) m = (peer_to b' rint' ch, h') ->
  handle_message (conn_to ch None (TServe (CHandle m) :: D)) 0 m = Some (conn_to ch None (TServe h :: D), [KHandled m]) ->
  goes (st b rint ch H (THandler 0 HReceive :: E) have sto m0 (TServe (CHandle m) :: D)) (st b' rint' ch H (THandler 0 h' :: E) have sto (mput Nat.eqb 0%nat m m0) (TServe h :: D)) [].
Proof.
  intros OW Hd Hm. go2 0%nat (CMsg m) 0%nat KOk [KHandled m]; [reflexivity| | | |exact Hm|reflexivity|reflexivity|reflexivity|unfold left_call; destruct (in_call _); reflexivity|reflexivity].
  - cbn [without wire_ok]. rewrite OW. reflexivity.
  - cbn [step_thread sy s_threads nth_error step_handler s_peers]. assert (m_index m <? 0 = false) as -> by (unfold on_wire in OW; lia). rewrite Hd. reflexivity.
  - unfold beside_server, serve_at. cbn [cl u_conns nth_error conn_to k_threads]. rewrite msg_refl. reflexivity.
Qed.
Lemma hears_haves m items rint ch b H E have sto msgs D : on_wire m = true -> (m_type m = HAVE /\ items = [m_index m] \/ m_type m = BITFIELD /\ items = bf_items (m_bitfield m)) ->
  Forall (fun i => 0 <= i < 8 * zlen b /\ member have i /\ i < 8 * zlen have) items -> exists b' H',
  goes (st b rint ch H (THandler 0 HReceive :: E) have sto msgs (TServe CRead :: D)) (st b' rint ch H' (THandler 0 HReceive :: E) have sto (mput Nat.eqb 0%nat m msgs) (TServe CRead :: D)) [KRecv m] /\ zlen b' = zlen b.
Proof.
  intros OW K F. destruct (learns rint ch E D have sto (mput Nat.eqb 0%nat m msgs) items b H F) as (b' & H' & G & Z). exists b', H'. split; [|exact Z].
  eapply (viae _ _ _ [_] []); [apply takes_in; [exact OW|destruct K as [[-> _]|[-> _]]; discriminate..]|].
  eapply via; [apply (handles b b rint rint ch H E CHaves (next_have items)); [exact OW| |]|].
  - unfold handle. destruct K as [[-> ->]|[-> ->]]; reflexivity.
  - unfold handle_message. destruct K as [[-> _]|[-> _]]; reflexivity.
  - eapply via; [exact G|]. eapply (via _ (st b' rint ch H' (THandler 0 HReceive :: E) have sto (mput Nat.eqb 0%nat m msgs) (TServe CHaves :: D))). { go1 0%nat COk; reflexivity. }
    go3 0%nat KOk (@nil kevent); reflexivity.
Qed.
Lemma hears_interest b ch H E have sto msgs D :
  goes (st b false ch H (THandler 0 HReceive :: E) have sto msgs (TServe CRead :: D)) (st b true ch H (THandler 0 HReceive :: E) have sto (mput Nat.eqb 0%nat (mk_plain INTERESTED) msgs) (TServe CRead :: D)) [KRecv (mk_plain INTERESTED)].
Proof.
  eapply (viae _ _ _ [_] []); [apply takes_in; [reflexivity|discriminate..]|].
  eapply via; [apply (handles b b false true ch H E CRead HLoop); reflexivity|]. go1 0%nat COk; reflexivity.
Qed.
(** * The peer is unchoked *)
Lemma unchokes b H have sto msgs :
  goes (st b true true H [THandler 0 HReceive] have sto msgs [TServe CRead; TOver]) (st b true false H [THandler 0 HReceive; TDone] have sto msgs [TServe CRead; TOver; TOver]) [KSent (mk_plain UNCHOKE)].
Proof.
  set (T x := [THandler 0 HReceive; x]). set (L x := [TServe CRead; TOver; x]).
  eapply (quiet _ (UNode (NServer AUnchoke)) (st b true true H (T (TUnchoke 0 false)) have sto msgs [TServe CRead; TOver])); [reflexivity|no_hand|reflexivity|].
  eapply (via _ (cl (peer_to b true true) (T (TUnchoke 0 false)) None (reg_to H) have sto [] msgs (conn_to true None (L (TFlag FUnchoke None))) [(1%nat, (0%nat, 2%nat))])).
  { go4 1%nat (KFlag FUnchoke) (@nil kevent); reflexivity. }
  eapply (via _ (cl (peer_to b true false) (T (TUnchoke 0 true)) None (reg_to H) have sto [] msgs (conn_to false None (L (TFlag FUnchoke (Some SLock)))) [(1%nat, (0%nat, 2%nat))])).
  { go2 1%nat COk 2%nat KOk [KChange FUnchoke]; reflexivity. }
  eapply (via _ (cl (peer_to b true false) (T (TUnchoke 0 true)) None (reg_to H) have sto [] msgs (conn_to false (Some 2%nat) (L (TFlag FUnchoke (Some SWrite)))) [(1%nat, (0%nat, 2%nat))])).
  { go3 2%nat KOk (@nil kevent); reflexivity. }
  go2 1%nat COk 2%nat KOk [KSent (mk_plain UNCHOKE)]; reflexivity.
Qed.

(** * A block is asked for and sent *)
Lemma step_get q T mu g have t j w ts w' ts' i b x d msgs K K' calls e ek : nth_error T t = Some (THandler 0 e) ->
  StorageSys.exec sha1 cfg env (Running w ts) (LStep j) = Some (Running w' ts', [Ret (CGet i b x) (RBlock d)]) -> kexec K (KGo 0 (KData d)) = Some (K', ek) -> seen ek = [] -> errs_after 0 K ek [] = [] ->
  goes (cl q T mu g have (Running w ts) [(t, JCall j)] msgs K calls) (cl q T mu g have (Running w' ts') [(t, JBlock d)] msgs K' calls) [].
Proof.
  intros N X XK S R. eapply (quiet _ (UNode (NStep t)) _ (map UN [NRet t (CGet i b x) (RBlock d)] ++ map (UK 0) ek)); [|no_hand| |apply goes_refl].
  - unfold Client.uexec. cbn [cl srv u_node n_srv sy s_crashed]. unfold nexec. cbn [n_srv sy s_crashed n_jobs n_sto]. rewrite mget_one, X. cbn [kept]. unfold beside_node, thread_of. cbn [cl srv u_node n_srv sy s_threads]. rewrite N.
    unfold conn_step. cbn [cl u_conns nth_error u_errs]. rewrite XK, R. rewrite mput_one. reflexivity.
  - now rewrite traffic_both.
Qed.
Lemma writes q T T' mu g have sto t m d K K' calls : nth_error T t = Some (THandler 0 HRequest) -> nth_error (k_threads K) 0 = Some (TServe (CPiece (asked m) d SWrite)) ->
  T' = list_set t (THandler 0 HLoop) T -> kexec K (KGo 0 KOk) = Some (K', [KSent (mk_piece (m_index m) (m_begin m) d)]) ->
  goes (cl q T mu g have sto [(t, JBlock d)] [(t, m)] K calls) (cl q T' mu g have sto [] [(t, m)] K' calls) [KSent (mk_piece (m_index m) (m_begin m) d)].
Proof.
  intros N Sv -> XK. change [KSent (mk_piece (m_index m) (m_begin m) d)] with (seen [KSent (mk_piece (m_index m) (m_begin m) d)]). erewrite <- (traffic_both [NServed 0 (mk_piece (m_index m) (m_begin m) d)]). eapply (goes_one _ _ _ _ _ _ _ _ (UNode (NWrite t true))); [|no_hand].
  unfold Client.uexec. cbn [cl srv u_node n_srv sy s_crashed]. unfold nexec. cbn [n_srv sy s_crashed n_jobs n_sto s_threads n_msgs]. rewrite !mget_one, N. unfold Node.serve, P2PServer.exec, step_thread. cbn [n_srv sy s_crashed s_threads]. rewrite N. cbn [step_handler sy s_peers nth_error].
  unfold beside_node, thread_of. cbn [cl srv u_node n_srv sy s_threads]. rewrite N. unfold serve_at. cbn [cl u_conns nth_error]. cbn [nth_error] in Sv. rewrite Sv. unfold conn_step. cbn [cl u_conns nth_error u_errs]. rewrite XK. unfold end_job. cbn [n_jobs]. rewrite mdel_one. reflexivity.
Qed.

Hypothesis ok : config_ok cfg.
Hypothesis W : works env.
Hypothesis FF : files_fit cfg.
Variable c : bytes.
Hypothesis Wc : whole sha1 cfg c.
Variables (f : fs) (tick : nat) (ls0 : list label) (d : fs) (t : nat) (es0 : list StorageSys.event) (w0 : world) (es1 : list StorageSys.event).
Hypothesis U : untouched cfg f.
Hypothesis Rm : roomy cfg env f.
Hypothesis E0 : StorageSys.execs sha1 cfg env (Dead f tick) ls0 = Some (Dead d t, es0).
Hypothesis E1 : StorageSys.exec sha1 cfg env (Dead d t) LStart = Some (Running w0 [], es1).
Notation SH := (DownloadStoreProofs.SH sha1 cfg env c w0).
Notation n := (num_pieces (c_info cfg)).
Notation PL := (i_piece_length (c_info cfg)).
Lemma get_run w ts k x y : SH w ts -> content cfg (w_fs w) = Some c -> 0 <= k < n -> tile (piece_size (c_info cfg) k) x y ->
  exists w' ts', StorageSys.execs sha1 cfg env (Running w ts) (LCall (CGet k x y) :: repeat (LStep (List.length ts)) 1) = Some (Running w' ts', [Ret (CGet k x y) (RBlock (slice c (k * PL + x) y))]) /\
    SH w' ts' /\ t_bitfield (w_mem w') = t_bitfield (w_mem w) /\ content cfg (w_fs w') = Some c.
Proof using ok W FF Wc U Rm E0 E1 tp.
  intros Sh C Hk (T1 & T2 & T3). destruct (DownloadStoreProofs.sh_facts sha1 cfg env ok W FF c Wc f tick ls0 d t es0 w0 es1 U Rm E0 E1 w ts Sh) as (I & (es' & Hh) & Hi & ls & es & E).
  assert (OD : on_disk cfg (w_fs w) k = Some (slice c (k * PL) (piece_size (c_info cfg) k))) by (unfold on_disk; now rewrite C).
  assert (TC : t_coalesced (w_mem w) = true). { pose proof I as (_ & (MI & MA & MT) & _). apply Hh. intros k' p P. apply (MA _ _ P). unfold on_disk. rewrite C. discriminate. }
  assert (IP : in_piece cfg k x y) by (unfold in_piece; lia).
  assert (MO : make_ok y = true) by (unfold make_ok, max_alloc; lia).
  set (th := {| th_call := CGet k x y; th_pc := Start |}). assert (I0 : StorageSysProofs.inv sha1 cfg f (Running w (ts ++ [th]))) by (eapply (exec_ok sha1 cfg env ok _ _ (LCall (CGet k x y))); [exact I|reflexivity]).
  assert (X : exists p1 e1, StorageSys.exec sha1 cfg env (Running w (ts ++ [th])) (LStep (List.length ts)) = Some (p1, e1)).
  { cbn [StorageSys.exec]. rewrite DownloadStoreProofs.nth_last. unfold next. cbn [th th_pc th_call w_mem forget_past]. rewrite TC. destruct (of_bytes _); eauto. }
  destruct X as (p1 & e1 & X). assert (E2 : StorageSys.execs sha1 cfg env (Dead f tick) (ls ++ [LCall (CGet k x y)]) = Some (Running w (ts ++ [th]), es ++ [])).
  { rewrite (DownloadStoreProofs.execs_both sha1 cfg env _ _ _ _ _ E). reflexivity. }
  destruct (get_available sha1 cfg env ok f tick _ w (ts ++ [th]) _ (List.length ts) th k x y p1 e1 U E2 (DownloadStoreProofs.nth_last _ _) eq_refl IP MO ltac:(congruence) X) as ((w' & ts' & ->) & NE).
  assert (hinv cfg env (Running w (ts ++ [th]))) as Hi0 by exact Hi.
  destruct (exec_works sha1 cfg env ok W FF _ _ _ _ _ I0 Hi0 X) as [_ Fi].
  destruct (step_goes sha1 cfg env ok _ _ _ _ _ _ _ I0 (DownloadStoreProofs.nth_last _ _) X) as [(w2 & pc & Q & -> & V & XT)|(? & ? & Q & _)]; [|discriminate Q]. injection Q as <- ->. cbn [th th_call] in *.
  pose proof X as X'. cbn [StorageSys.exec] in X'. rewrite DownloadStoreProofs.nth_last in X'. unfold next in X'. cbn [th th_pc th_call w_mem forget_past] in X'. rewrite TC in X'.
  assert (PD : (exists d0, pc = Done (RBlock d0)) \/ exists e0, pc = Done (RErr e0)).
  { destruct (get_block cfg env k x y (forget_past w)) as [w3 [d0|e0|]]; cbn [of_bytes] in X'; rewrite ?DownloadStoreProofs.set_last in X'; try discriminate X'; injection X' as _ Q _; apply app_inj_tail in Q as [_ Q]; injection Q as <-; eauto. }
  destruct PD as [[d0 ->]|[e0 ->]].
  2:{ exfalso. pose proof (NE e0 (or_introl eq_refl)) as ->. apply Forall_inv in Fi. destruct (Fi _ _ eq_refl (or_introl eq_refl)) as (k' & b' & l' & Q & NI). injection Q as <- <- <-. contradiction. }
  cbn [events_of] in V, X. apply Forall_inv in V. cbn in V. destruct V as (_ & _ & V). destruct (V IP) as (cc & OC & ->). assert (C' : content cfg (w_fs w') = Some c) by exact (proj1 (proj2 XT) _ C).
  assert (cc = slice c (k * PL) (piece_size (c_info cfg) k)) as ->. { pose proof (proj1 XT _ _ Hk OD) as Q. cbn [disk_of] in OC. congruence. }
  rewrite slice_slice in X by (destruct ok as (ok1 & _); destruct (piece_size_eq cfg ok _ Hk) as [_ Hs]; unfold piece_size in Hs; nia).
  assert (XX : StorageSys.execs sha1 cfg env (Running w ts) (LCall (CGet k x y) :: repeat (LStep (List.length ts)) 1) = Some (Running w' (list_set (List.length ts) {| th_call := CGet k x y; th_pc := Done (RBlock (slice c (k * PL + x) y)) |} (ts ++ [th])), [Ret (CGet k x y) (RBlock (slice c (k * PL + x) y))])).
  { cbn [repeat StorageSys.execs]. replace (StorageSys.exec sha1 cfg env (Running w ts) (LCall (CGet k x y))) with (Some (Running w (ts ++ [th]), @nil StorageSys.event)) by reflexivity. cbn [StorageSys.execs].
    rewrite X. reflexivity. }
  destruct (DownloadStoreProofs.sh_call sha1 cfg env ok W FF c Wc f tick ls0 d t es0 w0 es1 U Rm E0 E1 w ts (CGet k x y) 1 _ _ Sh Logic.I XX) as (w9 & ts9 & Q & Sh' & _). injection Q as <- <-.
  eexists w', _. split; [exact XX|]. split; [exact Sh'|]. split; [|exact C'].
  pose proof (StorageMoreProofs.get_block_mem cfg env k x y (forget_past w)) as M2. destruct (get_block cfg env k x y (forget_past w)) as [w3 [d1|e1|]]; cbn [of_bytes] in X'; try discriminate X'; injection X' as <- _; cbn in M2; now rewrite M2.
Qed.
Hypothesis small : n <= 2 ^ 32 /\ PL <= 2 ^ 32.
Notation bw w := (t_bitfield (w_mem w)).
Lemma serves b H E w ts m0 L k x y : SH w ts -> content cfg (w_fs w) = Some c -> 0 <= k < n -> tile (piece_size (c_info cfg) k) x y -> exists w' ts' m',
  SH w' ts' /\ content cfg (w_fs w') = Some c /\ bw w' = bw w /\
  goes (st b true false H (THandler 0 HReceive :: E) (bw w) (Running w ts) [(0%nat, m0)] (TServe CRead :: L)) (st b true false H (THandler 0 HReceive :: E) (bw w) (Running w' ts') [(0%nat, m')] (TServe CRead :: L))
    [KRecv (mk_request k x y); KSent (mk_piece k x (slice c (k * PL + x) y))].
Proof using ok W FF Wc U Rm E0 E1 tp small.
  intros Sh C Hk Ti. destruct (get_run w ts k x y Sh C Hk Ti) as (w' & ts' & X & Sh' & B' & C'). exists w', ts', (mk_request k x y). split; [exact Sh'|]. split; [exact C'|]. split; [exact B'|].
  set (m := mk_request k x y). set (dd := slice c (k * PL + x) y) in *.
  assert (OW : on_wire m = true). { destruct Ti as (T1 & T2 & T3). unfold on_wire, m. cbn. assert (piece_size (c_info cfg) k <= PL) by (unfold piece_size; lia). lia. }
  eapply (viae _ _ _ [_] [_]); [apply (takes_in b true false H E (bw w) (Running w ts) _ L m OW); discriminate|].
  eapply via; [apply (handles b b true true false H E (CCheck (asked m)) HRequest _ _ L m [(0%nat, m0)] OW); reflexivity|]. rewrite mput_one.
  eapply (via _ (st b true false H (THandler 0 HRequest :: E) (bw w) (Running w ts) [(0%nat, m)] (TServe (CBlock (asked m)) :: L))). { go3 0%nat KOk (@nil kevent); reflexivity. }
  destruct (DownloadStoreProofs.sh_facts sha1 cfg env ok W FF c Wc f tick ls0 d t es0 w0 es1 U Rm E0 E1 w ts Sh) as (I & _).
  edestruct (call_runs sha1 cfg env own_hash own_id blank rid ok f (peer_to b true false) (THandler 0 HRequest :: E) None (reg_to H) (bw w) [] [(0%nat, JCall (List.length ts))] [(0%nat, m)] (conn_to false None (TServe (CBlock (asked m)) :: L)) [] [] 0%nat) as (w1 & ts1 & pc1 & G & X1 & _); [reflexivity|reflexivity|reflexivity|reflexivity|reflexivity|reflexivity|exact I|exact X|].
  eapply via; [exact G|].
  eapply (via _ (cl (peer_to b true false) (THandler 0 HRequest :: E) None (reg_to H) (bw w) (Running w' ts') [(0%nat, JBlock dd)] [(0%nat, m)] (conn_to false None (TServe (CPiece (asked m) dd SLock) :: L)) [])).
  { eapply step_get; [reflexivity|exact X1|reflexivity|reflexivity|reflexivity]. }
  eapply (via _ (cl (peer_to b true false) (THandler 0 HRequest :: E) None (reg_to H) (bw w) (Running w' ts') [(0%nat, JBlock dd)] [(0%nat, m)] (conn_to false (Some 0%nat) (TServe (CPiece (asked m) dd SWrite) :: L)) [])).
  { go3 0%nat KOk (@nil kevent); reflexivity. }
  eapply (viae _ (st b true false H (THandler 0 HLoop :: E) (bw w) (Running w' ts') [(0%nat, m)] (TServe CRead :: L)) _ [_] []).
  { eapply writes; reflexivity. }
  go1 0%nat COk; reflexivity.
Qed.

(** * What the other side sees, from this side *)
Definition flip (x : kevent) : kevent := match x with KSent m => KRecv m | KRecv m => KSent m | _ => x end.
Lemma serves_all tr : answers cfg c tr -> forall b H E w ts m0 L, SH w ts -> content cfg (w_fs w) = Some c -> (forall k, 0 <= k < n -> member (bw w) k) -> n <= 8 * zlen b -> n <= 8 * zlen (bw w) -> exists b' H' w' ts' m',
  SH w' ts' /\ content cfg (w_fs w') = Some c /\ bw w' = bw w /\
  goes (st b true false H (THandler 0 HReceive :: E) (bw w) (Running w ts) [(0%nat, m0)] (TServe CRead :: L)) (st b' true false H' (THandler 0 HReceive :: E) (bw w) (Running w' ts') [(0%nat, m')] (TServe CRead :: L)) (map flip tr).
Proof using ok W FF Wc U Rm E0 E1 tp small.
  induction 1 as [|i tr Hi A IH|k x y tr Hk Ti A IH]; intros b H E w ts m0 L Sh C Al Lb Lw.
  - exists b, H, w, ts, m0. repeat split; [exact Sh|exact C|]. apply goes_refl.
  - destruct (hears_haves (mk_have i) [i] true false b H E (bw w) (Running w ts) [(0%nat, m0)] L) as (b1 & H1 & G & Z); [unfold on_wire; cbn; lia|left; split; reflexivity|constructor; [|constructor]; split; [lia|split; [now apply Al|lia]]|].
    rewrite mput_one in G.
    destruct (IH b1 H1 E w ts (mk_have i) L Sh C Al ltac:(lia) Lw) as (b' & H' & w' & ts' & m' & Sh' & C' & B' & G'). exists b', H', w', ts', m'. split; [exact Sh'|]. split; [exact C'|]. split; [exact B'|]. cbn [map flip]. exact (viae _ _ _ [_] _ G G').
  - destruct (serves b H E w ts m0 L k x y Sh C Hk Ti) as (w1 & ts1 & m1 & Sh1 & C1 & B1 & G). rewrite <- B1 in Al, Lw.
    destruct (IH b H E w1 ts1 m1 L Sh1 C1 Al Lb Lw) as (b' & H' & w' & ts' & m' & Sh' & C' & B' & G'). exists b', H', w', ts', m'. split; [exact Sh'|]. split; [exact C'|]. split; [congruence|]. rewrite B1 in G'. cbn [map flip]. exact (viae _ _ _ [_; _] _ G G').
Qed.
Hypothesis all : forall k, 0 <= k < n -> member (bw w0) k.
Hypothesis C0 : content cfg (w_fs w0) = Some c.
Hypothesis Lb : n <= 8 * zlen blank.
Lemma seeds have tr : (forall j, member have j -> 0 <= j < n) -> answers cfg c tr -> exists u1 u2 u w ts,
  goes (ustart (Running w0 [])) u1 [KSent (mk_bitfield (bw w0))] /\ goes u1 u2 [KRecv (mk_bitfield have)] /\
  goes u2 u (KRecv (mk_plain INTERESTED) :: KSent (mk_plain UNCHOKE) :: map flip tr) /\
  s_crashed (srv u) = false /\ (exists q, s_peers (srv u) = [q] /\ q_id q = rid /\ q_ip q = ip /\ q_port q = port) /\ n_sto (u_node u) = Running w ts /\ content cfg (w_fs w) = Some c.
Proof using All.
  intros M A. pose proof (DownloadStoreProofs.sh_start sha1 cfg env c w0) as Sh0.
  destruct (DownloadStoreProofs.sh_facts sha1 cfg env ok W FF c Wc f tick ls0 d t es0 w0 es1 U Rm E0 E1 w0 [] Sh0) as (I & _).
  assert (HL : n <= 8 * zlen (bw w0)). { destruct I as (_ & (MI & _) & _). destruct MI as (_ & _ & _ & _ & ML & _). lia. }
  destruct (hears_haves (mk_bitfield have) (bf_items have) false true blank [] [] (bw w0) (Running w0 []) [] [TOver]) as (b1 & H1 & G2 & Z1); [reflexivity|right; split; reflexivity| |].
  { apply Forall_forall. intros i Hi. apply bf_items_spec, M in Hi. split; [lia|]. split; [now apply all|lia]. }
  destruct (serves_all tr A b1 H1 [TDone] w0 [] (mk_plain INTERESTED) [TOver; TOver] Sh0 C0 all ltac:(lia) HL) as (b' & H' & w' & ts' & m' & Sh' & C' & B' & G5).
  eexists _, _, _, w', ts'. split; [apply dials|]. split; [exact G2|]. split; [|split; [|split; [|split]]].
  - change (KRecv (mk_plain INTERESTED) :: KSent (mk_plain UNCHOKE) :: map flip tr) with ([KRecv (mk_plain INTERESTED)] ++ [KSent (mk_plain UNCHOKE)] ++ map flip tr).
    eapply viae; [apply hears_interest|]. eapply viae; [apply unchokes|exact G5].
  - reflexivity.
  - eexists. repeat split; reflexivity.
  - reflexivity.
  - exact C'.
Qed.
End Serve.
