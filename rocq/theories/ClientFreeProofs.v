(** Calls on the connections can return, and the locks can be released. *)
From Verif Require Import GoBase GoBaseProofs GoMap Bitfield PeerWire Requests Metainfo MetainfoSpec Fs Storage StorageSpec StorageSysSpec StorageSys Node NodeSpec NodeServerProofs NodeProofs NodeThms P2PServer P2PServerSpec P2PServerProofs P2PAnnounceProofs P2PConn P2PConnSpec P2PConnProofs
  Client ClientSpec ClientProofs ClientServerProofs ClientConnProofs ClientAskProofs ClientPullProofs ClientThms ClientWantProofs ClientWireProofs ClientWireThms ClientOwnProofs.
From Verif Require P2PRegistryProofs P2PLockProofs P2PServerThms.

(** Goroutines of the server in a call on a connection other than requestPiece. *)
Definition spoken (th : thread) : bool :=
  match th with
  | THandler _ HBitfield | TRequester _ (RNotInterest | RNotInterested) | TUnchoke _ _ | TPiece _ _ (PSend _ _) => true
  | _ => false
  end.
Section Free.
Variable sha1 : bytes -> bytes.
Variable cfg : config.
Variable env : nat -> Fs.choice.
Variable hash id blank : bytes.
Hypothesis ok : config_ok cfg.
Hypothesis fits : i_piece_length (c_info cfg) <= 2 ^ 63 - 16384.
Variable f0 : fs.
Variable tick0 : nat.
Variable ls0 : list label.
Variable w0 : world.
Variable es0 : list StorageSys.event.
Hypothesis unt : untouched cfg f0.
Hypothesis loaded : StorageSys.execs sha1 cfg env (Dead f0 tick0) ls0 = Some (Running w0 [], es0).
Hypothesis isblank : bf_new (num_pieces (c_info cfg)) = Some blank.
Notation nexec := (nexec sha1 cfg env hash id blank).
Notation uexec := (uexec sha1 cfg env hash id blank).
Notation uruns := (uruns sha1 cfg env hash id blank).
Notation sexec := (P2PServer.exec hash id blank).
Notation uinv := (uinv sha1 cfg env hash id blank w0).
Notation threads n := (s_threads (n_srv n)).
Set Default Proof Using "All".

(** * States that can be reached *)
Record good (c : client) (ev : list uevent) : Prop := {
  g_inv : uinv c ev; g_alive : s_crashed (srv c) = false; g_wire : wire_ok c; g_own : own_ok c }.
Lemma good_base c ev p K : good c ev -> nth_error (u_conns c) p = Some K -> base_ok K /\ mu_ok K.
Proof using. intros G N. destruct (ui_conns _ _ _ _ _ _ _ _ _ (g_inv _ _ G)) as (_ & _ & RK). destruct (RK _ _ N) as [l R]. split; [eapply base_run|eapply mu_run]; exact R. Qed.
Lemma good_len c ev : good c ev -> List.length (u_conns c) = List.length (s_peers (srv c)).
Proof using. intros G. apply (ui_conns _ _ _ _ _ _ _ _ _ (g_inv _ _ G)). Qed.
Lemma good_server c ev : good c ev -> exists l, P2PServerThms.inv l (srv c) (server_events ev).
Proof.
  intros G. destruct (server_run sha1 cfg env hash id blank ok f0 tick0 ls0 w0 es0 unt loaded isblank _ _ (ui_node _ _ _ _ _ _ _ _ _ (g_inv _ _ G))) as [sl SR]. exists sl. exact (P2PServerThms.run_inv _ _ _ _ _ _ _ SR).
Qed.
Lemma good_live c ev : good c ev -> NodeProofs.live (u_node c) (node_events ev).
Proof using. intros G. exact (i_live _ _ _ _ _ _ _ _ _ (ui_node _ _ _ _ _ _ _ _ _ (g_inv _ _ G)) (g_alive _ _ G)). Qed.
Lemma good_step c ev a c' e : good c ev -> uexec c a = Some (c', e) -> s_crashed (srv c') = false -> good c' (ev ++ e).
Proof.
  intros G X CR. pose proof (g_inv _ _ G) as U. split; [eapply uinv_step; eassumption|exact CR| |].
  - exact (proj1 (wire_step sha1 cfg env hash id blank ok fits f0 tick0 ls0 w0 es0 unt loaded isblank _ _ _ _ _ U (g_wire _ _ G) X) CR).
  - pose proof (g_wire _ _ G) as W. pose proof (g_own _ _ G) as O. pose proof (good_len _ _ G) as LEN. pose proof (fun p K N => proj1 (good_base _ _ p K G N)) as BASE. pose proof (good_live _ _ G) as LV.
    destruct (good_server _ _ G) as [sl V]. pose proof (P2PServerThms.v_hand _ _ _ V) as HO.
    apply uexec_ustep in X as [C S]. destruct S as [a0 n en c' X B U1 U2 U3 U4|a0 n en p k ch K K' ek c' X B N E U1 U2 U3 U4|t th p a0 K K' ek c' T M CC N E U1 U2 U3 U4|p k ch th K K' ek c' N T0 In0 E U1 U2 U3 U4].
    + assert (outcome c a0 n en c' []) as OU by (split; [exact U1|left; auto]). unfold srv in CR. rewrite U1 in CR. eapply own_node; eassumption.
    + assert (outcome c a0 n en c' (map (UK p) ek)) as OU by (split; [exact U1|right; do 6 eexists; eauto]). unfold srv in CR. rewrite U1 in CR. eapply own_node; eassumption.
    + eapply own_call; eassumption.
    + eapply own_conn; eassumption.
Qed.
Lemma good_start : good (ustart (Running w0 [])) [].
Proof.
  split; [apply uinv_start|reflexivity|apply wire_start|]. split; cbn.
  - intros [|p] k; discriminate.
  - intros [|p] k y; discriminate.
Qed.
Lemma good_run l c ev : uruns (ustart (Running w0 [])) l = Some (c, ev) -> s_crashed (srv c) = false -> good c ev.
Proof.
  intros R. revert l c ev R. apply (uruns_ind sha1 cfg env hash id blank (fun c ev => s_crashed (srv c) = false -> good c ev)); [intros _; exact good_start|].
  intros c ev a c' e G X CR. assert (s_crashed (srv c) = false) as C by apply (uexec_ustep _ _ _ _ _ _ _ _ _ _ X). eapply good_step; eauto.
Qed.
(** [m] steps lead from c to a state with Q. *)
Definition within (m : nat) (c : client) (ev : list uevent) (Q : client -> Prop) : Prop :=
  exists l c' e, (List.length l <= m)%nat /\ uruns c l = Some (c', e) /\ good c' (ev ++ e) /\ Q c'.
Lemma within_now m c ev (Q : client -> Prop) : good c ev -> Q c -> within m c ev Q.
Proof using. intros G H. exists [], c, []. split; [cbn; lia|]. split; [reflexivity|]. rewrite app_nil_r. auto. Qed.
Lemma within_step m c ev a c1 e1 Q : uexec c a = Some (c1, e1) -> within m c1 (ev ++ e1) Q -> within (S m) c ev Q.
Proof using.
  intros X (l & c' & e & L & R & G & H). exists (a :: l), c', (e1 ++ e). split; [cbn; lia|]. split; [cbn [Client.uruns]; now rewrite X, R|]. rewrite app_assoc. auto.
Qed.
Lemma within_more m m' c ev Q : (m <= m')%nat -> within m c ev Q -> within m' c ev Q.
Proof using. intros L (l & c' & e & L1 & H). exists l, c', e. split; [lia|exact H]. Qed.
Lemma within_impl m c ev (Q Q' : client -> Prop) : (forall c', Q c' -> Q' c') -> within m c ev Q -> within m c ev Q'.
Proof using. intros I (l & c' & e & L1 & R & G & H). exists l, c', e. auto. Qed.
(** * Steps that are possible *)
Definition node_after (c : client) (t : nat) (ch : choice) (s' : sys) : node :=
  {| n_srv := s'; n_sto := n_sto (u_node c); n_jobs := mdel Nat.eqb t (n_jobs (u_node c)); n_msgs := note (AGo t ch) (u_node c) |}.
Lemma server_alone c t th ch s' e : s_crashed (srv c) = false -> thread_of c t = Some th -> free_to (u_node c) (AGo t ch) = true -> sexec (srv c) (AGo t ch) = Some (s', e) -> beside_server c t th ch = Alone ->
  exists c' e', uexec c (UNode (NServer (AGo t ch))) = Some (c', e') /\ srv c' = s'.
Proof using.
  intros C T F X B. unfold Client.uexec. rewrite C. unfold Node.nexec. fold (srv c). rewrite C, F. unfold serve. fold (srv c). rewrite X. cbn [beside_node]. rewrite T, B. do 2 eexists. split; reflexivity.
Qed.
Lemma server_with c t th ch s' e p k kc K K' ek : s_crashed (srv c) = false -> thread_of c t = Some th -> free_to (u_node c) (AGo t ch) = true -> sexec (srv c) (AGo t ch) = Some (s', e) -> beside_server c t th ch = With p k kc ->
  nth_error (u_conns c) p = Some K -> kexec K (KGo k kc) = Some (K', ek) ->
  exists c' e', uexec c (UNode (NServer (AGo t ch))) = Some (c', e') /\ srv c' = s' /\ conns_moved c c' p K K' /\ u_calls c' = (if in_call (nth_error (s_threads s') t) then u_calls c else mdel Nat.eqb t (u_calls c)).
Proof using.
  intros C T F X B N E. unfold Client.uexec. rewrite C. unfold Node.nexec. fold (srv c). rewrite C, F. unfold serve. fold (srv c). rewrite X. cbn [beside_node]. rewrite T, B. unfold conn_step. rewrite N, E.
  do 2 eexists. split; [reflexivity|]. split; [reflexivity|]. split; [|reflexivity]. split; [exact N|]. eexists. reflexivity.
Qed.
Lemma conn_goes c p k ch y K K' ek : s_crashed (srv c) = false -> nth_error (u_conns c) p = Some K -> nth_error (k_threads K) k = Some y -> inside c p y ch = true -> kexec K (KGo k ch) = Some (K', ek) ->
  exists c' e', uexec c (UConn p k ch) = Some (c', e') /\ u_node c' = u_node c /\ conns_moved c c' p K K' /\ u_calls c' = u_calls c.
Proof using.
  intros C N T I E. unfold Client.uexec. rewrite C, N, T, I. unfold conn_step. rewrite N, E. do 2 eexists. split; [reflexivity|]. split; [reflexivity|]. split; [|reflexivity]. split; [exact N|]. exists O. cbn. now rewrite app_nil_r.
Qed.
(** What a step leaves alone: a goroutine in a call on the connection of p, in the server and in the connection. *)
Definition rests (c c' : client) (t p k : nat) : Prop :=
  forall th y, thread_of c t = Some th -> mget Nat.eqb t (u_calls c) = Some (p, k) -> conn_thread c p k = Some y ->
  thread_of c' t = Some th /\ mget Nat.eqb t (u_calls c') = Some (p, k) /\ conn_thread c' p k = Some y.
Lemma node_rests c ev a c' e' p K K' k kc ek t k1 : good c ev -> uexec c (UNode a) = Some (c', e') -> conns_moved c c' p K K' -> kexec K (KGo k kc) = Some (K', ek) -> ~ nturn t a -> k1 <> k ->
  rests c c' t p k1.
Proof using.
  intros G X M E N NE th y T C Y. assert (exists n e, nexec (u_node c) a = Some (n, e) /\ u_node c' = n /\ u_calls c' = calls_after a n c) as (n & e & Xn & Un & Uc).
  { unfold Client.uexec in X. destruct (s_crashed (srv c)); [discriminate X|]. destruct (nexec (u_node c) a) as [[n e]|] eqn:Xn; [|discriminate X]. exists n, e.
    destruct (beside_node c a n e) as [|pp kk cc|]; [|destruct (conn_step c pp (KGo kk cc)) as [[c1 ek1]|]; [|discriminate X]|discriminate X]; injection X as <- <-; auto. }
  repeat split.
  - unfold thread_of, srv. rewrite Un. eapply nstays; eassumption.
  - rewrite Uc, calls_keep by exact N. exact C.
  - eapply moved_thread; [exact M| |exact E|exact Y|now right]. eapply (good_base _ _ _ _ G). apply M.
Qed.
Lemma conn_rests c ev c' p K K' k kc ek t k1 : good c ev -> u_node c' = u_node c -> u_calls c' = u_calls c -> conns_moved c c' p K K' -> kexec K (KGo k kc) = Some (K', ek) -> k1 <> k -> rests c c' t p k1.
Proof using.
  intros G U1 U2 M E NE th y T C Y. repeat split.
  - unfold thread_of, srv. now rewrite U1.
  - now rewrite U2.
  - eapply moved_thread; [exact M| |exact E|exact Y|now right]. eapply (good_base _ _ _ _ G). apply M.
Qed.
Lemma good_peer c ev t th p : good c ev -> thread_of c t = Some th -> P2PLockProofs.names_peer th p -> exists q K, nth_error (s_peers (srv c)) p = Some q /\ nth_error (u_conns c) p = Some K.
Proof.
  intros G T Nm. destruct (good_server _ _ G) as [sl V]. pose proof (P2PServerThms.v_range _ _ _ V th p (nth_error_In _ _ T) Nm) as L.
  destruct (nth_error (s_peers (srv c)) p) as [q|] eqn:Q; [|apply nth_error_None in Q; lia]. destruct (nth_error (u_conns c) p) as [K|] eqn:N; [eauto|]. apply nth_error_None in N. rewrite (good_len _ _ G) in N. lia.
Qed.
(** * The lock of a connection *)
(** Whoever holds it is writing; when the write ends, the lock is free. *)
Lemma serve_zero c ev p K k h : good c ev -> nth_error (u_conns c) p = Some K -> nth_error (k_threads K) k = Some (TServe h) -> k = O /\ serve_at c p = Some h.
Proof using. intros G N T. destruct (good_base _ _ _ _ G N) as [(_ & _ & _ & _ & Z) _]. pose proof (Z _ _ T) as ->. split; [reflexivity|]. unfold serve_at. now rewrite N, T. Qed.
Lemma turn_go t u ch : nturn t (NServer (AGo u ch)) -> t = u.
Proof using. intros [[ch' H]|[H|[H|[b H]]]]; try discriminate H. now injection H as ->. Qed.
Ltac nope PL := repeat match type of PL with
  | False => destruct PL
  | _ \/ _ => destruct PL as [PL|PL]
  | ex _ => destruct PL as [? PL]
  | _ /\ _ => destruct PL as [? PL]
  | context [match ?o with _ => _ end] => destruct o
  end; try discriminate PL.
Lemma lock_freed c ev p K k : good c ev -> nth_error (u_conns c) p = Some K -> k_mu K = Some k ->
  exists a c' e' K', uexec c a = Some (c', e') /\ s_crashed (srv c') = false /\ nth_error (u_conns c') p = Some K' /\ k_mu K' = None /\ (forall t k1, k1 <> k -> rests c c' t p k1) /\ forall k1 y1, k1 <> k -> conn_thread c p k1 = Some y1 -> conn_thread c' p k1 = Some y1.
Proof.
  intros G N MU. destruct (good_base _ _ _ _ G N) as [B M]. destruct (M _ MU) as (y & Y & WR). pose proof (g_alive _ _ G) as AL. assert (k_crashed K = false) as KC by apply B.
  assert (conn_thread c p k = Some y) as CY by (unfold conn_thread; now rewrite N).
  assert (forall t th ch s' e p0 kc K' ek, p0 = p -> thread_of c t = Some th -> free_to (u_node c) (AGo t ch) = true -> sexec (srv c) (AGo t ch) = Some (s', e) -> s_crashed s' = false -> beside_server c t th ch = With p0 k kc -> kexec K (KGo k kc) = Some (K', ek) -> k_mu K' = None ->
    (forall k1, k1 <> k -> mget Nat.eqb t (u_calls c) <> Some (p, k1)) ->
    exists a c' e' K', uexec c a = Some (c', e') /\ s_crashed (srv c') = false /\ nth_error (u_conns c') p = Some K' /\ k_mu K' = None /\ (forall t k1, k1 <> k -> rests c c' t p k1) /\ forall k1 y1, k1 <> k -> conn_thread c p k1 = Some y1 -> conn_thread c' p k1 = Some y1) as GO.
  { intros t th ch s' e p0 kc K' ek -> T F X CR BE E KM OTH. destruct (server_with c t th ch s' e p k kc K K' ek AL T F X BE N E) as (c' & e' & X' & S' & MV & UC). exists (UNode (NServer (AGo t ch))), c', e', K'. split; [exact X'|]. split; [now rewrite S'|]. split; [eapply moved_same; exact MV|]. split; [exact KM|]. split; [|intros k1 y1 NE Y1; eapply moved_thread; [exact MV|exact B|exact E|exact Y1|now right]].
    intros u k1 NE th1 y1 T1 C1 Y1. eapply (node_rests c ev _ _ _ _ _ _ _ _ _ u k1 G X' MV E); try eassumption. intros TU. apply turn_go in TU as ->. exact (OTH k1 NE C1). }
  destruct y as [h|todo kids|r q|f o|m sd|]; try discriminate WR.
  - destruct (serve_zero _ _ _ _ _ _ G N Y) as [-> SA]. destruct (o_serve _ (g_own _ _ G) _ _ SA) as [ID|(t & hh & T)].
    { exfalso. destruct ID as [->|[->| ->]]; discriminate WR. }
    destruct (w_serve _ (g_wire _ _ G) _ _ _ T) as (k' & SA' & PL). rewrite SA in SA'. injection SA' as <-.
    destruct (good_peer _ _ _ _ p G T eq_refl) as (q & _ & Q & _).
    assert (forall k1, hh <> HBitfield -> mget Nat.eqb t (u_calls c) <> Some (p, k1)) as OT.
    { intros k1 NB C1. destruct (w_calls _ (g_wire _ _ G) _ _ _ C1) as (th1 & y1 & T1 & Y1 & SP). rewrite T in T1. injection T1 as <-. destruct hh; cbn in SP; try exact SP; try contradiction. }
    destruct h as [| | | |[|]| | |r d [|]| |]; try discriminate WR.
    + destruct hh; cbn in PL; try (exfalso; nope PL; fail).
      eapply (GO t _ CErr); [reflexivity|exact T| | | | | | |].
      * unfold free_to. fold (srv c). unfold thread_of in T. rewrite T. reflexivity.
      * unfold P2PServer.exec. rewrite AL. unfold step_thread. unfold thread_of in T. rewrite T. unfold step_handler. rewrite Q. reflexivity.
      * exact AL.
      * cbn [beside_server result_of]. rewrite SA. reflexivity.
      * unfold kexec. rewrite KC, Y. reflexivity.
      * reflexivity.
      * intros k1 _. apply OT. discriminate.
    + destruct hh; cbn in PL; try (exfalso; nope PL; fail).
      destruct PL as (x & MX & PL). destruct (job_of c t) as [[j| |d1]|] eqn:J; try contradiction; [discriminate PL| |destruct PL as [PL|[PL|[PL|PL]]]; discriminate PL].
      destruct r as [[ri rb] rl].
      assert (exists s' e, sexec (srv c) (AGo t CErr) = Some (s', e) /\ s_crashed s' = false) as (s' & e & X & CR).
      { do 2 eexists. split; [unfold P2PServer.exec; rewrite AL; unfold step_thread; unfold thread_of in T; rewrite T; unfold step_handler; rewrite Q; reflexivity|exact AL]. }
      assert (exists n e, nexec (u_node c) (NWrite t false) = Some (n, e) /\ n_srv n = s') as (n & en & Xn & Sn).
      { unfold Node.nexec. fold (srv c). rewrite AL. unfold job_of in J. rewrite J. unfold thread_of in T. rewrite T. unfold msg_of in MX. rewrite MX. unfold serve. fold (srv c). rewrite X. do 2 eexists. split; reflexivity. }
      assert (exists c' e', uexec c (UNode (NWrite t false)) = Some (c', e') /\ srv c' = s' /\ conns_moved c c' p K (kgoto 0 (TServe CEnd) (set_kmu None K))) as (c' & e' & X' & S' & MV).
      { unfold Client.uexec. rewrite AL, Xn. cbn [beside_node]. rewrite T, SA. unfold conn_step. rewrite N. unfold kexec. rewrite KC, Y. cbn [step_serve finish_write]. do 2 eexists. split; [reflexivity|]. split; [exact Sn|]. split; [exact N|]. eexists. reflexivity. }
      exists (UNode (NWrite t false)), c', e', (kgoto 0 (TServe CEnd) (set_kmu None K)). split; [exact X'|]. split; [now rewrite S'|]. split; [eapply moved_same; exact MV|]. split; [reflexivity|].
      split; [|intros k1 y2 NE Y1; eapply (moved_thread _ _ _ _ _ 0%nat KErr [KFailed (mk_piece ri rb d)]); [exact MV|exact B|unfold kexec; rewrite KC, Y; reflexivity|exact Y1|now right]].
      intros u k1 NE th1 y1 T1 C1 Y1. eapply (node_rests c ev _ _ _ _ _ _ 0%nat KErr [KFailed (mk_piece ri rb d)] u k1 G X' MV); try eassumption; [unfold kexec; rewrite KC, Y; reflexivity|].
      intros TU. assert (u = t) as ->. { destruct TU as [[ch' H]|[H|[H|[bb H]]]]; try discriminate H. now injection H as ->. } apply (OT k1); [discriminate|exact C1].
  - destruct q as [| |fu [|]| | |]; try discriminate WR. destruct (conn_goes c p k KErr _ K _ _ AL N Y eq_refl ltac:(unfold kexec; rewrite KC, Y; reflexivity)) as (c' & e' & X' & U1 & MV & U2).
    do 4 eexists. split; [exact X'|]. split; [unfold srv; rewrite U1; exact AL|]. split; [eapply moved_same; exact MV|]. split; [reflexivity|]. split; [|intros k1 y2 NE Y1; eapply (moved_thread _ _ _ _ _ k KErr); [exact MV|exact B|unfold kexec; rewrite KC, Y; reflexivity|exact Y1|now right]]. intros t k1 NE. eapply (conn_rests c ev) with (kc := KErr); try eassumption. unfold kexec. rewrite KC, Y. reflexivity.
  - destruct o as [[|]|]; try discriminate WR. destruct (o_calls _ (g_own _ _ G) _ _ _ CY eq_refl) as [t MC]. destruct (w_calls _ (g_wire _ _ G) _ _ _ MC) as (th & y1 & T & Y1 & SP). rewrite CY in Y1. injection Y1 as <-.
    assert (forall k1, k1 <> k -> mget Nat.eqb t (u_calls c) <> Some (p, k1)) as OT by (intros k1 NE; rewrite MC; intros [=]; congruence).
    destruct th as [| |q h|q r|q i r| |q b| |]; try (destruct h); try (destruct r); try (destruct b); try contradiction; cbn in SP; destruct f; try contradiction; subst q.
    + destruct (good_peer _ _ _ _ p G T eq_refl) as (q & _ & Q & _). eapply (GO t _ CErr); [reflexivity|exact T| | | | | | |exact OT].
      * unfold free_to. fold (srv c). unfold thread_of in T. rewrite T. reflexivity.
      * unfold P2PServer.exec. rewrite AL. unfold step_thread. unfold thread_of in T. rewrite T. unfold step_requester. rewrite Q. reflexivity.
      * exact AL.
      * cbn [beside_server]. unfold called. rewrite MC, N, Y. reflexivity.
      * unfold kexec. rewrite KC, Y. reflexivity.
      * reflexivity.
    + eapply (GO t _ CErr); [reflexivity|exact T| | | | | | |exact OT].
      * unfold free_to. fold (srv c). unfold thread_of in T. rewrite T. reflexivity.
      * unfold P2PServer.exec. rewrite AL. unfold step_thread. unfold thread_of in T. rewrite T. reflexivity.
      * exact AL.
      * cbn [beside_server]. unfold called. rewrite MC, N, Y. reflexivity.
      * unfold kexec. rewrite KC, Y. reflexivity.
      * reflexivity.
  - destruct sd; try discriminate WR. destruct (o_calls _ (g_own _ _ G) _ _ _ CY eq_refl) as [t MC]. destruct (w_calls _ (g_wire _ _ G) _ _ _ MC) as (th & y1 & T & Y1 & SP). rewrite CY in Y1. injection Y1 as <-.
    assert (forall k1, k1 <> k -> mget Nat.eqb t (u_calls c) <> Some (p, k1)) as OT by (intros k1 NE; rewrite MC; intros [=]; congruence).
    destruct th as [| |q h|q r|q i r| |q b| |]; try (destruct h); try (destruct r); try (destruct b); try contradiction; cbn in SP.
    + destruct SP as [-> _]. destruct (good_peer _ _ _ _ p G T eq_refl) as (q & _ & Q & _). eapply (GO t _ CErr); [reflexivity|exact T| | | | | | |exact OT].
      * unfold free_to. fold (srv c). unfold thread_of in T. rewrite T. reflexivity.
      * unfold P2PServer.exec. rewrite AL. unfold step_thread. unfold thread_of in T. rewrite T. unfold step_handler. rewrite Q. reflexivity.
      * exact AL.
      * cbn [beside_server]. unfold called. rewrite MC, N, Y. reflexivity.
      * unfold kexec. rewrite KC, Y. reflexivity.
      * reflexivity.
    + destruct SP as [-> _]. destruct (good_peer _ _ _ _ q G T ltac:(now left)) as (qq & _ & Q & _). eapply (GO t _ CErr); [reflexivity|exact T| | | | | | |exact OT].
      * unfold free_to. fold (srv c). unfold thread_of in T. rewrite T. reflexivity.
      * unfold P2PServer.exec. rewrite AL. unfold step_thread. unfold thread_of in T. rewrite T. unfold step_piece. rewrite Q. reflexivity.
      * exact AL.
      * cbn [beside_server]. unfold called. rewrite MC, N, Y. reflexivity.
      * unfold kexec. rewrite KC, Y. reflexivity.
      * reflexivity.
Qed.
(** * Calls return *)
Definition returned (t : nat) (th : thread) (c : client) : Prop :=
  mget Nat.eqb t (u_calls c) = None /\ (exists th', thread_of c t = Some th' /\ spoken th' = false) /\ (holding th = true -> s_mu (srv c) = None).
Lemma mdel_none (l : list (nat * (nat * nat))) t : mget Nat.eqb t (mdel Nat.eqb t l) = None.
Proof using. rewrite (mget_del _ Nat.eqb_eq), Nat.eqb_refl. reflexivity. Qed.
Lemma free_go c t th ch : thread_of c t = Some th -> without th (job_of c t) ch = true -> (forall m, ch <> CMsg m) -> free_to (u_node c) (AGo t ch) = true.
Proof using. intros T F NM. unfold free_to. fold (srv c). unfold thread_of in T. rewrite T. unfold job_of in F. rewrite F. destruct ch; try reflexivity. exfalso. eapply NM. reflexivity. Qed.
Lemma set_there (l : list thread) t th th' : nth_error l t = Some th -> nth_error (list_set t th' l) t = Some th'.
Proof using. intros T. apply list_set_nth_eq. apply nth_error_Some. congruence. Qed.
Lemma call_ends c ev t th p k y : good c ev -> thread_of c t = Some th -> spoken th = true -> mget Nat.eqb t (u_calls c) = Some (p, k) -> conn_thread c p k = Some y -> writing y = true -> within 1 c ev (returned t th).
Proof.
  intros G T SPK MC CY WR. pose proof (g_alive _ _ G) as AL. destruct (w_calls _ (g_wire _ _ G) _ _ _ MC) as (th1 & y1 & T1 & Y1 & SP). rewrite T in T1. injection T1 as <-. rewrite CY in Y1. injection Y1 as <-.
  assert (exists K, nth_error (u_conns c) p = Some K /\ nth_error (k_threads K) k = Some y) as (K & N & Y). { unfold conn_thread in CY. destruct (nth_error (u_conns c) p) as [K|]; [eauto|discriminate CY]. }
  destruct (good_base _ _ _ _ G N) as [B M]. assert (k_crashed K = false) as KC by apply B.
  assert (forall s' e th', sexec (srv c) (AGo t CErr) = Some (s', e) -> s_crashed s' = false -> nth_error (s_threads s') t = Some th' -> in_call (Some th') = false -> spoken th' = false -> (holding th = true -> s_mu s' = None) -> free_to (u_node c) (AGo t CErr) = true ->
    beside_server c t th CErr = With p k KErr -> within 1 c ev (returned t th)) as GO.
  { intros s' e th' X CR T' IC SN HM F BE. assert (exists K' ek, kexec K (KGo k KErr) = Some (K', ek)) as (K' & ek & E).
    { unfold kexec. rewrite KC, Y. destruct th as [| |q [| | | | | | | | | | | | | | | |]|q []|q i []| |q []| |]; try discriminate SPK; destruct y as [| | |f [[|]|]|m [|]|]; try discriminate WR; try contradiction; cbn; eauto. }
    destruct (server_with c t th CErr s' e p k KErr K K' ek AL T F X BE N E) as (c' & e' & X' & S' & MV & UC). eapply within_step; [exact X'|]. apply within_now; [eapply good_step; [exact G|exact X'|now rewrite S']|].
    split; [|split].
    - rewrite UC, T', IC. apply mdel_none.
    - exists th'. split; [|exact SN]. unfold thread_of. now rewrite S'.
    - rewrite S'. exact HM. }
  unfold thread_of in T. destruct th as [| |q h|q r|q i r| |q b| |]; try discriminate SPK; try (destruct h; try discriminate SPK); try (destruct r; try discriminate SPK); try (destruct b); destruct y as [| | |f [[|]|]|m [|]|]; try discriminate WR; try contradiction.
  - destruct (good_peer _ _ _ _ q G T eq_refl) as (qq & _ & Q & _). eapply GO; [unfold P2PServer.exec; rewrite AL; unfold step_thread; rewrite T; unfold step_handler; rewrite Q; reflexivity|exact AL|exact (set_there _ _ _ _ T)|reflexivity|reflexivity|reflexivity|eapply free_go; [exact T|reflexivity|discriminate]|].
    cbn [beside_server]. unfold called. rewrite MC, N, Y. reflexivity.
  - destruct f; contradiction.
  - destruct (good_peer _ _ _ _ q G T eq_refl) as (qq & _ & Q & _). eapply GO; [unfold P2PServer.exec; rewrite AL; unfold step_thread; rewrite T; unfold step_requester; rewrite Q; reflexivity|exact AL|exact (set_there _ _ _ _ T)|reflexivity|reflexivity|reflexivity|eapply free_go; [exact T|reflexivity|discriminate]|].
    cbn [beside_server]. unfold called. rewrite MC, N, Y. reflexivity.
  - destruct (good_peer _ _ _ _ q G T ltac:(now left)) as (qq & _ & Q & _). eapply GO; [unfold P2PServer.exec; rewrite AL; unfold step_thread; rewrite T; unfold step_piece; rewrite Q; reflexivity|exact AL|exact (set_there _ _ _ _ T)|reflexivity|reflexivity|discriminate|eapply free_go; [exact T|reflexivity|discriminate]|].
    cbn [beside_server]. unfold called. rewrite MC, N, Y. reflexivity.
  - eapply GO; [unfold P2PServer.exec; rewrite AL; unfold step_thread; rewrite T; reflexivity|exact AL|exact (set_there _ _ _ _ T)|reflexivity|reflexivity|discriminate|eapply free_go; [exact T|reflexivity|discriminate]|].
    cbn [beside_server]. unfold called. rewrite MC, N, Y. reflexivity.
  - destruct f; contradiction.
Qed.
Definition waiting (y : kthread) : bool := match y with TFlag _ (Some SLock) | TSend _ SLock => true | _ => false end.
Lemma call_waits c ev t th p k y : good c ev -> thread_of c t = Some th -> spoken th = true -> mget Nat.eqb t (u_calls c) = Some (p, k) -> conn_thread c p k = Some y -> waiting y = true -> within 3 c ev (returned t th).
Proof.
  intros G T SPK MC CY WT.
  assert (forall c ev K, good c ev -> thread_of c t = Some th -> mget Nat.eqb t (u_calls c) = Some (p, k) -> conn_thread c p k = Some y -> nth_error (u_conns c) p = Some K -> k_mu K = None -> within 2 c ev (returned t th)) as TAKE.
  { clear c ev G T MC CY. intros c ev K G T MC CY N MU. pose proof (g_alive _ _ G) as AL. assert (nth_error (k_threads K) k = Some y) as Y by (unfold conn_thread in CY; rewrite N in CY; exact CY).
    destruct (good_base _ _ _ _ G N) as [B _]. assert (k_crashed K = false) as KC by apply B.
    assert (exists y', writing y' = true /\ kexec K (KGo k KOk) = Some (kgoto k y' (set_kmu (Some k) K), [])) as (y' & WR & E).
    { unfold kexec. rewrite KC, Y. destruct y as [| | |f [[|]|]|m [|]|]; try discriminate WT; cbn; unfold take_lock; rewrite MU; eexists; split; try reflexivity; reflexivity. }
    assert (inside c p y KOk = true) as IN. { destruct y as [| | |f [[|]|]|m [|]|]; try discriminate WT; reflexivity. }
    destruct (conn_goes c p k KOk y K _ _ AL N Y IN E) as (c' & e' & X' & U1 & MV & U2). eapply within_step; [exact X'|].
    eapply (call_ends c' _ t th p k y'); [eapply good_step; [exact G|exact X'|unfold srv; rewrite U1; exact AL]|unfold thread_of, srv; rewrite U1; exact T|exact SPK|rewrite U2; exact MC| |exact WR].
    unfold conn_thread. rewrite (moved_same _ _ _ _ _ MV). cbn. apply list_set_nth_eq. apply nth_error_Some. congruence. }
  assert (exists K, nth_error (u_conns c) p = Some K) as (K & N). { unfold conn_thread in CY. destruct (nth_error (u_conns c) p) as [K|]; [eauto|discriminate CY]. }
  destruct (k_mu K) as [k0|] eqn:MU; [|apply (within_more 2); [lia|]; eapply TAKE; eassumption].
  destruct (lock_freed _ _ _ _ _ G N MU) as (a & c' & e' & K' & X' & CR & N' & MU' & RS & _).
  assert (k <> k0) as NE. { intros ->. destruct (good_base _ _ _ _ G N) as [_ M]. destruct (M _ MU) as (y1 & Y1 & WR). unfold conn_thread in CY. rewrite N, Y1 in CY. injection CY as ->. destruct y as [| | |f [[|]|]|m [|]|]; discriminate. }
  destruct (RS t k NE th y T MC CY) as (T' & MC' & CY'). eapply within_step; [exact X'|]. eapply TAKE; try eassumption. eapply good_step; eassumption.
Qed.
Lemma call_flag c ev t th p k f : good c ev -> thread_of c t = Some th -> spoken th = true -> mget Nat.eqb t (u_calls c) = Some (p, k) -> conn_thread c p k = Some (TFlag f None) -> within 4 c ev (returned t th).
Proof.
  intros G T SPK MC CY. pose proof (g_alive _ _ G) as AL. destruct (w_calls _ (g_wire _ _ G) _ _ _ MC) as (th1 & y1 & T1 & Y1 & SP). rewrite T in T1. injection T1 as <-. rewrite CY in Y1. injection Y1 as <-.
  assert (exists K, nth_error (u_conns c) p = Some K /\ nth_error (k_threads K) k = Some (TFlag f None)) as (K & N & Y). { unfold conn_thread in CY. destruct (nth_error (u_conns c) p) as [K|]; [eauto|discriminate CY]. }
  destruct (good_base _ _ _ _ G N) as [B _]. assert (k_crashed K = false) as KC by apply B.
  assert (exists q, nth_error (s_peers (srv c)) p = Some q) as [q Q]. { destruct (nth_error (s_peers (srv c)) p) as [q|] eqn:Q; [eauto|]. apply nth_error_None in Q. rewrite <- (good_len _ _ G) in Q. apply nth_error_None in Q. congruence. }
  pose proof (w_flags _ (g_wire _ _ G) _ _ _ Q N) as FL. unfold sflags, flags in FL.
  assert (forall s' e th' y' K' ek, sexec (srv c) (AGo t COk) = Some (s', e) -> s_crashed s' = false -> nth_error (s_threads s') t = Some th' -> kexec K (KGo k KOk) = Some (K', ek) -> nth_error (k_threads K') k = Some y' ->
    free_to (u_node c) (AGo t COk) = true -> beside_server c t th COk = With p k KOk ->
    (in_call (Some th') = false /\ spoken th' = false /\ (holding th = true -> s_mu s' = None)) \/ (in_call (Some th') = true /\ spoken th' = true /\ holding th' = holding th /\ waiting y' = true) -> within 4 c ev (returned t th)) as GO.
  { intros s' e th' y' K' ek X CR T' E Y' F BE D. destruct (server_with c t th COk s' e p k KOk K K' ek AL T F X BE N E) as (c' & e' & X' & S' & MV & UC). eapply within_step; [exact X'|].
    assert (good c' (ev ++ e')) as G' by (eapply good_step; [exact G|exact X'|now rewrite S']). destruct D as [(IC & SN & HM)|(IC & SN & HM & WT)].
    - apply within_now; [exact G'|]. split; [rewrite UC, T', IC; apply mdel_none|]. split; [|rewrite S'; exact HM]. exists th'. split; [|exact SN]. unfold thread_of. now rewrite S'.
    - eapply within_impl; [|eapply (call_waits c' _ t th' p k y'); [exact G'|unfold thread_of; now rewrite S'|exact SN|rewrite UC, T', IC; exact MC| |exact WT]].
      + intros c2 (R1 & R2 & R3). split; [exact R1|]. split; [exact R2|]. now rewrite HM in R3.
      + unfold conn_thread. rewrite (moved_same _ _ _ _ _ MV). exact Y'. }
  unfold thread_of in T. destruct th as [| |p1 h|p1 r|p1 i r| |p1 b| |]; try discriminate SPK; try (destruct h; try discriminate SPK); try (destruct r; try discriminate SPK); try (destruct b); try contradiction; cbn in SP; destruct f; try contradiction; subst p1.
  - destruct (q_interested q) eqn:QI.
    + eapply GO; [unfold P2PServer.exec; rewrite AL; unfold step_thread; rewrite T; unfold step_requester; rewrite Q, QI; reflexivity|exact AL|exact (set_there _ _ _ _ T)| | |eapply free_go; [exact T|reflexivity|discriminate]| |].
      * unfold kexec. rewrite KC, Y. cbn. replace (k_interested K) with true by congruence. reflexivity.
      * cbn. apply list_set_nth_eq. apply nth_error_Some. congruence.
      * cbn [beside_server]. unfold called. rewrite MC, N, Y. reflexivity.
      * right. auto.
    + eapply GO; [unfold P2PServer.exec; rewrite AL; unfold step_thread; rewrite T; unfold step_requester; rewrite Q, QI; reflexivity|exact AL|exact (set_there _ _ _ _ T)| | |eapply free_go; [exact T|reflexivity|discriminate]| |].
      * unfold kexec. rewrite KC, Y. cbn. replace (k_interested K) with false by congruence. reflexivity.
      * cbn. apply list_set_nth_eq. apply nth_error_Some. congruence.
      * cbn [beside_server]. unfold called. rewrite MC, N, Y. reflexivity.
      * left. auto.
  - destruct (q_choked q) eqn:QI.
    + eapply GO; [unfold P2PServer.exec; rewrite AL; unfold step_thread; rewrite T, Q, QI; reflexivity|exact AL|exact (set_there _ _ _ _ T)| | |eapply free_go; [exact T|reflexivity|discriminate]| |].
      * unfold kexec. rewrite KC, Y. cbn. replace (k_choked K) with true by congruence. reflexivity.
      * cbn. apply list_set_nth_eq. apply nth_error_Some. congruence.
      * cbn [beside_server]. unfold called. rewrite MC, N, Y. reflexivity.
      * right. auto.
    + eapply GO; [unfold P2PServer.exec; rewrite AL; unfold step_thread; rewrite T, Q, QI; reflexivity|exact AL|exact (set_there _ _ _ _ T)| | |eapply free_go; [exact T|reflexivity|discriminate]| |].
      * unfold kexec. rewrite KC, Y. cbn. replace (k_choked K) with false by congruence. reflexivity.
      * cbn. apply list_set_nth_eq. apply nth_error_Some. congruence.
      * cbn [beside_server]. unfold called. rewrite MC, N, Y. reflexivity.
      * left. split; [reflexivity|]. split; [reflexivity|]. discriminate.
Qed.
Lemma call_in c ev t th p k : good c ev -> thread_of c t = Some th -> spoken th = true -> mget Nat.eqb t (u_calls c) = Some (p, k) -> within 4 c ev (returned t th).
Proof.
  intros G T SPK MC. destruct (w_calls _ (g_wire _ _ G) _ _ _ MC) as (th1 & y & T1 & Y & SP). rewrite T in T1. injection T1 as <-.
  destruct y as [| | |f [[|]|]|m [|]|]; try (exfalso; destruct th as [| |q1 []|q1 []|q1 i []| |q1 []| |]; try discriminate SPK; cbn in SP; destruct SP; fail).
  - apply (within_more 3); [lia|]. eapply call_waits; try eassumption. reflexivity.
  - apply (within_more 1); [lia|]. eapply call_ends; try eassumption. reflexivity.
  - eapply call_flag; eassumption.
  - apply (within_more 3); [lia|]. eapply call_waits; try eassumption. reflexivity.
  - apply (within_more 1); [lia|]. eapply call_ends; try eassumption. reflexivity.
Qed.
(** * A goroutine of the server that comes to a call makes it, and it returns *)
Lemma call_returns c ev t th : good c ev -> thread_of c t = Some th -> spoken th = true -> within 5 c ev (returned t th).
Proof.
  intros G T SPK. destruct (mget Nat.eqb t (u_calls c)) as [[p k]|] eqn:MC; [apply (within_more 4); [lia|]; eapply call_in; eassumption|]. pose proof (g_alive _ _ G) as AL.
  assert (exists p a, conn_call cfg (s_have (srv c)) th (job_of c t) = Some (p, a) /\ P2PLockProofs.names_peer th p /\ forall K, k_crashed K = false -> exists r, kexec K a = Some r) as (p & a & CC & NP & KE).
  { assert (th <> TRequester (match th with TRequester q _ => q | _ => O end) RNotInterested /\ th <> TUnchoke (match th with TUnchoke q _ => q | _ => O end) true) as [N1 N2].
    { split; intros E; rewrite E in T; [destruct (w_mid _ (g_wire _ _ G) _ _ (or_introl T)) as [k H]|destruct (w_mid _ (g_wire _ _ G) _ _ (or_intror T)) as [k H]]; congruence. }
    destruct th as [| |q []|q []|q i []| |q []| |]; try discriminate SPK; try congruence; cbn [conn_call]; do 2 eexists; (split; [reflexivity|split; [cbn; tauto|intros K KC; unfold kexec; rewrite KC; cbn; eauto]]). }
  destruct (good_peer _ _ _ _ p G T NP) as (q & K & Q & N). destruct (good_base _ _ _ _ G N) as [B _]. destruct (KE K ltac:(apply B)) as [[K' ek] E].
  assert (exists c' e', uexec c (UCall t) = Some (c', e') /\ u_node c' = u_node c /\ mget Nat.eqb t (u_calls c') = Some (p, List.length (k_threads K))) as (c' & e' & X & U1 & U2).
  { unfold Client.uexec. rewrite AL, T, MC, CC. unfold conn_step. rewrite N, E. do 2 eexists. split; [reflexivity|]. split; [reflexivity|]. cbn. rewrite mget_put, Nat.eqb_refl. reflexivity. }
  eapply within_step; [exact X|]. eapply call_in; [eapply good_step; [exact G|exact X|unfold srv; rewrite U1; exact AL]|unfold thread_of, srv; rewrite U1; exact T|exact SPK|exact U2].
Qed.
(** * The lock of the server *)
Definition some_time (c : client) (ev : list uevent) (Q : client -> Prop) : Prop := exists m, within m c ev Q.
Lemma alone_goes c ev t th ch s' e Q : good c ev -> thread_of c t = Some th -> without th (job_of c t) ch = true -> (forall m, ch <> CMsg m) -> sexec (srv c) (AGo t ch) = Some (s', e) -> s_crashed s' = false -> beside_server c t th ch = Alone ->
  (forall c' ev', good c' ev' -> srv c' = s' -> some_time c' ev' Q) -> some_time c ev Q.
Proof.
  intros G T F NM X CR B H. destruct (server_alone c t th ch s' e (g_alive _ _ G) T (free_go _ _ _ _ T F NM) X B) as (c' & e' & X' & S').
  destruct (H c' (ev ++ e')) as [m W]; [eapply good_step; [exact G|exact X'|now rewrite S']|exact S'|]. exists (S m). eapply within_step; eassumption.
Qed.
Definition unlocked (c : client) : Prop := s_mu (srv c) = None.
Lemma done_now c ev (Q : client -> Prop) : good c ev -> Q c -> some_time c ev Q.
Proof using. intros G H. exists O. now apply within_now. Qed.
Lemma spoken_unlocks c ev t th : good c ev -> thread_of c t = Some th -> spoken th = true -> holding th = true -> some_time c ev unlocked.
Proof. intros G T SPK HD. exists 5%nat. eapply within_impl; [|eapply call_returns; eassumption]. intros c' (_ & _ & R). exact (R HD). Qed.
Lemma pick_unlocks t p l : forall c ev, good c ev -> thread_of c t = Some (TRequester p (RPick l)) -> some_time c ev unlocked.
Proof.
  induction l as [|i l IH]; intros c ev G T; destruct (good_peer _ _ _ _ p G T eq_refl) as (q & _ & Q & _); pose proof (g_alive _ _ G) as AL; pose proof T as T0; unfold thread_of in T0.
  - eapply (alone_goes c ev t _ COk); [exact G|exact T|reflexivity|discriminate| | |reflexivity|].
    + unfold P2PServer.exec. rewrite AL. unfold step_thread. rewrite T0. unfold step_requester. rewrite Q. reflexivity.
    + exact AL.
    + intros c' ev' G' S'. apply done_now; [exact G'|]. unfold unlocked. rewrite S'. reflexivity.
  - destruct (mget Z.eqb i (g_inflight (s_reg (srv c)))) as [x|] eqn:GI.
    + eapply (alone_goes c ev t _ COk); [exact G|exact T|reflexivity|discriminate| | |reflexivity|].
      * unfold P2PServer.exec. rewrite AL. unfold step_thread. rewrite T0. unfold step_requester. rewrite Q, GI. reflexivity.
      * exact AL.
      * intros c' ev' G' S'. apply IH; [exact G'|]. unfold thread_of. rewrite S'. exact (set_there _ _ _ _ T0).
    + eapply (alone_goes c ev t _ COk); [exact G|exact T|reflexivity|discriminate| | |reflexivity|].
      * unfold P2PServer.exec. rewrite AL. unfold step_thread. rewrite T0. unfold step_requester. rewrite Q, GI. reflexivity.
      * exact AL.
      * intros c' ev' G' S'. apply done_now; [exact G'|]. unfold unlocked. rewrite S'. reflexivity.
Qed.
Lemma lock_unlocks c ev t : good c ev -> s_mu (srv c) = Some t -> some_time c ev unlocked \/ P2PLockProofs.frozen t (srv c).
Proof.
  intros G MU. destruct (good_server _ _ G) as [sl V]. pose proof (g_alive _ _ G) as AL. destruct (P2PServerThms.v_owner _ _ _ V t MU) as (th & T & [HD|HD]).
  2: { right. split; [exact MU|]. exists th. split; [exact T|]. tauto. }
  assert (thread_of c t = Some th) as T' by exact T.
  destruct (spoken th) eqn:SPK; [left; eapply spoken_unlocks; eassumption|].
  destruct th as [| |p h|p r| | | |[]|]; try discriminate HD.
  - destruct h as [| | | | | | | | | |k| | | | | |]; try discriminate HD; try discriminate SPK. destruct (good_peer _ _ _ _ p G T' eq_refl) as (q & _ & Q & _). destruct (s_requesting (srv c)) eqn:RQ.
    + left. eapply (alone_goes c ev t _ COk); [exact G|exact T'|reflexivity|discriminate| | |reflexivity|].
      * unfold P2PServer.exec. rewrite AL. unfold step_thread. rewrite T. unfold step_handler. rewrite Q. unfold hand_over. rewrite RQ. reflexivity.
      * exact AL.
      * intros c' ev' G' S'. apply done_now; [exact G'|]. unfold unlocked. rewrite S'. reflexivity.
    + right. split; [exact MU|]. eexists. split; [exact T|]. eauto 6.
  - left. destruct (good_peer _ _ _ _ p G T' eq_refl) as (q & _ & Q & _). destruct r as [| | | |l]; try discriminate HD; try discriminate SPK; [|eapply pick_unlocks; eassumption].
    destruct (bf_items (bf_difference (q_bits q) (s_have (srv c)))) as [|i l] eqn:IT.
    + eapply (alone_goes c ev t _ (CSort [] [])); [exact G|exact T'|reflexivity|discriminate| | |reflexivity|].
      * unfold P2PServer.exec. rewrite AL. unfold step_thread. rewrite T. unfold step_requester. rewrite Q, IT. reflexivity.
      * exact AL.
      * intros c' ev' G' S'. eapply spoken_unlocks; [exact G'|unfold thread_of; rewrite S'; exact (set_there _ _ _ _ T)|reflexivity|reflexivity].
    + assert (exists l', sort_slice (fun i => zlen (holders_of (s_reg (srv c)) i)) (i :: l) [] (i :: l) = Some l') as [l' SL].
      { unfold sort_slice. destruct (_ <=? _)%nat; [eauto|]. rewrite P2PLockProofs.reorders_refl. eauto. }
      eapply (alone_goes c ev t _ (CSort [] (i :: l))); [exact G|exact T'|reflexivity|discriminate| | |reflexivity|].
      * unfold P2PServer.exec. rewrite AL. unfold step_thread. rewrite T. unfold step_requester. rewrite Q, IT, SL. reflexivity.
      * exact AL.
      * intros c' ev' G' S'. eapply pick_unlocks; [exact G'|]. unfold thread_of. rewrite S'. exact (set_there _ _ _ _ T).
  - left. eapply (alone_goes c ev t _ COk); [exact G|exact T'|reflexivity|discriminate| | |reflexivity|].
    + unfold P2PServer.exec. rewrite AL. unfold step_thread. rewrite T. reflexivity.
    + unfold goto, set_threads, set_mu. cbn [s_crashed]. clear -AL. set (l := map snd _). revert AL. generalize (srv c). induction l as [|x l IH]; intros s AL; [exact AL|]. cbn [fold_left]. apply IH. destruct (nth_error (s_peers s) x); exact AL.
    + intros c' ev' G' S'. apply done_now; [exact G'|]. unfold unlocked. rewrite S'. reflexivity.
Qed.
(** * Waiting for blocks ends *)
Definition rank (q : qpc) : nat := match q with QFirst => 6 | QJoin => 5 | QSend _ SLock => 4 | QSend _ SWrite => 3 | QWait _ => 2 | QLeave _ => 1 | QDone => 0 end.
Section Pull.
Variable t p kp : nat.
Variable th : thread.
(** Goroutine t waits in requestPiece, and the goroutines in D are done. *)
Record pulling (todo : list breq) (kids D : list nat) (c : client) : Prop := {
  pl_thread : thread_of c t = Some th; pl_call : mget Nat.eqb t (u_calls c) = Some (p, kp); pl_pull : conn_thread c p kp = Some (TPull todo kids);
  pl_done : forall x, In x D -> exists r, conn_thread c p x = Some (TAsk r QDone) }.
Lemma pull_conn todo kids D c : pulling todo kids D c -> exists K, nth_error (u_conns c) p = Some K /\ nth_error (k_threads K) kp = Some (TPull todo kids).
Proof using. intros [_ _ Y _]. unfold conn_thread in Y. destruct (nth_error (u_conns c) p) as [K|]; [eauto|discriminate Y]. Qed.
Lemma free_first c ev todo kids D k r q : good c ev -> pulling todo kids D c -> conn_thread c p k = Some (TAsk r q) -> writing (TAsk r q) = false ->
  within 1 c ev (fun c' => pulling todo kids D c' /\ conn_thread c' p k = Some (TAsk r q) /\ exists K, nth_error (u_conns c') p = Some K /\ k_mu K = None).
Proof.
  intros G P Y NW. destruct (pull_conn _ _ _ _ P) as (K & N & PY). destruct (k_mu K) as [k0|] eqn:MU; [|apply within_now; eauto].
  destruct (lock_freed _ _ _ _ _ G N MU) as (a & c' & e' & K' & X' & CR & N' & MU' & RS & OT). destruct (good_base _ _ _ _ G N) as [_ M]. destruct (M _ MU) as (y0 & Y0 & WR).
  assert (forall x y, conn_thread c p x = Some y -> writing y = false -> conn_thread c' p x = Some y) as KEEP.
  { intros x y Z W. apply OT; [|exact Z]. intros ->. unfold conn_thread in Z. rewrite N, Y0 in Z. injection Z as ->. congruence. }
  eapply within_step; [exact X'|]. apply within_now; [eapply good_step; eassumption|]. destruct P as [P1 P2 P3 P4].
  assert (kp <> k0) as NE. { intros ->. rewrite PY in Y0. injection Y0 as <-. discriminate WR. }
  destruct (RS t kp NE th _ P1 P2 P3) as (R1 & R2 & R3). split; [|split; [now apply KEEP|eauto]]. split; [exact R1|exact R2|exact R3|]. intros x I. destruct (P4 x I) as [r1 Z]. exists r1. now apply KEEP.
Qed.
Lemma ask_moves c ev todo kids D k r q ch q' K K' ek : good c ev -> pulling todo kids D c -> q <> QDone -> nth_error (u_conns c) p = Some K -> nth_error (k_threads K) k = Some (TAsk r q) -> kexec K (KGo k ch) = Some (K', ek) -> nth_error (k_threads K') k = Some (TAsk r q') ->
  within 1 c ev (fun c' => pulling todo kids D c' /\ conn_thread c' p k = Some (TAsk r q')).
Proof.
  intros G P NQ N Y E Y'. destruct (conn_goes c p k ch _ K K' ek (g_alive _ _ G) N Y ltac:(now destruct ch) E) as (c' & e' & X' & U1 & MV & U2). destruct (good_base _ _ _ _ G N) as [B _].
  eapply within_step; [exact X'|]. apply within_now; [eapply good_step; [exact G|exact X'|unfold srv; rewrite U1; exact (g_alive _ _ G)]|]. destruct P as [P1 P2 P3 P4].
  assert (forall x y, conn_thread c p x = Some y -> x <> k -> conn_thread c' p x = Some y) as KEEP by (intros x y Z NE; eapply moved_thread; [exact MV|exact B|exact E|exact Z|now right]).
  assert (conn_thread c p k = Some (TAsk r q)) as CY by (unfold conn_thread; now rewrite N).
  split; [|unfold conn_thread; now rewrite (moved_same _ _ _ _ _ MV)]. split.
  - unfold thread_of, srv. now rewrite U1.
  - now rewrite U2.
  - apply KEEP; [exact P3|]. intros ->. congruence.
  - intros x I. destruct (P4 x I) as [r1 Z]. exists r1. apply KEEP; [exact Z|]. intros ->. congruence.
Qed.
Lemma some_then c ev (Q Q' : client -> Prop) m : within m c ev Q -> (forall c' ev', good c' ev' -> Q c' -> some_time c' ev' Q') -> some_time c ev Q'.
Proof using.
  intros (l & c' & e & L & R & G & H) F. destruct (F c' (ev ++ e) G H) as (m' & l' & c2 & e2 & L2 & R2 & G2 & H2). exists (List.length (l ++ l')), (l ++ l'), c2, (e ++ e2). split; [lia|]. split; [|rewrite app_assoc; auto].
  clear -R R2. revert c e R. induction l as [|a l IH]; intros c e R; [injection R as <- <-; exact R2|]. cbn [app Client.uruns] in *. destruct (uexec c a) as [[c1 e1]|]; [|discriminate R]. destruct (uruns c1 l) as [[c3 e3]|] eqn:R3; [|discriminate R]. injection R as <- <-. rewrite (IH _ _ R3), app_assoc. reflexivity.
Qed.
Lemma ask_done n : forall c ev todo kids D k r q, (rank q <= n)%nat -> good c ev -> pulling todo kids D c -> conn_thread c p k = Some (TAsk r q) -> some_time c ev (pulling todo kids (k :: D)).
Proof.
  induction n as [|n IH]; intros c ev todo kids D k r q L G P CY.
  { destruct q as [| |? []| | |]; cbn in L; try lia. apply done_now; [exact G|]. destruct P as [P1 P2 P3 P4]. split; try assumption. intros x [<-|I]; eauto. }
  destruct (Nat.eq_dec (rank q) 0) as [Z|NZ]; [apply (IH _ _ _ _ _ _ r q); try assumption; lia|].
  assert (forall c1 ev1 ch q' K K' ek, good c1 ev1 -> pulling todo kids D c1 -> nth_error (u_conns c1) p = Some K -> nth_error (k_threads K) k = Some (TAsk r q) -> kexec K (KGo k ch) = Some (K', ek) -> nth_error (k_threads K') k = Some (TAsk r q') -> (rank q' < rank q)%nat -> some_time c1 ev1 (pulling todo kids (k :: D))) as MOVE.
  { intros c1 ev1 ch q' K K' ek G1 P1 N Y E Y' LT. eapply some_then; [eapply (ask_moves c1 ev1 todo kids D k r q ch q'); try eassumption; intros ->; cbn in NZ; lia|]. intros c2 ev2 G2 [P2 Y2]. eapply (IH c2 ev2); [|exact G2|exact P2|exact Y2]. lia. }
  destruct (writing (TAsk r q)) eqn:WR.
  - destruct (pull_conn _ _ _ _ P) as (K & N & _). assert (nth_error (k_threads K) k = Some (TAsk r q)) as Y by (unfold conn_thread in CY; now rewrite N in CY). destruct (good_base _ _ _ _ G N) as [(_ & KC & _) _].
    destruct q as [| |f []| | |]; try discriminate WR. eapply (MOVE c ev KErr (QLeave (Some EWrite)) K); try eassumption; [unfold kexec; rewrite KC, Y; reflexivity| |cbn; lia]. cbn. apply list_set_nth_eq. apply nth_error_Some. congruence.
  - eapply some_then; [eapply free_first; eassumption|]. clear c ev G P CY. intros c ev G (P & CY & K & N & MU). assert (nth_error (k_threads K) k = Some (TAsk r q)) as Y by (unfold conn_thread in CY; now rewrite N in CY). destruct (good_base _ _ _ _ G N) as [(_ & KC & _) _].
    assert (forall q' (K1 : kstate), k_threads K1 = k_threads K -> nth_error (k_threads (kgoto k (TAsk r q') K1)) k = Some (TAsk r q')) as GT. { intros q' K1 E1. cbn. rewrite E1. apply list_set_nth_eq. apply nth_error_Some. congruence. }
    destruct q as [| |f []|f|o|]; try discriminate WR.
    + destruct (k_rchoked K) eqn:RC.
      * eapply (MOVE c ev KOk QDone K); try eassumption; [unfold kexec; rewrite KC, Y; cbn; rewrite RC; reflexivity|now apply GT|cbn; lia].
      * eapply (MOVE c ev KOk QJoin K); try eassumption; [unfold kexec; rewrite KC, Y; cbn; rewrite RC; reflexivity|now apply GT|cbn; lia].
    + destruct (mget breq_eqb r (k_inflight K)) as [f|] eqn:GI.
      * eapply (MOVE c ev KOk (QSend f SLock) K); try eassumption; [unfold kexec; rewrite KC, Y; cbn; rewrite MU, GI; reflexivity|now apply GT|cbn; lia].
      * eapply (MOVE c ev KOk (QSend (List.length (k_futs K)) SLock) K); try eassumption; [unfold kexec; rewrite KC, Y; cbn; rewrite MU, GI; reflexivity|now apply GT|cbn; lia].
    + destruct (k_rchoked K) eqn:RC.
      * eapply (MOVE c ev KOk (QLeave (Some EChoked)) K); try eassumption; [unfold kexec; rewrite KC, Y; cbn; rewrite MU, RC; reflexivity|now apply GT|cbn; lia].
      * eapply (MOVE c ev KOk (QSend f SWrite) K); try eassumption; [unfold kexec; rewrite KC, Y; cbn; rewrite MU, RC; reflexivity|now apply GT|cbn; lia].
    + eapply (MOVE c ev KErr (QLeave (Some ECtx)) K); try eassumption; [unfold kexec; rewrite KC, Y; reflexivity|now apply GT|cbn; lia].
    + eapply (MOVE c ev KOk QDone K); try eassumption; [unfold kexec; rewrite KC, Y; cbn; rewrite MU; reflexivity|now apply GT|cbn; lia].
    + cbn in NZ. lia.
Qed.
Lemma kids_ask c ev todo kids D x : good c ev -> pulling todo kids D c -> In x kids -> exists r q, conn_thread c p x = Some (TAsk r q).
Proof using.
  intros G P I. destruct (pull_conn _ _ _ _ P) as (K & N & Y). pose proof (ui_groups _ _ _ _ _ _ _ _ _ (g_inv _ _ G) _ _ N) as GR. destruct (gr_known _ _ _ _ GR _ _ _ Y) as (e1 & bl & e2 & EQ).
  destruct (gr_pulls _ _ _ _ GR _ _ _ _ EQ) as (kids' & rs & todo' & _ & F & [Z|(Z & _)]); [|congruence]. rewrite Y in Z. injection Z as <- <-.
  assert (exists r q, nth_error (k_threads K) x = Some (TAsk r q)) as (r & q & H). { clear -F I. induction F as [|x0 r l l' (_ & q & Q & _) F IH]; [destruct I|]. destruct I as [<-|I]; eauto. }
  exists r, q. unfold conn_thread. now rewrite N.
Qed.
Lemma kids_done l : forall c ev todo kids D, good c ev -> pulling todo kids D c -> (forall x, In x l -> In x kids) -> some_time c ev (pulling todo kids (rev l ++ D)).
Proof.
  induction l as [|x l IH]; intros c ev todo kids D G P S; [now apply done_now|]. destruct (kids_ask _ _ _ _ _ x G P (S x (or_introl eq_refl))) as (r & q & Y).
  destruct (ask_done (rank q) c ev todo kids D x r q (le_n _) G P Y) as [m W]. eapply some_then; [exact W|]. intros c' ev' G' P'. cbn [rev]. rewrite <- app_assoc. cbn [app]. apply IH; [exact G'|exact P'|]. intros y I. apply S. now right.
Qed.
(** eg.Wait returns. *)
Lemma pull_ends todo : forall c ev kids, good c ev -> pulling todo kids [] c -> some_time c ev (fun c' => thread_of c' t = Some th /\ mget Nat.eqb t (u_calls c') = Some (p, kp) /\ conn_thread c' p kp = Some TOver).
Proof.
  induction todo as [|r todo IH]; intros c ev kids G P; destruct (kids_done kids c ev _ kids [] G P (fun x I => I)) as [m W]; (eapply some_then; [exact W|]); clear c ev G P m W; intros c ev G P; destruct (pull_conn _ _ _ _ P) as (K & N & Y);
    destruct (good_base _ _ _ _ G N) as [B _]; assert (k_crashed K = false) as KC by apply B.
  all: assert (running K kids = []) as RN by (destruct P as [_ _ _ P4]; clear -P4 N; assert (forall x, In x kids -> exists r, nth_error (k_threads K) x = Some (TAsk r QDone)) as D by (intros x I; destruct (P4 x) as [r0 Z]; [apply in_or_app; left; now apply in_rev in I|]; exists r0; unfold conn_thread in Z; now rewrite N in Z); clear -D;
    induction kids as [|x l IHl]; [reflexivity|]; cbn; destruct (D x (or_introl eq_refl)) as [r0 ->]; apply IHl; intros y I; apply D; now right).
  - destruct (conn_goes c p kp KOk _ K _ _ (g_alive _ _ G) N Y eq_refl ltac:(unfold kexec; rewrite KC, Y; cbn; rewrite RN; reflexivity)) as (c' & e' & X' & U1 & MV & U2). exists 1%nat. eapply within_step; [exact X'|].
    apply within_now; [eapply good_step; [exact G|exact X'|unfold srv; rewrite U1; exact (g_alive _ _ G)]|]. destruct P as [P1 P2 P3 P4]. split; [unfold thread_of, srv; now rewrite U1|]. split; [now rewrite U2|]. unfold conn_thread. rewrite (moved_same _ _ _ _ _ MV). cbn. apply list_set_nth_eq. apply nth_error_Some. congruence.
  - destruct (conn_goes c p kp KOk _ K _ _ (g_alive _ _ G) N Y eq_refl ltac:(unfold kexec; rewrite KC, Y; cbn; rewrite RN; reflexivity)) as (c' & e' & X' & U1 & MV & U2).
    eapply (some_then _ _ _ _ 1%nat); [eapply within_step; [exact X'|apply (within_now 0 c' _ (pulling todo (kids ++ [List.length (k_threads K)]) [])); [eapply good_step; [exact G|exact X'|unfold srv; rewrite U1; exact (g_alive _ _ G)]|]]|].
    + destruct P as [P1 P2 P3 P4]. split; [unfold thread_of, srv; now rewrite U1|now rewrite U2| |intros x []]. unfold conn_thread. rewrite (moved_same _ _ _ _ _ MV). cbn. rewrite nth_error_app1; [|rewrite list_set_length; apply nth_error_Some; congruence]. apply list_set_nth_eq. apply nth_error_Some. congruence.
    + intros c2 ev2 G2 P2. eapply IH; eassumption.
Qed.
End Pull.
End Free.
