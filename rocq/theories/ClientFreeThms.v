(** Theorems on what the client's goroutines can go on to do. *)
From Verif Require Import GoBase GoBaseProofs GoMap Bitfield PeerWire Requests Metainfo MetainfoSpec Fs Storage StorageSpec StorageSysSpec StorageSys Node NodeSpec P2PServer P2PServerSpec P2PConn P2PConnSpec P2PConnProofs
  Client ClientSpec ClientProofs ClientServerProofs ClientConnProofs ClientAskProofs ClientPullProofs ClientThms ClientWantProofs ClientWireProofs ClientWireThms ClientOwnProofs ClientFreeProofs ProgressSpec.
From Verif Require P2PLockProofs P2PServerThms.
Section Free.
Variable sha1 : bytes -> bytes.
Variable cfg : config.
Variable env : nat -> Fs.choice.
Variable hash id : bytes.
Hypothesis ok : config_ok cfg.
Hypothesis fits : i_piece_length (c_info cfg) <= 2 ^ 63 - 16384.
Notation client_run := (client_run sha1 cfg env hash id).
Set Default Proof Using "All".
Lemma opened f l c ev : client_run f l c ev -> s_crashed (srv c) = false -> exists tick ls w es blank, untouched cfg f /\ StorageSys.execs sha1 cfg env (Dead f tick) ls = Some (Running w [], es) /\ bf_new (num_pieces (c_info cfg)) = Some blank /\
  good sha1 cfg env hash id blank w c ev /\ forall l' c' e, uruns sha1 cfg env hash id blank c l' = Some (c', e) -> client_run f (l ++ l') c' (ev ++ e).
Proof.
  intros (U & tick & ls & w & es & blank & E & B & R) CR. exists tick, ls, w, es, blank. split; [exact U|]. split; [exact E|]. split; [exact B|]. split; [eapply good_run; eassumption|]. intros l' c' e R'.
  split; [exact U|]. exists tick, ls, w, es, blank. split; [exact E|]. split; [exact B|]. clear -R R'. revert R. generalize (ustart (Running w [])). revert ev. induction l as [|a l IH]; intros ev c0 R; [injection R as <- <-; exact R'|].
  cbn [app uruns] in *. destruct (uexec sha1 cfg env hash id blank c0 a) as [[c1 e1]|]; [|discriminate R]. destruct (uruns sha1 cfg env hash id blank c1 l) as [[c2 e2]|] eqn:R2; [|discriminate R]. injection R as <- <-. rewrite (IH _ _ R2), app_assoc. reflexivity.
Qed.
Theorem connection_lock f l c ev p K k : client_run f l c ev -> s_crashed (srv c) = false -> nth_error (u_conns c) p = Some K -> k_mu K = Some k ->
  exists a c' e K', client_run f (l ++ [a]) c' (ev ++ e) /\ s_crashed (srv c') = false /\ nth_error (u_conns c') p = Some K' /\ k_mu K' = None /\
    forall x y, x <> k -> nth_error (k_threads K) x = Some y -> nth_error (k_threads K') x = Some y.
Proof.
  intros R CR N MU. destruct (opened _ _ _ _ R CR) as (tick & ls & w & es & blank & U & E & B & G & MORE).
  destruct (lock_freed sha1 cfg env hash id blank ok fits f tick ls w es U E B _ _ _ _ _ G N MU) as (a & c' & e' & K' & X' & CR' & N' & MU' & _ & OT). exists a, c', e', K'. split; [|split; [exact CR'|split; [exact N'|split; [exact MU'|]]]].
  - apply MORE. cbn [uruns]. now rewrite X', app_nil_r.
  - intros x y NE Y. assert (conn_thread c p x = Some y) as CY by (unfold conn_thread; now rewrite N). apply (OT _ _ NE) in CY. unfold conn_thread in CY. now rewrite N' in CY.
Qed.
Theorem calls_return f l c ev t th p : client_run f l c ev -> s_crashed (srv c) = false -> thread_of c t = Some th -> on_call th = Some p ->
  exists l' c' ev' th', (List.length l' <= 5)%nat /\ client_run f (l ++ l') c' (ev ++ ev') /\ s_crashed (srv c') = false /\ thread_of c' t = Some th' /\ on_call th' = None.
Proof.
  intros R CR T OC. destruct (opened _ _ _ _ R CR) as (tick & ls & w & es & blank & U & E & B & G & MORE).
  assert (spoken th = true) as SPK by (destruct th as [| |? []|? []|? ? []| |? []| |]; try discriminate OC; reflexivity).
  destruct (call_returns sha1 cfg env hash id blank ok fits f tick ls w es U E B _ _ _ _ G T SPK) as (l' & c' & ev' & L & R' & G' & (_ & (th' & T' & SN) & _)).
  exists l', c', ev', th'. split; [exact L|]. split; [apply MORE; exact R'|]. split; [eapply g_alive; exact G'|]. split; [exact T'|].
  destruct th' as [| |? []|? []|? ? []| |? []| |]; try discriminate SN; reflexivity.
Qed.
Theorem server_lock f l c ev t : client_run f l c ev -> s_crashed (srv c) = false -> s_mu (srv c) = Some t ->
  (exists l' c' ev', client_run f (l ++ l') c' (ev ++ ev') /\ s_crashed (srv c') = false /\ s_mu (srv c') = None) \/ (exists p, In (UN (NEv (EvRefused p))) ev) \/ s_cancelled (srv c) = true.
Proof.
  intros R CR MU. destruct (opened _ _ _ _ R CR) as (tick & ls & w & es & blank & U & E & B & G & MORE).
  destruct (lock_unlocks sha1 cfg env hash id blank ok fits f tick ls w es U E B _ _ _ G MU) as [(m & l' & c' & ev' & _ & R' & G' & Q)|(_ & th & T & D)].
  - left. exists l', c', ev'. split; [apply MORE; exact R'|]. split; [eapply g_alive; exact G'|exact Q].
  - right. destruct (good_server sha1 cfg env hash id blank ok fits f tick ls w es U E B _ _ G) as [sl V]. assert (forall p, In (EvRefused p) (server_events ev) -> exists p, In (UN (NEv (EvRefused p))) ev) as RE.
    { intros p I. exists p. apply in_node. unfold server_events, srv_events in I. apply in_flat_map in I as (x & I & J). destruct x; cbn in J; try contradiction. destruct J as [->|[]]. exact I. }
    destruct D as [D|[[p D]|[D _]]].
    + left. destruct (P2PServerThms.v_keeper _ _ _ V t th MU T (or_introl D)) as [p I]. eauto.
    + left. destruct (P2PServerThms.v_keeper _ _ _ V t th MU T ltac:(right; now exists p)) as [p' I]. eauto.
    + right. now apply (P2PServerThms.v_ended _ _ _ V).
Qed.
Theorem wait_ends f l c ev p k bl : client_run f l c ev -> s_crashed (srv c) = false -> In (UK p (KPulled k bl)) ev ->
  exists l' c' ev', client_run f (l ++ l') c' (ev ++ ev') /\ s_crashed (srv c') = false /\ In (UK p (KPullEnd k)) (ev ++ ev').
Proof.
  intros R CR I. destruct (opened _ _ _ _ R CR) as (tick & ls & w & es & blank & U & E & B & G & MORE). apply in_conn in I. pose proof (g_inv _ _ _ _ _ _ _ _ _ G) as UI. destruct (ui_conns _ _ _ _ _ _ _ _ _ UI) as (LEN & SIL & _).
  destruct (nth_error (u_conns c) p) as [K|] eqn:N. 2: { apply nth_error_None in N. rewrite (SIL p N) in I. destruct I. }
  apply in_split in I as (e1 & e2 & EQ). pose proof (ui_groups _ _ _ _ _ _ _ _ _ UI _ _ N) as GR. destruct (gr_pulls _ _ _ _ GR _ _ _ _ EQ) as (kids & rs & todo & _ & _ & [Y|(_ & _ & Y & _)]).
  2: { exists [], c, []. rewrite !app_nil_r. split; [exact R|]. split; [exact CR|]. apply in_conn. rewrite EQ. apply in_or_app. right. now right. }
  destruct (a_own _ _ _ (ui_asking _ _ _ _ _ _ _ _ _ UI CR) _ _ _ _ _ N Y) as (t & i & T & MC). assert (conn_thread c p k = Some (TPull todo kids)) as CY by (unfold conn_thread; now rewrite N).
  destruct (pull_ends sha1 cfg env hash id blank ok fits f tick ls w es U E B t p k _ todo c ev kids G ltac:(split; [exact T|exact MC|exact CY|intros x []])) as (m & l' & c' & ev' & _ & R' & G' & (_ & _ & Y')).
  exists l', c', ev'. split; [apply MORE; exact R'|]. split; [eapply g_alive; exact G'|]. unfold conn_thread in Y'. destruct (nth_error (u_conns c') p) as [K'|] eqn:N'; [|discriminate Y'].
  pose proof (ui_groups _ _ _ _ _ _ _ _ _ (g_inv _ _ _ _ _ _ _ _ _ G') _ _ N') as GR'. apply in_conn. rewrite conn_events_app, EQ, <- app_assoc in *. cbn [app] in *. destruct (gr_pulls _ _ _ _ GR' _ _ _ _ eq_refl) as (kids' & rs' & todo' & _ & _ & [Z|(_ & _ & Z & _)]); [congruence|]. apply in_or_app. right. now right.
Qed.
End Free.
