(** Who holds the lock of a connection is somebody who can go on: every goroutine of a
    connection belongs to one of the server. *)
From Verif Require Import GoBase GoBaseProofs GoMap Bitfield PeerWire Requests Metainfo MetainfoSpec Fs Storage StorageSpec StorageSysSpec StorageSys Node NodeSpec NodeServerProofs NodeProofs NodeThms P2PServer P2PServerSpec P2PServerProofs P2PAnnounceProofs P2PConn P2PConnSpec P2PConnProofs
  Client ClientSpec ClientProofs ClientServerProofs ClientConnProofs ClientAskProofs ClientThms ClientWireProofs.
From Verif Require P2PRegistryProofs P2PServerThms.

(** * One connection *)
Definition owned (y : kthread) : bool := match y with TSend _ _ | TFlag _ _ => true | _ => false end.
Definition idle (h : P2PConn.hpc) : Prop := h = CRead \/ h = CHaves \/ h = CEnd.
Lemma kgo_owned K k ch K' e k1 y : base_ok K -> kexec K (KGo k ch) = Some (K', e) -> nth_error (k_threads K') k1 = Some y -> owned y = true ->
  (k1 <> k /\ nth_error (k_threads K) k1 = Some y) \/ (k1 = k /\ exists y0, nth_error (k_threads K) k = Some y0 /\ owned y0 = true).
Proof.
  intros B X Y O. destruct (nth_error (k_threads K) k) as [y0|] eqn:T0.
  2: { unfold kexec in X. rewrite T0 in X. destruct (k_crashed K); discriminate X. }
  destruct B as (F & C & L & Z & _). assert (forall m, k_threads (complete None K (brought m)) = k_threads K) as CC by (intros m; apply complete_threads, F).
  pose proof (proj1 (choke_all_threads K F)) as CA. cbv zeta in CA.
  unfold kexec in X. rewrite C, T0 in X. unfold step_serve, step_pull, step_ask, step_flag, step_send, handle_message, take_lock, finish_write in X.
  brk X; injection X as <- <-; kfields_in Y; rewrite ?CC, ?CA in Y.
  all: try (apply threads_app in Y as [[_ ->]|Y]; [discriminate O|]).
  all: try (apply threads_set in Y as [(-> & -> & zz & ZZ)|[N Y]]; [|left; split; assumption]).
  all: try discriminate O.
  all: try (right; split; [reflexivity|]; exists y0; split; [congruence|]; subst y0; reflexivity).
  all: try (destruct (Nat.eq_dec k1 k) as [->|NE]; [right; split; [reflexivity|]; exists y; split; [congruence|exact O]|left; split; assumption]).
  all: try (match goal with X : swap ?f ?K0 = Some ?x |- _ => assert (k_threads x = k_threads K0) as SW by (destruct f; cbn in X; brk X; injection X as <-; reflexivity); rewrite SW in Y end; apply threads_set in Y as [(-> & -> & zz & ZZ)|[N Y]]; [|left; split; assumption]; right; split; [reflexivity|]; eexists; split; [reflexivity|reflexivity]).
Qed.

Lemma knew_owned K a K' e : kexec K a = Some (K', e) -> (forall k ch, a <> KGo k ch) -> exists y, k_threads K' = k_threads K ++ [y].
Proof. intros X N. unfold kexec in X. destruct a; [exfalso; eapply N; reflexivity| | |]; brk X; injection X as <- <-; kfields; eauto. Qed.
(** * The client *)
Record own_ok (c : client) : Prop := {
  o_serve : forall p k, serve_at c p = Some k -> idle k \/ exists t h, thread_of c t = Some (THandler p h);
  o_calls : forall p k y, conn_thread c p k = Some y -> owned y = true -> exists t, mget Nat.eqb t (u_calls c) = Some (p, k) }.
Section Own.
Variable sha1 : bytes -> bytes.
Variable cfg : config.
Variable env : nat -> Fs.choice.
Variable hash id blank : bytes.
Notation nexec := (nexec sha1 cfg env hash id blank).
Notation uexec := (uexec sha1 cfg env hash id blank).
Notation uruns := (uruns sha1 cfg env hash id blank).
Notation ustep := (ustep sha1 cfg env hash id blank).
Notation sexec := (P2PServer.exec hash id blank).
Notation threads n := (s_threads (n_srv n)).
Set Default Proof Using "Type".
Section At.
Variable c : client.
Variable ev : list uevent.
Hypothesis W : wire_ok c.
Hypothesis LEN : List.length (u_conns c) = List.length (s_peers (srv c)).
Hypothesis BASE : forall p K, nth_error (u_conns c) p = Some K -> base_ok K.
Hypothesis HO : P2PRegistryProofs.hand_ok (srv c).
Hypothesis LV : NodeProofs.live (u_node c) (node_events ev).
Hypothesis O : own_ok c.
Set Default Proof Using "All".
(** The goroutine stays in its call unless the step is its own. *)
Lemma kept a n t x : mget Nat.eqb t (u_calls c) = Some x -> ~ nturn t a -> mget Nat.eqb t (calls_after a n c) = Some x.
Proof using. intros M N. now rewrite calls_keep. Qed.
Lemma calls_owned_node a n e c' e2 : nexec (u_node c) a = Some (n, e) -> outcome c a n e c' e2 -> u_calls c' = calls_after a n c ->
  forall p k y, conn_thread c' p k = Some y -> owned y = true -> exists t, mget Nat.eqb t (u_calls c') = Some (p, k).
Proof.
  intros X (UN & D) UC p k y Y OW. rewrite UC.
  destruct D as [(B & E & _)|(p0 & k0 & ch & K & K' & ek & B & N0 & X1 & E & _)].
  - assert (conn_thread c p k = Some y) as Y0.
    { unfold conn_thread in *. rewrite E in Y. unfold new_conns in Y. destruct (Nat.lt_ge_cases p (List.length (u_conns c))) as [L|L]; [now rewrite nth_error_app1 in Y by exact L|].
      rewrite nth_error_app2 in Y by exact L. destruct (nth_error (repeat kstart _) _) as [K|] eqn:R; [|discriminate]. apply nth_repeat_k in R as ->. destruct k as [|[|]]; cbn in Y; try discriminate. injection Y as <-. discriminate OW. }
    destruct (o_calls _ O _ _ _ Y0 OW) as [t M]. exists t. destruct (turn_dec t a) as [TU|TU]; [|now apply kept].
    destruct (w_calls _ W _ _ _ M) as (th & y1 & T & Y1 & S). rewrite Y0 in Y1. injection Y1 as <-.
    destruct a as [a|u|u|u w]; [| |exact M|exact M].
    + exfalso. destruct TU as [[x Q]|[Q|[Q|[x Q]]]]; try discriminate. injection Q as ->. unfold beside_node in B. rewrite T in B. unfold beside_server in B.
      destruct th as [| |q1 []|q1 []|q1 i1 []| |q1 []| |]; cbn in S; try contradiction; try (eapply called_alone; exact B). destruct y; try contradiction; discriminate OW.
    + exfalso. assert (u = t) as -> by (destruct TU as [[x Q]|[Q|[Q|[x Q]]]]; congruence). apply nexec_nstepa in X as [_ X]. assert (exists c1, at_call (u_node c) t = Some c1) as (c1 & A) by (clear - X; inversion X; cbn; eauto).
      unfold at_call in A. unfold thread_of, srv in T. rewrite T in A. destruct th as [| |q1 []|q1 []|q1 i1 []| |q1 []| |]; try discriminate A; cbn in S; try contradiction. destruct y; try contradiction; discriminate OW.
  - pose proof (outcome_moved _ _ _ _ _ _ N0 E) as MV. pose proof (BASE _ _ N0) as BK.
    assert ((p = p0 /\ k = k0 /\ exists y0, conn_thread c p0 k0 = Some y0 /\ owned y0 = true) \/ ((p <> p0 \/ k <> k0) /\ conn_thread c p k = Some y)) as [(-> & -> & y0 & Y0 & OW0)|(NE & Y0)].
    { unfold conn_thread in Y. destruct (nth_error (u_conns c') p) as [K1|] eqn:N1; [|discriminate]. destruct (moved_new _ _ _ _ _ _ _ MV N1) as [[-> ->]|[[NE N2]|[_ ->]]].
      - destruct (kgo_owned _ _ _ _ _ _ _ BK X1 Y OW) as [[NE Y0]|(-> & y0 & Y0 & OW0)]; [right|left]; unfold conn_thread; rewrite N0; eauto.
      - right. split; [now left|]. unfold conn_thread. now rewrite N2.
      - exfalso. destruct k as [|[|]]; cbn in Y; try discriminate. injection Y as <-. discriminate OW. }
    + assert (k0 <> 0%nat) as NZ.
      { intros ->. unfold conn_thread in Y0. rewrite N0 in Y0. destruct BK as (_ & _ & _ & (h & H0) & _). rewrite H0 in Y0. injection Y0 as <-. discriminate OW0. }
      destruct (moved_called _ _ _ _ _ _ _ _ _ MV BK X1 Y0 NZ) as (y' & Y' & OM). rewrite Y in Y'. injection Y' as <-.
      pose proof B as B0. apply both_cases in B. remember (flags K') as fl. destruct B; try congruence.
      * exfalso. assert (y0 = TSend m SWrite) as -> by congruence. inversion OM; subst; try discriminate OW; match goal with Z : _ \/ _ |- _ => destruct Z as [[_ Z]|[_ Z]]; discriminate Z end.
      * rename H into T, H0 into H2, H1 into M, H2 into H1.
        assert (y0 = TFlag f None) as -> by congruence. exists t. cbn [calls_after].
        destruct (go_node sha1 cfg env hash id blank c ev W LEN BASE HO LV _ _ _ _ X) as (e1 & -> & EX).
        destruct (w_calls _ W _ _ _ M) as (th1 & y1 & T1 & Y1 & S). rewrite T in T1. injection T1 as <-. rewrite Y0 in Y1. injection Y1 as <-.
        assert (in_call (nth_error (threads n) t) = true) as ->; [|exact M].
        assert (nth_error (s_peers (srv c)) p <> None) as NP by (intros Z; apply nth_error_None in Z; rewrite <- LEN in Z; apply nth_error_None in Z; congruence).
        destruct (nth_error (s_peers (srv c)) p) as [q1|] eqn:Q; [|congruence]. pose proof (w_flags _ W _ _ _ Q N0) as FL. unfold sflags, flags in FL. injection FL as _ F2 F3.
        inversion OM; subst; [|discriminate OW].
        match goal with Z : swap _ _ = Some _ |- _ => rename Z into SW end.
        unfold P2PServer.exec, step_thread, thread_of, srv in *. rewrite T in EX. destruct (s_crashed (n_srv (u_node c))); [discriminate EX|].
        destruct H2 as [-> | ->]; cbn in S; destruct f; try contradiction; subst q.
        -- unfold swap in SW. destruct (k_interested K) eqn:KI; [|discriminate SW]. unfold step_requester in EX. rewrite Q in EX. destruct ch; try discriminate EX. rewrite F3 in EX. brk EX; injection EX as EX _; rewrite <- EX; cbn; (rewrite list_set_nth_eq by (apply nth_error_Some; congruence)); reflexivity.
        -- unfold swap in SW. destruct (k_choked K) eqn:KI; [|discriminate SW]. rewrite Q in EX. destruct ch; try discriminate EX. rewrite F2 in EX. brk EX; injection EX as EX _; rewrite <- EX; cbn; (rewrite list_set_nth_eq by (apply nth_error_Some; congruence)); reflexivity.
      * exfalso. assert (y0 = TFlag f (Some SWrite)) as -> by congruence. destruct ch; try discriminate; injection H3 as <-; inversion OM; subst; discriminate OW.
      * exfalso. assert (y0 = TSend m SWrite) as -> by congruence. destruct ch; try discriminate; injection H2 as <-; inversion OM; subst; discriminate OW.
    + destruct (o_calls _ O _ _ _ Y0 OW) as [t M]. exists t. destruct (turn_dec t a) as [TU|TU]; [|now apply kept].
      destruct (w_calls _ W _ _ _ M) as (th & y1 & T & Y1 & S). rewrite Y0 in Y1. injection Y1 as <-.
      destruct (Nat.eq_dec k0 0) as [->|NZ].
      * destruct (serve_turn sha1 cfg env hash id blank c ev W LEN BASE HO LV _ _ _ _ _ B) as (u & h & TU2 & T2). rewrite <- (turn_one _ _ _ TU TU2) in T2. rewrite T in T2. injection T2 as ->. destruct h; cbn in S; try contradiction.
        apply both_cases in B. destruct a as [a|u1|u1|u1 w1]; [| |exact M|exact M]; exfalso.
        -- destruct TU as [[x Q]|[Q|[Q|[x Q]]]]; try discriminate. injection Q as ->. inversion B; subst; try congruence; match goal with Z : mget _ _ _ = Some (_, 0%nat) |- _ => exact (entry_pos sha1 cfg env hash id blank c ev W LEN BASE HO LV _ _ _ Z eq_refl) end.
        -- inversion B.
      * exfalso. destruct (call_turn sha1 cfg env hash id blank c ev W LEN BASE HO LV _ _ _ _ _ _ B NZ) as (u & TU2 & M2). rewrite <- (turn_one _ _ _ TU TU2) in M2. rewrite M in M2. injection M2 as -> ->. destruct NE; congruence.
Qed.
Lemma handler_goes s t ch s' e p h : sexec s (AGo t ch) = Some (s', e) -> s_crashed s' = false -> nth_error (s_threads s) t = Some (THandler p h) ->
  h = HRelease \/ exists h', nth_error (s_threads s') t = Some (THandler p h').
Proof using.
  intros X C T. unfold P2PServer.exec, step_thread in X. rewrite T in X. destruct (s_crashed s); [discriminate|]. unfold step_handler, hand_over, crash in X.
  assert (t < List.length (s_threads s))%nat as L by (apply nth_error_Some; congruence).
  destruct (nth_error (s_peers s) p) as [q|]; [|discriminate]. destruct h; try (left; reflexivity); right.
  all: brk X; injection X as <- <-; try (cbn in C; discriminate C); try (eexists; fields; rewrite ?list_set_length; apply list_set_nth_eq; exact L).
  all: match goal with H : _ = Some ?x |- context [?x] => destruct (s_requesting s); [injection H as <-|discriminate H] end; eexists; fields; apply list_set_nth_eq; rewrite app_length; apply Nat.lt_lt_add_r; exact L.
Qed.
Lemma handler_keeps a n e t p h : nexec (u_node c) a = Some (n, e) -> s_crashed (n_srv n) = false -> thread_of c t = Some (THandler p h) ->
  (h = HRelease /\ exists ch, a = NServer (AGo t ch)) \/ exists h', nth_error (threads n) t = Some (THandler p h').
Proof.
  intros X CR T. destruct (turn_dec t a) as [TU|TU]; [|right; exists h; eapply nstays; eassumption].
  apply nexec_nstepa in X as [_ X]. unfold nturn in TU. unfold thread_of, srv in T.
  destruct X as [a1 s e F E|t1 c1 w1 ts1 A S1|t1 j f k1 s e J X E|t1 j w' ts' J X|t1 j w' ts' c1 r0 jb J X KP|t1 j w' ts' c1 r0 s e J X KP E|t1 d0 p0 m0 s e J T1 M0 E|t1 d0 p0 m0 s e J T1 M0 E]; cbn [n_srv] in *; eauto.
  - assert (exists ch, a1 = AGo t ch) as [ch ->] by (destruct TU as [[ch Q]|[Q|[Q|[b Q]]]]; try discriminate; injection Q as ->; eauto). destruct (handler_goes _ _ _ _ _ _ _ E CR T) as [->|H]; eauto.
  - assert (t1 = t) as -> by (destruct TU as [[ch Q]|[Q|[Q|[b Q]]]]; congruence). destruct (handler_goes _ _ _ _ _ _ _ E CR T) as [->|H]; [|eauto].
    exfalso. destruct (l_jobs _ _ LV _ _ J) as (th1 & TH & w & ts & st & ST & NT & _ & CI). rewrite T in TH. injection TH as <-. destruct (calls_inv _ _ _ CI) as [(p1 & m & [=] & _)|[(p1 & i1 & m & [=] & _)|(p1 & i1 & [=] & _)]].
  - assert (t1 = t) as -> by (destruct TU as [[ch Q]|[Q|[Q|[b Q]]]]; congruence). destruct (handler_goes _ _ _ _ _ _ _ E CR T) as [->|H]; [|eauto].
    exfalso. destruct (l_jobs _ _ LV _ _ J) as (th1 & TH & w & ts & st & ST & NT & _ & CI). rewrite T in TH. injection TH as <-. destruct (calls_inv _ _ _ CI) as [(p1 & m & [=] & _)|[(p1 & i1 & m & [=] & _)|(p1 & i1 & [=] & _)]].
  - assert (t1 = t) as -> by (destruct TU as [[ch Q]|[Q|[Q|[b Q]]]]; congruence). destruct (handler_goes _ _ _ _ _ _ _ E CR T) as [->|H]; [|eauto]. congruence.
  - assert (t1 = t) as -> by (destruct TU as [[ch Q]|[Q|[Q|[b Q]]]]; congruence). destruct (handler_goes _ _ _ _ _ _ _ E CR T) as [->|H]; [|eauto]. congruence.
Qed.
Lemma serve_owned_node a n e c' e2 : nexec (u_node c) a = Some (n, e) -> s_crashed (n_srv n) = false -> outcome c a n e c' e2 ->
  forall p k, serve_at c' p = Some k -> idle k \/ exists t h, thread_of c' t = Some (THandler p h).
Proof.
  intros X CR (UN & D) p k S. unfold thread_of, srv in *. rewrite UN in *.
  assert (serve_at c p = Some k -> (forall ch, beside_node c a n e <> With p 0 ch) -> idle k \/ exists t h, nth_error (threads n) t = Some (THandler p h)) as SAME.
  { intros S0 _. destruct (o_serve _ O _ _ S0) as [I|(t & h & T)]; [now left|]. destruct (handler_keeps _ _ _ _ _ _ X CR T) as [[-> _]|H]; [|right; eauto].
    destruct (w_serve _ W _ _ _ T) as (k1 & S1 & P). rewrite S0 in S1. injection S1 as <-. left. exact P. }
  destruct D as [(B & E & _)|(p0 & k0 & ch & K & K' & ek & B & N0 & X1 & E & _)].
  - assert (serve_at c p = Some k \/ k = CRead) as [S0| ->]; [|apply SAME; [exact S0|intros ch; rewrite B; discriminate]|left; now left].
    unfold serve_at in *. rewrite E in S. unfold new_conns in S. destruct (Nat.lt_ge_cases p (List.length (u_conns c))) as [L|L]; [left; now rewrite nth_error_app1 in S by exact L|].
    rewrite nth_error_app2 in S by exact L. destruct (nth_error (repeat kstart _) _) as [K|] eqn:R; [|discriminate]. apply nth_repeat_k in R as ->. injection S as <-. now right.
  - pose proof (outcome_moved _ _ _ _ _ _ N0 E) as MV. pose proof (BASE _ _ N0) as BK.
    destruct (nth_error (u_conns c') p) as [K1|] eqn:N1; [|unfold serve_at in S; rewrite N1 in S; discriminate]. destruct (moved_new _ _ _ _ _ _ _ MV N1) as [[-> ->]|[[NE N2]|[_ ->]]].
    + destruct (Nat.eq_dec k0 0) as [->|NZ].
      * destruct (serve_turn sha1 cfg env hash id blank c ev W LEN BASE HO LV _ _ _ _ _ B) as (u & h & TU2 & T2). right. destruct (handler_keeps _ _ _ _ _ _ X CR T2) as [[-> (ch1 & ->)]|H]; [|eauto].
        exfalso. unfold beside_node in B. rewrite T2 in B. discriminate B.
      * apply SAME; [|intros ch1; rewrite B; congruence]. pose proof BK as (_ & _ & _ & (h0 & H0) & _). assert (serve_at c p0 = Some h0) as S0 by (unfold serve_at; now rewrite N0, H0).
        pose proof (moved_serve _ _ _ _ _ _ _ _ _ _ MV BK X1 S0 (or_intror NZ)). congruence.
    + apply SAME; [|intros ch1; rewrite B; congruence]. unfold serve_at in *. rewrite N1 in S. now rewrite N2.
    + left. unfold serve_at in S. rewrite N1 in S. injection S as <-. now left.
Qed.
Lemma own_node a n e c' e2 : nexec (u_node c) a = Some (n, e) -> s_crashed (n_srv n) = false -> outcome c a n e c' e2 -> u_calls c' = calls_after a n c -> own_ok c'.
Proof. intros X CR OU UC. split; [eapply serve_owned_node|eapply calls_owned_node]; eassumption. Qed.
Lemma own_call t th p a K K' ek c' : thread_of c t = Some th -> mget Nat.eqb t (u_calls c) = None -> conn_call cfg (s_have (srv c)) th (job_of c t) = Some (p, a) -> nth_error (u_conns c) p = Some K ->
  kexec K a = Some (K', ek) -> u_node c' = u_node c -> u_conns c' = list_set p K' (u_conns c) -> u_calls c' = mput Nat.eqb t (p, List.length (k_threads K)) (u_calls c) -> own_ok c'.
Proof.
  intros T M C N E UN UK UC. destruct (conn_call_new _ _ _ _ _ _ _ _ _ C E) as (y & TH & _). pose proof (plain_moved _ _ _ _ _ N UK) as MV.
  pose proof (BASE _ _ N) as BK. pose proof BK as (_ & _ & _ & (h0 & H0) & _).
  split; unfold thread_of, srv; rewrite ?UN.
  - intros q k S. apply (o_serve _ O). unfold serve_at in *. rewrite UK in S. destruct (nth_error (list_set p K' (u_conns c)) q) as [K1|] eqn:N1; [|discriminate]. apply nth_set in N1 as [[-> ->]|[NE N1]]; [|now rewrite N1].
    rewrite TH, nth_error_app1 in S by (apply nth_error_Some; congruence). now rewrite N.
  - intros q k z Z OW. rewrite UC. unfold conn_thread in Z. rewrite UK in Z. destruct (nth_error (list_set p K' (u_conns c)) q) as [K1|] eqn:N1; [|discriminate].
    assert ((q = p /\ k = List.length (k_threads K)) \/ conn_thread c q k = Some z) as [[-> ->]|Z0].
    { apply nth_set in N1 as [[-> ->]|[NE N1]]; [|right; unfold conn_thread; now rewrite N1]. rewrite TH in Z. apply threads_app in Z as [[-> ->]|Z]; [now left|right]. unfold conn_thread. now rewrite N. }
    + exists t. now rewrite mget_put, Nat.eqb_refl by exact Nat.eqb_eq.
    + destruct (o_calls _ O _ _ _ Z0 OW) as [u MU]. exists u. rewrite mget_put, mget_del by exact Nat.eqb_eq. destruct (Nat.eqb_spec t u) as [->|NE]; [congruence|exact MU].
Qed.
Lemma own_conn p k ch th K K' ek c' : nth_error (u_conns c) p = Some K -> nth_error (k_threads K) k = Some th -> inside c p th ch = true -> kexec K (KGo k ch) = Some (K', ek) ->
  u_node c' = u_node c -> u_conns c' = list_set p K' (u_conns c) -> u_calls c' = u_calls c -> own_ok c'.
Proof.
  intros N T I E UN UK UC. pose proof (BASE _ _ N) as BK. pose proof (plain_moved _ _ _ _ _ N UK) as MV. split; unfold thread_of, srv; rewrite ?UN.
  - intros q k1 S. destruct (Nat.eq_dec q p) as [->|NE].
    2:{ apply (o_serve _ O). unfold serve_at in *. rewrite UK in S. now rewrite list_set_nth_neq in S by congruence. }
    pose proof BK as (_ & _ & _ & (h & T0) & _). assert (serve_at c p = Some h) as S0 by (unfold serve_at; now rewrite N, T0).
    destruct (Nat.eq_dec k 0) as [->|NZ].
    + rewrite T in T0. injection T0 as ->. destruct (moved_zero _ _ _ _ _ _ _ _ MV BK E S0) as (h1 & S1 & SM). rewrite S in S1. injection S1 as <-.
      destruct (o_serve _ O _ _ S0) as [ID|H]; [|right; exact H]. remember (flags K') as fl. destruct ID as [->|[->| ->]]; inversion SM; subst; cbn in I; try discriminate I.
      * apply andb_prop in I as [_ I]. right. unfold handler_at in I. apply existsb_exists in I as (th0 & IN & HA). destruct th0 as [| |q0 h0| | | | | |]; try discriminate HA. apply andb_prop in HA as [HA _]. apply Nat.eqb_eq in HA as <-. apply In_nth_error in IN as [u U]. eauto.
      * left. now left.
    + pose proof (moved_serve _ _ _ _ _ _ _ _ _ _ MV BK E S0 (or_intror NZ)) as S2. rewrite S in S2. injection S2 as ->. apply (o_serve _ O). exact S0.
  - intros q k1 y Y OW. rewrite UC. unfold conn_thread in Y. rewrite UK in Y. destruct (nth_error (list_set p K' (u_conns c)) q) as [K1|] eqn:N1; [|discriminate]. apply nth_set in N1 as [[-> ->]|[NE N1]].
    + destruct (kgo_owned _ _ _ _ _ _ _ BK E Y OW) as [[_ Y0]|(-> & y0 & Y0 & OW0)]; eapply (o_calls _ O); unfold conn_thread; try rewrite N; eassumption.
    + eapply (o_calls _ O); unfold conn_thread; try rewrite N1; eassumption.
Qed.
End At.
End Own.
