(** What is on the wire, in every run of the client. *)
From Verif Require Import GoBase GoBaseProofs GoMap Bitfield BitfieldSpec PeerWire Requests Metainfo MetainfoSpec Fs Storage StorageSpec StorageSysSpec StorageSys Node NodeSpec NodeServerProofs NodeProofs NodeThms P2PServer P2PServerSpec P2PServerProofs P2PAnnounceProofs
  P2PConn P2PConnSpec P2PConnProofs Client ClientSpec ClientProofs ClientServerProofs ClientConnProofs ClientAskProofs ClientThms ClientWantProofs ClientWireProofs.
From Verif Require P2PRegistryProofs P2PServerThms.

Section Wires.
Variable sha1 : bytes -> bytes.
Variable cfg : config.
Variable env : nat -> Fs.choice.
Variable hash id blank : bytes.
Hypothesis ok : config_ok cfg.
Hypothesis fits : i_piece_length (c_info cfg) <= 2 ^ 63 - 16384.
Variable f0 : fs.
Variable tick0 : nat.
Variable ls0 : list label.
Variable w0 : world.
Variable es0 : list StorageSys.event.
Hypothesis unt : untouched cfg f0.
Hypothesis loaded : StorageSys.execs sha1 cfg env (Dead f0 tick0) ls0 = Some (Running w0 [], es0).
Hypothesis isblank : bf_new (num_pieces (c_info cfg)) = Some blank.
Notation uexec := (uexec sha1 cfg env hash id blank).
Notation uruns := (uruns sha1 cfg env hash id blank).
Notation uinv := (uinv sha1 cfg env hash id blank w0).
Set Default Proof Using "All".

Lemma wire_start sto : wire_ok (ustart sto).
Proof using. split; cbn; try discriminate; intros [|t]; try discriminate; intros p; try discriminate. intros [D|D]; discriminate. intros [D|D]; discriminate. Qed.
Lemma wire_step c ev a c' e : uinv c ev -> wire_ok c -> uexec c a = Some (c', e) ->
  (s_crashed (srv c') = false -> wire_ok c') /\ forall p, told p (node_events e) = wire_sent p e /\ heard p (node_events e) = wire_handled p e.
Proof.
  intros U W X. apply uexec_ustep in X as [C S]. pose proof (ui_conns _ _ _ _ _ _ _ _ _ U) as (LEN & _ & RK).
  assert (forall p K, nth_error (u_conns c) p = Some K -> base_ok K) as BASE by (intros p K N; destruct (RK _ _ N) as [l R]; eapply base_run; exact R).
  pose proof (ui_node _ _ _ _ _ _ _ _ _ U) as NI. pose proof (i_live _ _ _ _ _ _ _ _ _ NI C) as LV.
  destruct (server_run sha1 cfg env hash id blank ok f0 tick0 ls0 w0 es0 unt loaded isblank _ _ NI) as [sl SR]. pose proof (P2PServerThms.v_hand _ _ _ (P2PServerThms.run_inv _ _ _ _ _ _ _ SR)) as HO.
  assert (forall p q ek, ksent ek = [] -> khandled ek = [] -> told p (node_events (map (UK q) ek)) = wire_sent p (map (UK q) ek) /\ heard p (node_events (map (UK q) ek)) = wire_handled p (map (UK q) ek)) as QU.
  { intros p q ek K1 K2. unfold wire_sent, wire_handled. rewrite node_events_uk, conn_events_uk. destruct (Nat.eqb p q); split; try reflexivity; cbn; symmetry; assumption. }
  destruct S as [a0 n en c' X B U1 U2 U3 U4|a0 n en p k ch K K' ek c' X B N E U1 U2 U3 U4|t th p a0 K K' ek c' T M CC N E U1 U2 U3 U4|p k ch th K K' ek c' N T0 In0 E U1 U2 U3 U4].
  - assert (outcome c a0 n en c' []) as O by (split; [exact U1|left; auto]). split.
    + intros CR. unfold srv in CR. rewrite U1 in CR. eapply wire_node; eassumption.
    + intros p. rewrite node_events_un. unfold wire_sent, wire_handled. rewrite conn_events_un. eapply agree_node in O; try eassumption. apply O.
  - assert (outcome c a0 n en c' (map (UK p) ek)) as O by (split; [exact U1|right; do 6 eexists; eauto]). split.
    + intros CR. unfold srv in CR. rewrite U1 in CR. eapply wire_node; eassumption.
    + intros q. rewrite node_events_app, node_events_un, node_events_uk, app_nil_r. unfold wire_sent, wire_handled. rewrite conn_events_app, conn_events_un. cbn [app]. eapply agree_node in O; try eassumption. apply O.
  - edestruct wire_call as (W' & K1 & K2); try eassumption. split; [auto|]. intros q. apply QU; assumption.
  - edestruct wire_conn as (W' & K1 & K2); try eassumption. split; [auto|]. intros q. apply QU; assumption.
Qed.
Lemma wire_run l c ev : uruns (ustart (Running w0 [])) l = Some (c, ev) -> uinv c ev /\ (s_crashed (srv c) = false -> wire_ok c) /\ forall p, told p (node_events ev) = wire_sent p ev /\ heard p (node_events ev) = wire_handled p ev.
Proof.
  revert l c ev. apply (uruns_ind sha1 cfg env hash id blank (fun c ev => uinv c ev /\ (s_crashed (srv c) = false -> wire_ok c) /\ forall p, told p (node_events ev) = wire_sent p ev /\ heard p (node_events ev) = wire_handled p ev)).
  - split; [apply uinv_start|]. split; [intros _; apply wire_start|]. intros p. split; reflexivity.
  - intros c ev a c' e (U & W & A) X. assert (s_crashed (srv c) = false) as C by apply (uexec_ustep _ _ _ _ _ _ _ _ _ _ X). destruct (wire_step _ _ _ _ _ U (W C) X) as (W' & A').
    split; [eapply uinv_step; eassumption|]. split; [exact W'|]. intros p. destruct (A p) as [A1 A2], (A' p) as [B1 B2]. unfold told, heard, wire_sent, wire_handled in *. rewrite node_events_app, conn_events_app, !flat_map_app. split; congruence.
Qed.
End Wires.

Section Theorems.
Variable sha1 : bytes -> bytes.
Variable cfg : config.
Variable env : nat -> Fs.choice.
Variable hash id : bytes.
Hypothesis ok : config_ok cfg.
Hypothesis fits : i_piece_length (c_info cfg) <= 2 ^ 63 - 16384.
Notation client_run := (client_run sha1 cfg env hash id).

Theorem wire_agrees f l c ev p : client_run f l c ev -> wire_sent p ev = told p (node_events ev) /\ wire_handled p ev = heard p (node_events ev).
Proof using ok fits.
  intros (UT & tick & ls & w & es & blank & LD & BL & R). destruct (wire_run sha1 cfg env hash id blank ok fits f tick ls w es UT LD BL _ _ _ R) as (_ & _ & A). destruct (A p) as [A1 A2]. split; congruence.
Qed.
(** Whether the remote's view and ours are those of the server, while the program runs. *)
Theorem flags_agree f l c ev p q K : client_run f l c ev -> crashed (u_node c) = false -> nth_error (s_peers (srv c)) p = Some q -> nth_error (u_conns c) p = Some K ->
  k_rchoked K = q_rchoked q /\ k_choked K = q_choked q /\ k_interested K = q_interested q.
Proof using ok fits.
  intros (UT & tick & ls & w & es & blank & LD & BL & R) C Q N. destruct (wire_run sha1 cfg env hash id blank ok fits f tick ls w es UT LD BL _ _ _ R) as (U & W & _).
  assert (s_crashed (srv c) = false) as C' by exact C.
  pose proof (w_flags _ (W C') _ _ _ Q N) as F. unfold sflags, flags in F. injection F as -> -> ->. auto.
Qed.
Lemma in_told p m ev : In m (told p ev) <-> In (NEv (EvSent p m)) ev \/ In (NServed p m) ev.
Proof.
  unfold told. rewrite in_flat_map. split.
  - intros (x & I & H). destruct x as [[]| |q m0]; try destruct H; destruct (Nat.eqb_spec p p0) || destruct (Nat.eqb_spec p q); try destruct H as [<-|[]]; subst; auto; destruct H.
  - intros [I|I]; eexists; (split; [exact I|]); cbn; rewrite Nat.eqb_refl; now left.
Qed.
Lemma in_heard p m ev : In m (heard p ev) <-> received ev p m.
Proof.
  unfold heard, received. rewrite in_flat_map. split.
  - intros (x & I & H). destruct x as [[]| |]; try destruct H. destruct (Nat.eqb_spec p p0); [|destruct H]. destruct H as [<-|[]]. now subst.
  - intros I. eexists. split; [exact I|]. cbn. rewrite Nat.eqb_refl. now left.
Qed.
Lemma in_wire p m ev : In m (wire_sent p ev) <-> In (UK p (KSent m)) ev /\ m_type m <> REQUEST.
Proof.
  unfold wire_sent. rewrite in_flat_map. split.
  - intros (x & I & H). destruct x; try destruct H. destruct (Z.eqb_spec (m_type m0) REQUEST); [destruct H|]. destruct H as [<-|[]]. split; [now apply in_conn|assumption].
  - intros [I N]. exists (KSent m). split; [now apply in_conn|]. cbn. destruct (Z.eqb_spec (m_type m) REQUEST); [contradiction|now left].
Qed.
Lemma in_handled p m ev : In m (wire_handled p ev) <-> In (UK p (KHandled m)) ev.
Proof.
  unfold wire_handled. rewrite in_flat_map. split.
  - intros (x & I & H). destruct x; try (now destruct H). destruct H as [->|[]]. now apply in_conn.
  - intros I. exists (KHandled m). split; [now apply in_conn|]. now left.
Qed.

(** * One message *)
Lemma un_first blank c c' ea p x eb y : ustep sha1 cfg env hash id blank c c' (ea ++ UK p x :: eb) -> ~ In (UN y) eb.
Proof using.
  intros S I. assert (forall en ea0 rest, map UN en ++ rest = ea0 ++ UK p x :: eb -> In (UN y) rest) as G.
  { induction en as [|z en IH]; intros ea0 rest Q; [cbn in Q; rewrite Q; apply in_or_app; right; now right|]. destruct ea0 as [|w ea0]; cbn in Q; injection Q as Q0 Q; [discriminate Q0|]. eapply IH. exact Q. }
  assert (forall q ek, ~ In (UN y) (map (UK q) ek)) as NK by (intros q ek J; apply in_map_iff in J as (w & [=] & _)).
  remember (ea ++ UK p x :: eb) as e eqn:E. destruct S.
  - apply (G e ea []). now rewrite app_nil_r.
  - eapply NK, G. exact E.
  - apply (NK p0 ek), (G [] ea). exact E.
  - apply (NK p0 ek), (G [] ea). exact E.
Qed.
Lemma sent_by blank s a s' e p m : P2PServer.exec hash id blank s a = Some (s', e) -> In (EvSent p m) e ->
  m_type m = BITFIELD \/ (In (m_type m) [HAVE; INTERESTED; NOT_INTERESTED; UNCHOKE] /\ exists th, In th (s_threads s) /\ P2PUsefulProofs.talks_to th p).
Proof using.
  clear ok fits cfg sha1 env. intros E I. open_exec E; cbn [In] in I; repeat match type of I with _ \/ _ => destruct I as [I|I] end; try contradiction; try discriminate I; injection I as <- <-; try (now left); right.
  all: split; [cbn; tauto|]; eexists; split; [eapply nth_error_In; eassumption|]; cbn; tauto.
Qed.
Lemma served_by n a n' e blank p m : nexec sha1 cfg env hash id blank n a = Some (n', e) -> In (NServed p m) e -> m_type m = PIECE /\ In (THandler p HRequest) (s_threads (n_srv n)).
Proof using.
  intros H I. apply nexec_nstepa in H as [_ H].
  destruct H as [a1 s e F E|t1 c w1 ts1 A S1|t1 j f k s e J X E|t1 j w' ts' J X|t1 j w' ts' c r jb J X KP|t1 j w' ts' c r s e J X KP E|t1 d0 p0 m0 s e J T0 M0 E|t1 d0 p0 m0 s e J T0 M0 E].
  all: try (now destruct I). all: try (destruct I as [I|I]; [try discriminate I|]). all: try (now destruct I). all: try (now apply in_map_iff in I as (y & [=] & _)).
  injection I as <- <-. split; [reflexivity|]. eapply nth_error_In. exact T0.
Qed.
(** A message that is written: who wrote it. *)
Theorem wrote f l c e1 p m e2 : client_run f l c (e1 ++ UK p (KSent m) :: e2) ->
  ((m_type m = BITFIELD \/ In (m_type m) [HAVE; INTERESTED; NOT_INTERESTED; UNCHOKE]) /\ In (UN (NEv (EvSent p m))) e1 \/ m_type m = PIECE /\ In (UN (NServed p m)) e1 \/ m_type m = REQUEST) /\
  (m_type m = BITFIELD \/ (exists b, In (UK p (KSent (mk_bitfield b))) e1) \/ In (UN (NEv (EvRefused p))) e1).
Proof using ok fits.
  intros (UT & tick & ls & w & es & blank & LD & BL & R). destruct (uruns_event _ _ _ _ _ _ _ _ _ _ R e1 _ e2 eq_refl) as (l1 & c1 & ev1 & a & c2 & ea & eb & R1 & X & ->).
  destruct (wire_run sha1 cfg env hash id blank ok fits f tick ls w es UT LD BL _ _ _ R1) as (U & W & AG).
  pose proof (uexec_ustep _ _ _ _ _ _ _ _ _ _ X) as [C S]. destruct (wire_step sha1 cfg env hash id blank ok fits f tick ls w es UT LD BL _ _ _ _ _ U (W C) X) as (_ & AG').
  pose proof (ui_node _ _ _ _ _ _ _ _ _ U) as NI. destruct (server_run sha1 cfg env hash id blank ok f tick ls w es UT LD BL _ _ NI) as [sl SR]. pose proof (P2PServerThms.v_greet _ _ _ (P2PServerThms.run_inv _ _ _ _ _ _ _ SR)) as [_ GR].
  assert (forall th, In th (s_threads (srv c1)) -> P2PUsefulProofs.talks_to th p -> (exists b, In (UK p (KSent (mk_bitfield b))) (ev1 ++ ea)) \/ In (UN (NEv (EvRefused p))) (ev1 ++ ea)) as GT.
  { intros th T TT. destruct (GR th p T TT) as [[b B]|B]; apply in_srv in B; [left|right; apply in_or_app; left; now apply in_node].
    exists b. apply in_or_app. left. apply in_wire. rewrite <- (proj1 (AG p)). apply in_told. now left. }
  destruct (Z.eq_dec (m_type m) REQUEST) as [RQ|RQ].
  - split; [auto|]. right.
    assert (exists K K' b ek, nth_error (u_conns c1) p = Some K /\ kexec K b = Some (K', ek) /\ In (KSent m) ek) as (K & K' & b & ek & N & E & I).
    { assert (In (UK p (KSent m)) (ea ++ UK p (KSent m) :: eb)) as I by (apply in_or_app; right; now left).
      remember (ea ++ UK p (KSent m) :: eb) as e eqn:EE. destruct S as [a0 n en c' X0 B U1 U2 U3 U4|a0 n en q k ch K K' ek c' X0 B N E U1 U2 U3 U4|t th q a0 K K' ek c' T M CC N E U1 U2 U3 U4|q k ch th K K' ek c' N T0 In0 E U1 U2 U3 U4].
      - apply in_map_iff in I as (y & [=] & _).
      - apply in_app_or in I as [I|I]; apply in_map_iff in I as (y & Y & I); [discriminate Y|]. injection Y as -> ->. eauto 8.
      - apply in_map_iff in I as (y & Y & I). injection Y as -> ->. eauto 8.
      - apply in_map_iff in I as (y & Y & I). injection Y as -> ->. eauto 8. }
    pose proof (ui_conns _ _ _ _ _ _ _ _ _ U) as (_ & _ & RK). destruct (RK _ _ N) as [lk KR]. pose proof (kinds_run _ _ _ KR) as KD.
    destruct (sent_request _ _ _ _ _ KD E I RQ) as (t & r & fu & _ & T & _). destruct (asks_for sha1 cfg env hash id blank w c1 ev1 p K t r _ U C N T ltac:(discriminate)) as (u & i & f2 & k & bl & TT & _).
    apply (GT (TPiece p i PRun)); [eapply nth_error_In; exact TT|reflexivity].
  - assert (In m (told p (node_events (ea ++ UK p (KSent m) :: eb)))) as TO.
    { rewrite (proj1 (AG' p)). apply in_wire. split; [apply in_or_app; right; now left|exact RQ]. }
    apply in_told in TO. rewrite !in_node in TO.
    assert (forall y, In (UN y) (ea ++ UK p (KSent m) :: eb) -> In (UN y) ea) as FI.
    { intros y I. apply in_app_or in I as [I|[I|I]]; [exact I|discriminate I|]. now destruct (un_first _ _ _ _ _ _ _ _ S I). }
    assert (forall y, In (UN y) (ea ++ UK p (KSent m) :: eb) -> exists a n e, nexec sha1 cfg env hash id blank (u_node c1) a = Some (n, e) /\ In y e) as ND.
    { intros y I. remember (ea ++ UK p (KSent m) :: eb) as e eqn:EE. destruct S as [a0 n en c' X0 B U1 U2 U3 U4|a0 n en q k ch K K' ek c' X0 B N E U1 U2 U3 U4|t th q a0 K K' ek c' T M CC N E U1 U2 U3 U4|q k ch th K K' ek c' N T0 In0 E U1 U2 U3 U4].
      - apply in_map_iff in I as (z & [= ->] & I). eauto.
      - apply in_app_or in I as [I|I]; apply in_map_iff in I as (z & Y & I); [|discriminate Y]. injection Y as ->. eauto.
      - apply in_map_iff in I as (z & [=] & I).
      - apply in_map_iff in I as (z & [=] & I). }
    destruct TO as [I|I]; destruct (ND _ I) as (a0 & n & en & X0 & J).
    + destruct (srv_event _ _ _ _ _ _ _ _ _ _ _ X0 J) as (b & s & e1 & E & J1 & _). destruct (sent_by _ _ _ _ _ _ _ E J1) as [B|(B & th & T & TT)].
      * split; [left; split; [auto|apply in_or_app; right; auto]|auto].
      * split; [left; split; [auto|apply in_or_app; right; auto]|]. right. eapply GT; eassumption.
    + destruct (served_by _ _ _ _ _ _ _ X0 J) as (B & T). split; [right; left; split; [auto|apply in_or_app; right; auto]|]. right. eapply GT; [exact T|reflexivity].
Qed.
Lemma handled_came f l c ev p m : client_run f l c ev -> In (UK p (KHandled m)) ev -> In (UK p (KRecv m)) ev.
Proof using.
  intros (UT & tick & ls & w & es & blank & LD & BL & R) I. destruct (conns_run _ _ _ _ _ _ _ _ _ _ R) as (_ & F & RK). apply in_conn in I. apply in_conn.
  destruct (nth_error (u_conns c) p) as [K|] eqn:N.
  - destruct (RK _ _ N) as [lk KR]. exact (proj2 (came_run _ _ _ KR) _ I).
  - apply nth_error_None in N. rewrite (F _ N) in I. destruct I.
Qed.
(** ... and what it says. *)
Theorem wire_pieces f l c ev p x : client_run f l c ev -> In (UK p (KSent x)) ev -> m_type x = PIECE ->
  exists m d, In (UK p (KRecv m)) ev /\ m_type m = REQUEST /\ x = mk_piece (m_index m) (m_begin m) d /\ zlen d = m_length m /\
    (in_piece cfg (m_index m) (m_begin m) (m_length m) ->
       exists b, on_disk cfg (disk (u_node c)) (m_index m) = Some b /\ verified sha1 cfg (m_index m) b /\ d = slice b (m_begin m) (m_length m)) /\
    (d = [] \/ (exists b s, whole sha1 cfg b /\ 0 <= s /\ s + m_length m <= zlen b /\ d = slice b s (m_length m)) \/
     (exists b, 0 <= m_index m < num_pieces (c_info cfg) /\ verified sha1 cfg (m_index m) b /\ 0 <= m_begin m /\ m_begin m + m_length m <= zlen b /\ d = slice b (m_begin m) (m_length m))).
Proof using ok fits.
  intros R I T. destruct (client_node _ _ _ _ _ _ _ _ _ R) as [l' NR]. apply in_split in I as (e1 & e2 & ->). destruct (wrote _ _ _ _ _ _ _ R) as [[[[B|B] _]|[[_ I]|B]] _]; try (rewrite T in B; discriminate B).
  { rewrite T in B. cbn in B. repeat (destruct B as [B|B]; [discriminate B|]). destruct B. }
  assert (In (NServed p x) (node_events (e1 ++ UK p (KSent x) :: e2))) as J by (apply in_node, in_or_app; now left).
  destruct (uploads sha1 cfg env hash id ok _ _ _ _ _ _ NR J) as (m & d & RC & Q). exists m, d. split; [|exact Q].
  apply in_heard in RC. rewrite <- (proj2 (wire_agrees _ _ _ _ p R)) in RC. apply in_handled in RC. eapply handled_came; eassumption.
Qed.
Theorem wire_announced f l c ev p m i : client_run f l c ev -> In (UK p (KSent m)) ev -> 0 <= i -> announces_piece m i ->
  i < num_pieces (c_info cfg) /\ exists b, on_disk cfg (disk (u_node c)) i = Some b /\ verified sha1 cfg i b.
Proof using ok fits.
  intros R I P A. destruct (client_node _ _ _ _ _ _ _ _ _ R) as [l' NR]. apply in_split in I as (e1 & e2 & ->).
  assert (m_type m = HAVE \/ m_type m = BITFIELD) as TY by (destruct A as [[A _]|[A _]]; auto).
  destruct (wrote _ _ _ _ _ _ _ R) as [[[_ I]|[[B _]|B]] _]; [|rewrite B in TY; destruct TY; discriminate|rewrite B in TY; destruct TY; discriminate].
  eapply advertised_verified; [exact ok|exact NR|apply in_node, in_or_app; left; exact I|exact P|exact A].
Qed.
Theorem wire_kinds f l c ev p m : client_run f l c ev -> In (UK p (KSent m)) ev -> In (m_type m) [BITFIELD; HAVE; INTERESTED; NOT_INTERESTED; UNCHOKE; REQUEST; PIECE].
Proof using ok fits.
  intros R I. apply in_split in I as (e1 & e2 & ->). destruct (wrote _ _ _ _ _ _ _ R) as [[[[B|B] _]|[[B _]|B]] _]; cbn in B |- *; intuition congruence.
Qed.
Theorem wire_first f l c e1 p m e2 : client_run f l c (e1 ++ UK p (KSent m) :: e2) -> m_type m = BITFIELD \/ (exists b, In (UK p (KSent (mk_bitfield b))) e1) \/ In (UN (NEv (EvRefused p))) e1.
Proof using ok fits. intros R. apply (wrote _ _ _ _ _ _ _ R). Qed.
(** Every message the server takes is one that came. *)
Theorem heard_came f l c ev p m : client_run f l c ev -> In (UN (NEv (EvReceived p m))) ev -> In (UK p (KRecv m)) ev.
Proof using ok fits.
  intros R I. eapply handled_came; [exact R|]. apply in_handled. rewrite (proj2 (wire_agrees _ _ _ _ p R)). apply in_heard. unfold received. now apply in_node.
Qed.
End Theorems.
