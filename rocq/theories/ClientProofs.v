(** The steps of the client, and what the client has in common with its parts. *)
From Verif Require Import GoBase GoBaseProofs Bitfield GoMap PeerWire Metainfo MetainfoSpec Fs Storage StorageSys StorageSpec StorageSysSpec Requests
  Node NodeSpec NodeProofs P2PConn P2PConnSpec P2PConnProofs Client ClientSpec.
From Verif Require P2PServer P2PServerSpec P2PServerProofs NodeServerProofs.

Lemma node_events_app a b : node_events (a ++ b) = node_events a ++ node_events b. Proof. unfold node_events. apply flat_map_app. Qed.
Lemma conn_events_app p a b : conn_events p (a ++ b) = conn_events p a ++ conn_events p b. Proof. unfold conn_events. apply flat_map_app. Qed.
Lemma node_events_un e : node_events (map UN e) = e. Proof. unfold node_events. induction e as [|x e IH]; cbn; [easy|]. now rewrite IH. Qed.
Lemma node_events_uk p e : node_events (map (UK p) e) = []. Proof. unfold node_events. induction e as [|x e IH]; cbn; [easy|]. exact IH. Qed.
Lemma conn_events_un p e : conn_events p (map UN e) = []. Proof. unfold conn_events. induction e as [|x e IH]; cbn; [easy|]. exact IH. Qed.
Lemma conn_events_uk p q e : conn_events p (map (UK q) e) = if Nat.eqb p q then e else [].
Proof. unfold conn_events. destruct (Nat.eqb p q) eqn:E; induction e as [|x e IH]; cbn; rewrite ?E; cbn; try reflexivity; [now rewrite IH|exact IH]. Qed.
Lemma in_node x ev : In x (node_events ev) <-> In (UN x) ev.
Proof.
  unfold node_events. rewrite in_flat_map. split.
  - intros ([y|] & I & X); cbn in X; try contradiction. destruct X as [->|[]]. exact I.
  - intros I. exists (UN x). split; [exact I|now left].
Qed.
Lemma in_conn p x ev : In x (conn_events p ev) <-> In (UK p x) ev.
Proof.
  unfold conn_events. rewrite in_flat_map. split.
  - intros ([|q y] & I & X); [contradiction|]. destruct (Nat.eqb p q) eqn:E; [|contradiction]. apply Nat.eqb_eq in E as ->. destruct X as [->|[]]. exact I.
  - intros I. exists (UK p x). split; [exact I|]. cbn. rewrite Nat.eqb_refl. now left.
Qed.
Lemma conn_events_split p ev : forall a x b, conn_events p ev = a ++ x :: b -> exists ea eb, ev = ea ++ UK p x :: eb /\ conn_events p ea = a /\ conn_events p eb = b.
Proof.
  induction ev as [|e ev IH]; intros a x b H; [destruct a; discriminate|]. assert (conn_events p (e :: ev) = conn_events p [e] ++ conn_events p ev) as Hs by (rewrite <- conn_events_app; reflexivity). rewrite Hs in H. clear Hs.
  destruct e as [y|q y].
  - cbn in H. destruct (IH _ _ _ H) as (ea & eb & -> & A & B). exists (UN y :: ea), eb. auto.
  - cbn in H. destruct (Nat.eqb p q) eqn:E; cbn in H.
    + apply Nat.eqb_eq in E as <-. destruct a as [|a0 a].
      * injection H as -> <-. exists [], ev. auto.
      * injection H as -> H. destruct (IH _ _ _ H) as (ea & eb & -> & A & B). exists (UK p a0 :: ea), eb. repeat split; auto. cbn. rewrite Nat.eqb_refl. cbn. now f_equal.
    + destruct (IH _ _ _ H) as (ea & eb & -> & A & B). exists (UK q y :: ea), eb. repeat split; auto. cbn. now rewrite E.
Qed.

Lemma msg_iff a b : msg_eqb a b = true <-> a = b.
Proof.
  unfold msg_eqb. rewrite !andb_true_iff, !Z.eqb_eq, !bytes_eqb_eq. destruct a, b. cbn. split; [intros (((((-> & ->) & ->) & ->) & ->) & ->); reflexivity|intros [= -> -> -> -> -> ->]; auto 10].
Qed.

Section Client.
Variable sha1 : bytes -> bytes.
Variable cfg : config.
Variable env : nat -> Fs.choice.
Variable hash id blank : bytes.
Notation nexec := (nexec sha1 cfg env hash id blank).
Notation nruns := (nruns sha1 cfg env hash id blank).
Notation uexec := (uexec sha1 cfg env hash id blank).
Notation uruns := (uruns sha1 cfg env hash id blank).
Notation sexec := (P2PServer.exec hash id blank).
Notation sruns := (P2PServer.runs hash id blank).
Notation exec := (StorageSys.exec sha1 cfg env).
Notation execs := (StorageSys.execs sha1 cfg env).
Notation np := (num_pieces (c_info cfg)).

Lemma uruns_ind (P : client -> list uevent -> Prop) c0 : P c0 [] -> (forall c ev a c' e, P c ev -> uexec c a = Some (c', e) -> P c' (ev ++ e)) ->
  forall l c ev, uruns c0 l = Some (c, ev) -> P c ev.
Proof.
  intros P0 PS. assert (forall l c1 ev1 c ev, P c1 ev1 -> uruns c1 l = Some (c, ev) -> P c (ev1 ++ ev)) as G.
  { induction l as [|a l IH]; cbn [Client.uruns]; intros c1 ev1 c ev P1; [intros [= <- <-]; now rewrite app_nil_r|].
    destruct (uexec c1 a) as [[c2 e2]|] eqn:E; [|discriminate]. destruct (uruns c2 l) as [[c3 e3]|] eqn:R; [|discriminate]. intros [= <- <-].
    rewrite app_assoc. eapply IH; [|exact R]. eapply PS; eassumption. }
  intros l c ev R. exact (G l c0 [] c ev P0 R).
Qed.

(** * The steps *)
(** The connection of p went from K to K'; new connections were added. *)
Definition conns_moved (c c' : client) (p : nat) (K K' : kstate) : Prop :=
  nth_error (u_conns c) p = Some K /\ exists m, u_conns c' = list_set p K' (u_conns c) ++ repeat kstart m.
Inductive ustep (c : client) : client -> list uevent -> Prop :=
| UsNode a n e c' : nexec (u_node c) a = Some (n, e) -> beside_node c a n e = Alone ->
    u_node c' = n -> u_conns c' = new_conns n c -> u_calls c' = calls_after a n c -> u_errs c' = u_errs c -> ustep c c' (map UN e)
| UsBoth a n e p k ch K K' ek c' : nexec (u_node c) a = Some (n, e) -> beside_node c a n e = With p k ch ->
    nth_error (u_conns c) p = Some K -> kexec K (KGo k ch) = Some (K', ek) ->
    u_node c' = n -> u_conns c' = new_conns n (set_uconns (list_set p K' (u_conns c)) c) -> u_calls c' = calls_after a n c -> u_errs c' = errs_after p K ek (u_errs c) ->
    ustep c c' (map UN e ++ map (UK p) ek)
| UsCall t th p a K K' ek c' : thread_of c t = Some th -> mget Nat.eqb t (u_calls c) = None ->
    conn_call cfg (P2PServer.s_have (srv c)) th (job_of c t) = Some (p, a) -> nth_error (u_conns c) p = Some K -> kexec K a = Some (K', ek) ->
    u_node c' = u_node c -> u_conns c' = list_set p K' (u_conns c) -> u_calls c' = mput Nat.eqb t (p, List.length (k_threads K)) (u_calls c) -> u_errs c' = errs_after p K ek (u_errs c) ->
    ustep c c' (map (UK p) ek)
| UsConn p k ch th K K' ek c' : nth_error (u_conns c) p = Some K -> nth_error (k_threads K) k = Some th -> inside c p th ch = true -> kexec K (KGo k ch) = Some (K', ek) ->
    u_node c' = u_node c -> u_conns c' = list_set p K' (u_conns c) -> u_calls c' = u_calls c -> u_errs c' = errs_after p K ek (u_errs c) ->
    ustep c c' (map (UK p) ek).
Lemma conn_step_inv c p a c' e : conn_step c p a = Some (c', e) -> exists K K' ek, nth_error (u_conns c) p = Some K /\ kexec K a = Some (K', ek) /\ e = map (UK p) ek /\
  c' = set_uerrs (errs_after p K ek (u_errs c)) (set_uconns (list_set p K' (u_conns c)) c).
Proof.
  unfold conn_step. destruct (nth_error (u_conns c) p) as [K|] eqn:N; [|discriminate]. destruct (kexec K a) as [[K' ek]|] eqn:E; [|discriminate]. intros [= <- <-].
  exists K, K', ek. repeat split; assumption.
Qed.
Lemma uexec_ustep c a c' e : uexec c a = Some (c', e) -> P2PServer.s_crashed (srv c) = false /\ ustep c c' e.
Proof.
  unfold Client.uexec. destruct (P2PServer.s_crashed (srv c)) eqn:C; [discriminate|]. intros H. split; [reflexivity|]. destruct a as [a|t|p k ch].
  - destruct (nexec (u_node c) a) as [[n en]|] eqn:X; [|discriminate]. destruct (beside_node c a n en) as [|p k ch|] eqn:B; [| |discriminate].
    + injection H as <- <-. eapply UsNode; try eassumption; try reflexivity.
    + destruct (conn_step c p (KGo k ch)) as [[c1 ek]|] eqn:S; [|discriminate]. injection H as <- <-. apply conn_step_inv in S as (K & K' & ek' & N & E & -> & ->).
      eapply UsBoth; try eassumption; try reflexivity.
  - destruct (thread_of c t) as [th|] eqn:T; [|discriminate]. destruct (mget Nat.eqb t (u_calls c)) eqn:M; [discriminate|].
    destruct (conn_call cfg (P2PServer.s_have (srv c)) th (job_of c t)) as [[p a]|] eqn:CC; [|discriminate].
    destruct (nth_error (u_conns c) p) as [K0|] eqn:N0; [|discriminate]. destruct (conn_step c p a) as [[c1 ek]|] eqn:S; [|discriminate]. injection H as <- <-.
    apply conn_step_inv in S as (K & K' & ek' & N & E & -> & ->). assert (K0 = K) as -> by congruence. eapply UsCall; try eassumption; reflexivity.
  - destruct (nth_error (u_conns c) p) as [K0|] eqn:N0; [|discriminate]. destruct (nth_error (k_threads K0) k) as [th|] eqn:T; [|discriminate].
    destruct (inside c p th ch) eqn:I; [|discriminate]. apply conn_step_inv in H as (K & K' & ek' & N & E & -> & ->). assert (K0 = K) as -> by congruence. eapply UsConn; try eassumption; reflexivity.
Qed.

(** * The parts *)
Lemma node_of c0 l c ev : uruns c0 l = Some (c, ev) -> exists l', nruns (u_node c0) l' = Some (u_node c, node_events ev).
Proof.
  apply (uruns_ind (fun c ev => exists l', nruns (u_node c0) l' = Some (u_node c, node_events ev)) c0); [now exists []|].
  intros c1 ev1 a c2 e (l' & R) E. apply uexec_ustep in E as [_ S].
  assert (forall a n en, nexec (u_node c1) a = Some (n, en) -> nruns (u_node c0) (l' ++ [a]) = Some (n, node_events ev1 ++ en)) as G.
  { intros a' n en X. clear S. revert R. generalize (node_events ev1). generalize (u_node c0). clear -X. induction l' as [|b l' IH]; intros n0 ev R.
    - cbn in R. injection R as -> <-. cbn. rewrite X. now rewrite app_nil_r.
    - cbn in *. destruct (nexec n0 b) as [[n1 e1]|]; [|discriminate]. destruct (nruns n1 l') as [[n2 e2]|] eqn:R2; [|discriminate]. injection R as -> <-.
      rewrite (IH _ _ R2). now rewrite app_assoc. }
  destruct S; rewrite node_events_app, ?node_events_app, ?node_events_un, ?node_events_uk, ?app_nil_r.
  - subst. eauto.
  - subst. eauto.
  - exists l'. congruence.
  - exists l'. congruence.
Qed.
Definition conns_ok (c : client) (ev : list uevent) : Prop :=
  List.length (u_conns c) = List.length (P2PServer.s_peers (srv c)) /\ (forall p, (List.length (u_conns c) <= p)%nat -> conn_events p ev = []) /\
  forall p K, nth_error (u_conns c) p = Some K -> exists l, krun_of l K (conn_events p ev).
Lemma drop_length l : forall s, List.length (P2PServer.s_peers (fold_left (fun s p => match nth_error (P2PServer.s_peers s) p with Some q => P2PServer.drop_peer p q s | None => s end) l s)) = List.length (P2PServer.s_peers s).
Proof.
  induction l as [|x l IH]; intros s; cbn [fold_left]; [reflexivity|]. rewrite IH. destruct (nth_error (P2PServer.s_peers s) x); [|reflexivity].
  cbn. now rewrite list_set_length.
Qed.
Lemma peers_grow s a s' e : sexec s a = Some (s', e) -> (List.length (P2PServer.s_peers s) <= List.length (P2PServer.s_peers s'))%nat.
Proof.
  intros H. P2PServerProofs.open_exec H; P2PServerProofs.fields; rewrite ?drop_length, ?list_set_length, ?app_length; try lia.
Qed.
Lemma npeers_grow n a n' e : nexec n a = Some (n', e) -> (List.length (P2PServer.s_peers (n_srv n)) <= List.length (P2PServer.s_peers (n_srv n')))%nat.
Proof. intros H. apply nexec_nstep in H as [_ S]. destruct S; cbn [n_srv]; try lia; eapply peers_grow; eassumption. Qed.
Lemma nth_repeat_k p m K : nth_error (repeat kstart m) p = Some K -> K = kstart.
Proof. intros H. apply nth_error_In in H. eapply repeat_spec; eassumption. Qed.
Lemma krun_one l K ev a K' e : krun_of l K ev -> kexec K a = Some (K', e) -> krun_of (l ++ [a]) K' (ev ++ e).
Proof. intros R E. unfold krun_of in *. rewrite kruns_app, R. cbn [kruns]. rewrite E. now rewrite app_nil_r. Qed.
(** One connection moves. *)
Lemma conns_move (c : client) ev p K a K' ek : conns_ok c ev -> nth_error (u_conns c) p = Some K -> kexec K a = Some (K', ek) ->
  forall q K1, nth_error (list_set p K' (u_conns c)) q = Some K1 -> exists l, krun_of l K1 (conn_events q ev ++ if Nat.eqb q p then ek else []).
Proof.
  intros (L & _ & R) N E q K1 H. destruct (Nat.eq_dec q p) as [->|D].
  - rewrite list_set_nth_eq in H by (apply nth_error_Some; congruence). injection H as <-. rewrite Nat.eqb_refl. destruct (R _ _ N) as [l X]. exists (l ++ [a]). eapply krun_one; eassumption.
  - rewrite list_set_nth_neq in H by congruence. apply Nat.eqb_neq in D. rewrite D, app_nil_r. exact (R _ _ H).
Qed.
Lemma conns_step c ev a c' e : conns_ok c ev -> uexec c a = Some (c', e) -> conns_ok c' (ev ++ e).
Proof.
  intros I H. pose proof I as (L & F & R). apply uexec_ustep in H as [_ S]. unfold conns_ok, srv in *. destruct S as [a0 n en c' X B U1 U2 U3 U4|a0 n en p k ch K K' ek c' X B N E U1 U2 U3 U4|t th p a0 K K' ek c' T M CC N E U1 U2 U3 U4|p k ch th K K' ek c' N T0 In0 E U1 U2 U3 U4].
  - rewrite U1, U2. unfold new_conns. rewrite app_length, repeat_length. pose proof (npeers_grow _ _ _ _ X) as G. split; [lia|]. split; intros p; rewrite conn_events_app, conn_events_un, app_nil_r.
    + intros P. apply F. lia.
    + intros K H. destruct (Nat.lt_ge_cases p (List.length (u_conns c))) as [D|D].
      * rewrite nth_error_app1 in H by assumption. exact (R _ _ H).
      * rewrite nth_error_app2 in H by assumption. apply nth_repeat_k in H as ->. exists []. rewrite (F _ D). reflexivity.
  - assert (p < List.length (u_conns c))%nat as Lp by (apply nth_error_Some; congruence).
    rewrite U1, U2. unfold new_conns. cbn [u_conns set_uconns]. rewrite app_length, repeat_length, list_set_length. pose proof (npeers_grow _ _ _ _ X) as G. split; [lia|].
    split; intros q; rewrite !conn_events_app, conn_events_un, conn_events_uk; cbn [app].
    + intros P. rewrite (F q) by lia. cbn [app]. assert (q <> p) as D by lia. apply Nat.eqb_neq in D. now rewrite D.
    + intros K1 H. destruct (Nat.lt_ge_cases q (List.length (u_conns c))) as [D|D].
      * rewrite nth_error_app1 in H by (rewrite list_set_length; assumption). eapply conns_move; eassumption.
      * rewrite nth_error_app2 in H by (rewrite list_set_length; assumption). apply nth_repeat_k in H as ->. exists []. rewrite (F _ D). assert (q <> p) as Q by lia. apply Nat.eqb_neq in Q. rewrite Q. reflexivity.
  - assert (p < List.length (u_conns c))%nat as Lp by (apply nth_error_Some; congruence).
    rewrite U1, U2, list_set_length. split; [exact L|]. split; intros q; rewrite !conn_events_app, conn_events_uk.
    + intros P. rewrite (F q) by lia. cbn [app]. assert (q <> p) as D by lia. apply Nat.eqb_neq in D. now rewrite D.
    + intros K1 H. eapply conns_move; eassumption.
  - assert (p < List.length (u_conns c))%nat as Lp by (apply nth_error_Some; congruence).
    rewrite U1, U2, list_set_length. split; [exact L|]. split; intros q; rewrite !conn_events_app, conn_events_uk.
    + intros P. rewrite (F q) by lia. cbn [app]. assert (q <> p) as D by lia. apply Nat.eqb_neq in D. now rewrite D.
    + intros K1 H. eapply conns_move; eassumption.
Qed.
Lemma conns_run sto l c ev : uruns (ustart sto) l = Some (c, ev) -> conns_ok c ev.
Proof.
  apply (uruns_ind conns_ok); [|intros; eapply conns_step; eassumption]. split; [reflexivity|]. split; [reflexivity|]. intros [|p] K; discriminate.
Qed.
End Client.

(** The whole. *)
Theorem client_node sha1 cfg env hash id f l c ev : client_run sha1 cfg env hash id f l c ev -> exists l', node_run sha1 cfg env hash id f l' (u_node c) (node_events ev).
Proof.
  intros (U & tick & ls & w & es & blank & X & B & R). apply node_of in R as (l' & R). exists l'. split; [exact U|]. exists tick, ls, w, es, blank. auto.
Qed.
Theorem client_conns sha1 cfg env hash id f l c ev : client_run sha1 cfg env hash id f l c ev ->
  List.length (u_conns c) = List.length (P2PServer.s_peers (n_srv (u_node c))) /\
  forall p K, nth_error (u_conns c) p = Some K -> exists l', krun_of l' K (conn_events p ev).
Proof. intros (U & tick & ls & w & es & blank & X & B & R). apply conns_run in R as (L & _ & H). auto. Qed.
