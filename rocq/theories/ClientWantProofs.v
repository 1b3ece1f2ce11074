(** What is asked for on the connections. *)
From Verif Require Import GoBase GoBaseProofs Bitfield BitfieldSpec GoMap PeerWire Metainfo MetainfoSpec MetainfoProofs Fs Storage StorageSys StorageSpec StorageSysSpec StorageMoreProofs StorageClaimProofs Requests
  Node NodeSpec NodeProofs NodeThms P2PConn P2PConnSpec P2PConnProofs P2PAskProofs Client ClientSpec ClientProofs ClientPullProofs ClientServerProofs ClientAskProofs ClientThms.
From Verif Require P2PServer P2PServerSpec P2PServerProofs P2PServerThms NodeServerProofs P2PAnnounceProofs.
Import P2PServer.

(** A REQUEST is written by the goroutine of one block. *)
Lemma sent_request K a K' e m : kinds_ok K -> kexec K a = Some (K', e) -> In (KSent m) e -> m_type m = REQUEST ->
  exists t r f, a = KGo t KOk /\ nth_error (k_threads K) t = Some (TAsk r (QSend f SWrite)) /\ m = request_of r.
Proof.
  intros KD E I TY. assert (forall f, m <> flag_message f) as NF by (intros f ->; destruct f; discriminate).
  assert (forall i b d, m <> mk_piece i b d) as NP by (intros i b d ->; discriminate).
  assert (forall m0, existsb (Z.eqb (m_type m0)) [HAVE; BITFIELD; KEEPALIVE] = true -> m <> m0) as NK by (intros m0 Q ->; rewrite TY in Q; discriminate).
  kopen E; try (destruct I as [I|[]]; try discriminate I; try injection I as <-); try contradiction.
  all: try (exfalso; eapply NF; reflexivity).
  all: try (exfalso; eapply NP; reflexivity).
  all: try (exfalso; eapply NK; [|reflexivity]; first [eapply KD; eassumption|eapply bits_kind; eassumption]).
  all: try (do 3 eexists; split; [reflexivity|]; split; [eassumption|reflexivity]).
Qed.
(** What is handled has come. *)
Definition came_ok (K : kstate) (ev : list kevent) : Prop :=
  (forall t m, nth_error (k_threads K) t = Some (TServe (CHandle m)) -> In (KRecv m) ev) /\ forall m, In (KHandled m) ev -> In (KRecv m) ev.
Lemma came_run l K ev : krun_of l K ev -> came_ok K ev.
Proof.
  intros R. enough (kinds_ok K /\ came_ok K ev) as G by apply G. revert R. apply (krun_inv (fun K ev => kinds_ok K /\ came_ok K ev)).
  - split; [intros [|[|t]] m p H; discriminate|]. split; [|intros m []]. intros [|[|t]] m H; discriminate.
  - clear. intros K ev a K' e BO [KD [A B]] E. split; [eapply kinds_step; eassumption|]. pose proof (proj1 BO) as FO.
    assert (forall l t th u m, l = k_threads K -> nth_error (list_set t th l) u = Some (TServe (CHandle m)) -> th = TServe (CHandle m) \/ In (KRecv m) ev) as SET.
    { intros l t th u m -> H. apply threads_set in H as [(_ & H & _)|[_ H]]; [left; congruence|right; eapply A; exact H]. }
    assert (forall th u m, nth_error (k_threads K ++ [th]) u = Some (TServe (CHandle m)) -> th = TServe (CHandle m) \/ In (KRecv m) ev) as APP.
    { intros th u m H. apply threads_app in H as [[_ H]|H]; [left; congruence|right; eapply A; exact H]. }
    assert (forall x, In x ev -> In x (ev ++ e)) as MORE by (intros; apply in_or_app; now left).
    split.
    + intros u m H. unfold kexec in E. destruct (k_crashed K) eqn:KC; [discriminate|]. destruct a as [t c|l|f|m0].
      2-4: try (destruct (existsb _ _); [|discriminate E]); injection E as <- <-; apply APP in H as [H|H]; [discriminate H|auto].
      destruct (nth_error (k_threads K) t) as [[h|todo kids|r q|f p|m0 p|]|] eqn:T; try discriminate E.
      1:{ unfold step_serve, handle_message, take_lock, finish_write in E. P2PServerProofs.brk E; injection E as <- <-; cbn [kgoto k_threads set_kthreads set_krchoked set_kchoked set_kinterested set_kmu set_kcancelled set_kinflight set_kfuts] in H.
        all: try (apply MORE; eapply A; exact H).
        all: apply SET in H as [H|H]; [|auto|try reflexivity; first [apply (complete_threads _ _ _ FO)|apply (choke_all_threads _ FO)]]; try discriminate H; injection H as <-; apply in_or_app; right; now left. }
      all: assert (kexec K (KGo t c) = Some (K', e)) as E' by (unfold kexec; rewrite (proj1 (proj2 BO)), T; exact E); pose proof (base_step _ _ _ _ BO E') as (_ & _ & _ & _ & Z); pose proof (Z _ _ H) as ->;
        destruct (other_step _ _ _ _ _ _ BO KD T ltac:(discriminate) E') as [O _]; rewrite O in H; apply MORE; eapply A; exact H.
    + intros m I. apply in_app_or in I as [I|I]; [auto|]. apply MORE.
      kopen E; try (now destruct I); destruct I as [I|[]]; try discriminate I; injection I as <-; eapply A; eassumption.
Qed.
Section Want.
Variable sha1 : bytes -> bytes.
Variable cfg : config.
Variable env : nat -> Fs.choice.
Variable hash id blank : bytes.
Variable w0 : world.
Notation nexec := (nexec sha1 cfg env hash id blank).
Notation uexec := (uexec sha1 cfg env hash id blank).
Notation uruns := (uruns sha1 cfg env hash id blank).
Notation uinv := (uinv sha1 cfg env hash id blank w0).
Notation np := (num_pieces (c_info cfg)).
Notation threads n := (s_threads (n_srv n)).

(** The connection with which a step of the server is taken. *)
Lemma with_thread c a n e p k ch : beside_node c a n e = With p k ch -> k = O \/ exists K th, nth_error (u_conns c) p = Some K /\ nth_error (k_threads K) k = Some th /\ other th = true.
Proof.
  assert (forall t f, called c t f = With p k ch -> (forall th, f th <> None -> other th = true) -> exists K th, nth_error (u_conns c) p = Some K /\ nth_error (k_threads K) k = Some th /\ other th = true) as CA.
  { intros t f H F. unfold called in H. destruct (mget Nat.eqb t (u_calls c)) as [[p1 k1]|]; [|discriminate]. destruct (nth_error (u_conns c) p1) as [K|] eqn:N; [|discriminate]. destruct (nth_error (k_threads K) k1) as [th|] eqn:T; [|discriminate].
    destruct (f th) eqn:Q; [|discriminate]. injection H as <- <- <-. exists K, th. split; [exact N|]. split; [exact T|]. apply F. congruence. }
  unfold beside_node, beside_server. intros H.
  repeat match type of H with
         | called _ _ _ = _ => right; eapply CA; [exact H|]; intros [| | | | |] Q; try reflexivity; try (now destruct Q)
         | With _ _ _ = _ => injection H as <- <- <-; now left
         | Alone = _ => discriminate H
         | Never = _ => discriminate H
         | match ?x with _ => _ end = _ => destruct x
         end.
Qed.
Lemma asks_for c ev p K x r q : uinv c ev -> s_crashed (srv c) = false -> nth_error (u_conns c) p = Some K -> nth_error (k_threads K) x = Some (TAsk r q) -> q <> QDone ->
  exists t i f2 k bl, thread_of c t = Some (TPiece p i PRun) /\ asking p i ev f2 /\ In (UK p (KPulled k bl)) f2 /\ blocks cfg i bl /\ In r bl /\ 0 <= i < np.
Proof.
  intros U C N T Q. pose proof (ui_asking _ _ _ _ _ _ _ _ _ U C) as A. pose proof (ui_groups _ _ _ _ _ _ _ _ _ U _ _ N) as G.
  destruct (gr_parent _ _ _ _ G _ _ _ T Q) as (k & td & kd & TP & IK). destruct (a_own _ _ _ A _ _ _ _ _ N TP) as (t & i & TT & CC).
  destruct (a_run _ _ _ A _ _ _ TT) as (f2 & SI & SL & _ & CL & RG). destruct (CL _ _ CC) as (_ & JR & g1 & bl & g2 & -> & BL).
  exists t, i, (g1 ++ UK p (KPulled k bl) :: g2), k, bl. split; [exact TT|]. destruct SI as [h1 SI]. split; [exists h1; split; [exact SI|exact SL]|]. split; [apply in_or_app; right; now left|]. split; [exact BL|].
  assert (conn_events p ev = conn_events p (h1 ++ UN (NEv (EvRequest p i)) :: g1) ++ KPulled k bl :: conn_events p g2) as EQ.
  { rewrite SI, app_comm_cons, app_assoc, (conn_events_app p (_ ++ _)). f_equal. cbn. rewrite Nat.eqb_refl. reflexivity. }
  split; [|apply RG; now left]. destruct (gr_pulls _ _ _ _ G _ _ _ _ EQ) as (kids & rs & todo & -> & F & [P|[P _]]); [|congruence].
  rewrite TP in P. injection P as <- <-. destruct (forall2_in_l _ _ _ _ F IK) as (r' & I' & (_ & q' & T' & _)). rewrite T in T'. injection T' as <- _. apply in_or_app. now left.
Qed.
(** The prefix of a run at an event. *)
Lemma uruns_snoc l : forall c0 c ev a c' e, uruns c0 l = Some (c, ev) -> uexec c a = Some (c', e) -> uruns c0 (l ++ [a]) = Some (c', ev ++ e).
Proof.
  induction l as [|b l IH]; cbn [Client.uruns app]; intros c0 c ev a c' e R X.
  - injection R as -> <-. rewrite X. now rewrite app_nil_r.
  - destruct (uexec c0 b) as [[c1 e1]|]; [|discriminate]. destruct (uruns c1 l) as [[c2 e2]|] eqn:R2; [|discriminate]. injection R as -> <-. rewrite (IH _ _ _ _ _ _ R2 X). now rewrite app_assoc.
Qed.
Definition at_events (c0 : client) (ev : list uevent) : Prop := forall e1 x e2, ev = e1 ++ x :: e2 ->
  exists l1 c1 ev1 a c2 ea eb, uruns c0 l1 = Some (c1, ev1) /\ uexec c1 a = Some (c2, ea ++ x :: eb) /\ e1 = ev1 ++ ea.
Lemma uruns_event c0 l c ev : uruns c0 l = Some (c, ev) -> at_events c0 ev.
Proof.
  intros R. enough ((exists l, uruns c0 l = Some (c, ev)) /\ at_events c0 ev) as G by apply G.
  revert R. revert l c ev. apply (uruns_ind sha1 cfg env hash id blank (fun c ev => (exists l, uruns c0 l = Some (c, ev)) /\ at_events c0 ev) c0).
  - split; [now exists []|]. intros [|] x e2; discriminate.
  - intros c ev a c' e [[l R] IH] X. split; [exists (l ++ [a]); eapply uruns_snoc; eassumption|]. intros e1 x e2 Q.
    assert ((exists z, e1 = ev ++ z /\ e = z ++ x :: e2) \/ exists z, ev = e1 ++ x :: z) as [(z & -> & ->)|[z Z]].
    { clear - Q. revert e1 Q. induction ev as [|y ev IH]; intros e1 Q; [left; exists e1; auto|]. destruct e1 as [|y1 e1]; cbn in Q; injection Q as -> Q.
      - right. now exists ev.
      - destruct (IH _ Q) as [(z & -> & ->)|[z ->]]; [left; now exists z|right; now exists z]. }
    + exists l, c, ev, a, c', z, e2. auto.
    + eapply IH; eassumption.
Qed.
(** The look at what p has is the first thing in its step. *)
Lemma looked_server s a s' e p : P2PServer.exec hash id blank s a = Some (s', e) -> In (EvLooked p) e -> e = [EvLooked p] /\ exists t ch q, a = AGo t ch /\ nth_error (s_threads s) t = Some (TRequester p q).
Proof.
  intros E I. P2PServerProofs.open_exec E; cbn [In] in I; repeat match type of I with _ \/ _ => destruct I as [I|I] end; try contradiction; try discriminate I; injection I as <-; (split; [reflexivity|]); do 3 eexists; (split; [reflexivity|eassumption]).
Qed.
Lemma looked_first c ev c' ea p eb : NodeProofs.live (u_node c) ev -> ustep sha1 cfg env hash id blank c c' (ea ++ UN (NEv (EvLooked p)) :: eb) -> ea = [].
Proof.
  intros L S. destruct (l_run _ _ L) as (w & ts & ST & _).
  assert (forall a n en, nexec (u_node c) a = Some (n, en) -> In (NEv (EvLooked p)) en -> en = [NEv (EvLooked p)]) as G.
  { intros a n en N J. apply nexec_nstepa in N as [_ N].
    destruct N as [a1 s e0 F0 E0|t1 c0 w1 ts1 A0 S1|t1 j f1 k s e0 J0 X E0|t1 j w' ts' J0 X|t1 j w' ts' c0 r jb J0 X KP|t1 j w' ts' c0 r s e0 J0 X KP E0|t1 d0 p0 m0 s e0 J0 T0 M0 E0|t1 d0 p0 m0 s e0 J0 T0 M0 E0].
    all: try (now destruct J). all: try (destruct J as [J|J]; [discriminate J|]); try (now destruct J).
    all: apply in_map_iff in J as (y & [= ->] & J); destruct (looked_server _ _ _ _ _ E0 J) as (-> & u & ch & q & Q & T); try reflexivity.
    - injection Q as -> _. exfalso. destruct (jobs_call _ _ _ _ _ _ L J0 ST) as (th & st & TT & _ & _ & K). destruct (calls_inv _ _ _ K) as [(p' & x & Y & _)|[(p' & i' & x & Y & _)|(p' & i' & Y & _)]]; congruence.
    - injection Q as -> _. congruence. }
  assert (forall en rest, map UN en ++ rest = ea ++ UN (NEv (EvLooked p)) :: eb -> (forall x, In x rest -> x <> UN (NEv (EvLooked p))) -> (In (NEv (EvLooked p)) en -> en = [NEv (EvLooked p)]) -> ea = []) as F.
  { intros en rest Q NR H. assert (In (UN (NEv (EvLooked p))) (map UN en ++ rest)) as I by (rewrite Q; apply in_or_app; right; now left). apply in_app_or in I as [I|I]; [|now destruct (NR _ I)].
    apply in_map_iff in I as (y & [= ->] & I). rewrite (H I) in Q. cbn [map app] in Q. destruct ea as [|z ea]; [reflexivity|]. cbn in Q. injection Q as _ Q. exfalso. eapply NR; [|reflexivity]. rewrite Q. apply in_or_app. right. now left. }
  assert (forall q ek x, In x (map (UK q) ek) -> x <> UN (NEv (EvLooked p))) as NK by (intros q ek x I ->; apply in_map_iff in I as (y & [=] & _)).
  remember (ea ++ UN (NEv (EvLooked p)) :: eb) as ee eqn:EE. destruct S as [a0 n en c' X0 B0 U1 U2 U3 U4|a0 n en q y ch K K' ek c' X0 B0 N E0 U1 U2 U3 U4|t th q a0 K K' ek c' T M CC N E0 U1 U2 U3 U4|q y ch th K K' ek c' N T0 In0 E0 U1 U2 U3 U4].
  - apply (F en []); [now rewrite app_nil_r|intros x []|]. intros. eapply G; eassumption.
  - apply (F en (map (UK q) ek)); [reflexivity|apply NK|]. intros. eapply G; eassumption.
  - exfalso. eapply NK; [|reflexivity]. rewrite EE. apply in_or_app. right. now left.
  - exfalso. eapply NK; [|reflexivity]. rewrite EE. apply in_or_app. right. now left.
Qed.
(** Calls of requestPiece on a connection. *)
Lemma pulled_event c a c' e p k bl : uexec c a = Some (c', e) -> In (UK p (KPulled k bl)) e ->
  e = [UK p (KPulled k bl)] /\ exists t i K, thread_of c t = Some (TPiece p i PRun) /\ job_of c t = Some JReset /\ mget Nat.eqb t (u_calls c) = None /\ blocks cfg i bl /\ nth_error (u_conns c) p = Some K.
Proof.
  intros H I. apply uexec_ustep in H as [_ S].
  assert (forall ek q K x ch K', kexec K (KGo x ch) = Some (K', ek) -> ~ In (UK p (KPulled k bl)) (map (UK q) ek)) as NG.
  { intros ek q K x ch K' E J. apply in_map_iff in J as (y & [= -> ->] & J). eapply go_no_pull; eassumption. }
  destruct S as [a0 n en c' X B U1 U2 U3 U4|a0 n en q x ch K K' ek c' X B N E U1 U2 U3 U4|t th q a0 K K' ek c' T M CC N E U1 U2 U3 U4|q x ch th K K' ek c' N T0 In0 E U1 U2 U3 U4].
  - apply in_map_iff in I as (y & [=] & _).
  - apply in_app_or in I as [I|I]; [apply in_map_iff in I as (y & [=] & _)|]. exfalso. eapply NG; eassumption.
  - destruct (call_threads _ _ _ _ _ _ _ _ _ CC E) as (y & KT & [(i & l & -> & J & PR & -> & ->)|(_ & _ & ->)]); [|destruct I]. destruct I as [I|[]]. injection I as -> <- <-. split; [reflexivity|].
    exists t, i, K. split; [exact T|]. split; [exact J|]. split; [exact M|]. split; [|exact N]. exists l. auto.
  - exfalso. eapply NG; eassumption.
Qed.
Lemma one_more ev e : one_at_a_time ev -> (e = [] \/ exists x, e = [x]) ->
  (forall t bl, e = [KPulled t bl] -> NoDup bl /\ forall e1 k l e2, ev = e1 ++ KPulled k l :: e2 -> In (KPullEnd k) e2) -> one_at_a_time (ev ++ e).
Proof.
  intros [A B] E N. split.
  - intros e1 t l e2 Q. destruct (more_split _ _ _ _ _ E Q) as [(-> & -> & ->)|(e2' & -> & ->)]; [exact (proj1 (N _ _ eq_refl))|]. eapply A. reflexivity.
  - intros e1 t l e2 t' l' e3 Q. rewrite app_comm_cons, app_assoc in Q. destruct (more_split _ _ _ _ _ E Q) as [(-> & -> & Z)|(e3' & -> & Z)].
    + destruct (N _ _ eq_refl) as [_ N']. eapply N'. exact Z.
    + eapply B. rewrite <- app_assoc in Z. exact Z.
Qed.
Lemma conn_events_nil p e : (forall x, ~ In (UK p x) e) -> conn_events p e = [].
Proof. intros H. destruct (conn_events p e) as [|x l] eqn:Q; [reflexivity|]. exfalso. apply (H x). apply in_conn. rewrite Q. now left. Qed.
Lemma conn_events_short c a c' e p : uexec c a = Some (c', e) -> conn_events p e = [] \/ exists x, conn_events p e = [x].
Proof.
  intros H. apply uexec_ustep in H as [_ S]. assert (forall K b K' ek q, kexec K b = Some (K', ek) -> conn_events p (map (UK q) ek) = [] \/ exists x, conn_events p (map (UK q) ek) = [x]) as G.
  { intros K b K' ek q E. rewrite conn_events_uk. destruct (Nat.eqb p q); [|now left]. eapply step_events; eassumption. }
  destruct S; rewrite ?conn_events_app, ?conn_events_un; cbn [app]; eauto.
Qed.
End Want.
Section Runs.
Variable sha1 : bytes -> bytes.
Variable cfg : config.
Variable env : nat -> Fs.choice.
Variable hash id : bytes.
Notation np := (num_pieces (c_info cfg)).
Notation client_run := (client_run sha1 cfg env hash id).
Hypothesis ok : config_ok cfg.
Hypothesis fits : i_piece_length (c_info cfg) <= 2 ^ 63 - 16384.

Lemma open_client f l c ev : client_run f l c ev -> untouched cfg f /\ exists tick ls w es blank,
  execs sha1 cfg env (Dead f tick) ls = Some (Running w [], es) /\ bf_new np = Some blank /\ uruns sha1 cfg env hash id blank (ustart (Running w [])) l = Some (c, ev) /\
  forall l c ev, uruns sha1 cfg env hash id blank (ustart (Running w [])) l = Some (c, ev) -> uinv sha1 cfg env hash id blank w c ev.
Proof using ok fits.
  intros (U & tick & ls & w & es & blank & E & B & R). split; [exact U|]. exists tick, ls, w, es, blank. split; [exact E|]. split; [exact B|]. split; [exact R|].
  intros l0 c0 ev0 R0. exact (uruns_inv sha1 cfg env hash id blank ok fits f tick ls w es U E B l0 c0 ev0 R0).
Qed.
(** Before an event. *)
Lemma client_event f l c e1 x e2 : client_run f l c (e1 ++ x :: e2) -> exists l1 c1 ev1 w blank a c2 ea eb,
  client_run f l1 c1 ev1 /\ uinv sha1 cfg env hash id blank w c1 ev1 /\ uexec sha1 cfg env hash id blank c1 a = Some (c2, ea ++ x :: eb) /\ e1 = ev1 ++ ea.
Proof using ok fits.
  intros R. apply open_client in R as (U & tick & ls & w & es & blank & E & B & R & INV). destruct (uruns_event _ _ _ _ _ _ _ _ _ _ R _ _ _ eq_refl) as (l1 & c1 & ev1 & a & c2 & ea & eb & R1 & X & ->).
  exists l1, c1, ev1, w, blank, a, c2, ea, eb. split; [|split; [eapply INV; exact R1|split; [exact X|reflexivity]]]. split; [exact U|]. exists tick, ls, w, es, blank. auto.
Qed.
Lemma pulls_one f l c ev : client_run f l c ev -> forall p, one_at_a_time (conn_events p ev).
Proof using ok fits.
  intros R p. apply open_client in R as (U & tick & ls & w & es & blank & E & B & R & INV).
  enough (uinv sha1 cfg env hash id blank w c ev /\ one_at_a_time (conn_events p ev)) as G by apply G. revert R.
  apply (uruns_ind sha1 cfg env hash id blank (fun c ev => uinv sha1 cfg env hash id blank w c ev /\ one_at_a_time (conn_events p ev)) (ustart (Running w []))).
  - split; [apply uinv_start|]. split; [intros [|]; discriminate|intros [|]; discriminate].
  - clear c ev. intros c ev a c' e [IU IO] X. split; [exact (uinv_step sha1 cfg env hash id blank ok fits f tick ls w es U E B _ _ _ _ _ IU X)|]. rewrite conn_events_app. apply one_more; [exact IO|eapply conn_events_short; exact X|].
    intros k bl Q. assert (In (UK p (KPulled k bl)) e) as I by (apply in_conn; rewrite Q; now left). destruct (pulled_event _ _ _ _ _ _ _ _ _ _ _ _ _ X I) as (-> & t & i & K & T & J & M & BL & N).
    pose proof (uexec_ustep _ _ _ _ _ _ _ _ _ _ X) as [C _]. pose proof (ui_asking _ _ _ _ _ _ _ _ _ IU C) as A. destruct (a_run _ _ _ A _ _ _ T) as (f2 & _ & _ & _ & _ & RG). pose proof (RG (or_introl J)) as RI.
    split; [now apply (blocks_tile cfg ok fits i bl RI BL)|]. intros e1 k0 l0 e2 Z. pose proof (ui_groups _ _ _ _ _ _ _ _ _ IU _ _ N) as G. destruct (gr_pulls _ _ _ _ G _ _ _ _ Z) as (kids & rs & todo & _ & _ & [P|(_ & _ & P & _)]); [|exact P].
    exfalso. destruct (a_own _ _ _ A _ _ _ _ _ N P) as (t' & i' & T' & M'). destruct (server_run sha1 cfg env hash id blank ok f tick ls w es U E B _ _ (ui_node _ _ _ _ _ _ _ _ _ IU)) as [sl SR].
    pose proof (P2PServerThms.v_tokens _ _ _ (P2PServerThms.run_inv _ _ _ _ _ _ _ SR)) as TK. pose proof (one_token _ _ _ _ _ _ TK T T' (run_token _ _) (run_token _ _)) as <-. congruence.
Qed.
(** What the server hears of p has come on the connection of p. *)
Lemma received_server blankf s a s' e p m : P2PServer.exec hash id blankf s a = Some (s', e) -> In (EvReceived p m) e -> exists t, a = AGo t (CMsg m) /\ nth_error (s_threads s) t = Some (THandler p HReceive).
Proof.
  intros E I. P2PServerProofs.open_exec E; cbn [In] in I; repeat match type of I with _ \/ _ => destruct I as [I|I] end; try contradiction; try discriminate I; injection I as <- <-; eexists; (split; [reflexivity|eassumption]).
Qed.
Lemma received_came f l c ev p m : client_run f l c ev -> In (UN (NEv (EvReceived p m))) ev -> In (UK p (KRecv m)) ev.
Proof using ok fits.
  intros R. apply open_client in R as (U & tick & ls & w & es & blank & E & B & R & INV).
  enough (uinv sha1 cfg env hash id blank w c ev /\ (In (UN (NEv (EvReceived p m))) ev -> In (UK p (KRecv m)) ev)) as G by apply G. revert R.
  apply (uruns_ind sha1 cfg env hash id blank (fun c ev => uinv sha1 cfg env hash id blank w c ev /\ (In (UN (NEv (EvReceived p m))) ev -> In (UK p (KRecv m)) ev)) (ustart (Running w []))).
  - split; [apply uinv_start|]. intros [].
  - clear c ev. intros c ev a c' e [IU IO] X. split; [exact (uinv_step sha1 cfg env hash id blank ok fits f tick ls w es U E B _ _ _ _ _ IU X)|]. intros I. apply in_or_app. apply in_app_or in I as [I|I]; [left; auto|]. left.
    apply uexec_ustep in X as [C S].
    assert (forall a0 n en, nexec sha1 cfg env hash id blank (u_node c) a0 = Some (n, en) -> In (NEv (EvReceived p m)) en -> beside_node c a0 n en <> Never -> serve_at c p = Some (CHandle m)) as G.
    { intros a0 n en N J BN. assert (exists t, a0 = NServer (AGo t (CMsg m)) /\ thread_of c t = Some (THandler p HReceive)) as (t & -> & T).
      { apply nexec_nstepa in N as [_ N]. unfold thread_of, srv.
        destruct N as [a1 s e0 F0 E0|t1 c0 w1 ts1 A0 S1|t1 j f1 k s e0 J0 X E0|t1 j w' ts' J0 X|t1 j w' ts' c0 r jb J0 X KP|t1 j w' ts' c0 r s e0 J0 X KP E0|t1 d0 p0 m0 s e0 J0 T0 M0 E0|t1 d0 p0 m0 s e0 J0 T0 M0 E0].
        all: try (now destruct J). all: try (destruct J as [J|J]; [discriminate J|]); try (now destruct J).
        all: apply in_map_iff in J as (y & [= ->] & J); destruct (received_server _ _ _ _ _ _ _ E0 J) as (t & Q & T); try discriminate Q.
        - subst a1. eauto.
        - injection Q as -> Q. exfalso. unfold answer in Q. destruct c0, r; try discriminate Q; P2PServerProofs.brk Q. }
      cbn [beside_node] in BN. rewrite T in BN. cbn [beside_server] in BN. destruct (serve_at c p) as [h|] eqn:SA; [|now destruct BN]. destruct h; try (now destruct BN). destruct (msg_eqb m0 m) eqn:Q; [|now destruct BN]. apply msg_iff in Q as ->. reflexivity. }
    assert (serve_at c p = Some (CHandle m)) as SA.
    { destruct S as [a0 n en c' X0 B0 U1 U2 U3 U4|a0 n en q x ch K K' ek c' X0 B0 N E0 U1 U2 U3 U4|t th q a0 K K' ek c' T M CC N E0 U1 U2 U3 U4|q x ch th K K' ek c' N T0 In0 E0 U1 U2 U3 U4].
      - apply in_map_iff in I as (y & [= ->] & I). eapply G; [exact X0|exact I|rewrite B0; discriminate].
      - apply in_app_or in I as [I|I]; [|apply in_map_iff in I as (y & [=] & _)]. apply in_map_iff in I as (y & [= ->] & I). eapply G; [exact X0|exact I|rewrite B0; discriminate].
      - apply in_map_iff in I as (y & [=] & _).
      - apply in_map_iff in I as (y & [=] & _). }
    unfold serve_at in SA. destruct (nth_error (u_conns c) p) as [K|] eqn:N; [|discriminate]. destruct (nth_error (k_threads K) 0) as [[h| | | | |]|] eqn:T; try discriminate. injection SA as ->.
    destruct (ui_conns _ _ _ _ _ _ _ _ _ IU) as (_ & _ & CR). destruct (CR _ _ N) as [lk KR]. apply in_conn. exact (proj1 (came_run _ _ _ KR) _ _ T).
Qed.
(** ** The theorems *)
Theorem requests_wanted f l c e1 p m e2 : client_run f l c (e1 ++ UK p (KSent m) :: e2) -> m_type m = REQUEST ->
  exists since, asking p (m_index m) e1 since /\ block_of cfg (m_index m) (m_begin m) (m_length m).
Proof using ok fits.
  intros R TY. apply client_event in R as (l1 & c1 & ev1 & w & blank & a & c2 & ea & eb & R & U & X & ->). pose proof (ui_conns _ _ _ _ _ _ _ _ _ U) as (_ & _ & CR). apply uexec_ustep in X as [C S].
  assert (In (UK p (KSent m)) (ea ++ UK p (KSent m) :: eb)) as I by (apply in_or_app; right; now left).
  assert (forall K a K' ek, nth_error (u_conns c1) p = Some K -> kexec K a = Some (K', ek) -> In (KSent m) ek -> exists t r f, a = KGo t KOk /\ nth_error (k_threads K) t = Some (TAsk r (QSend f SWrite)) /\ m = request_of r) as SQ.
  { intros K b K' ek N E Q. destruct (CR _ _ N) as [lk KR]. eapply sent_request; [eapply kinds_run; exact KR|exact E|exact Q|exact TY]. }
  remember (ea ++ UK p (KSent m) :: eb) as e eqn:EQ. destruct S as [a0 n en c' X B U1 U2 U3 U4|a0 n en q x ch K K' ek c' X B N E U1 U2 U3 U4|t th q a0 K K' ek c' T M CC N E U1 U2 U3 U4|q x ch th K K' ek c' N T0 In0 E U1 U2 U3 U4].
  - apply in_map_iff in I as (y & [=] & _).
  - exfalso. apply in_app_or in I as [I|I]; [apply in_map_iff in I as (y & [=] & _)|]. apply in_map_iff in I as (y & [= -> ->] & I). destruct (SQ _ _ _ _ N E I) as (t & r & f1 & [= -> ->] & T & _).
    destruct (with_thread _ _ _ _ _ _ _ B) as [->|(K1 & th & N1 & T1 & O)].
    + destruct (CR _ _ N) as [lk KR]. destruct (base_run _ _ _ KR) as (_ & _ & _ & (h & T1) & _). congruence.
    + rewrite N in N1. injection N1 as <-. rewrite T in T1. injection T1 as <-. discriminate O.
  - exfalso. apply in_map_iff in I as (y & [= -> ->] & I). destruct (SQ _ _ _ _ N E I) as (t1 & r & f1 & -> & _). destruct (call_threads _ _ _ _ _ _ _ _ _ CC E) as (y & KT & [(i & l0 & -> & J & PR & -> & ->)|(_ & _ & ->)]); [|destruct I]. destruct I as [I|[]]. discriminate.
  - apply in_map_iff in I as (y & [= -> ->] & I). destruct (SQ _ _ _ _ N E I) as (t1 & r & f1 & [= -> ->] & T & ->).
    assert (ek = [KSent (request_of r)]) as -> by (destruct (step_events _ _ _ _ E) as [->|[z ->]]; [destruct I|destruct I as [->|[]]; reflexivity]).
    assert (ea = []) as -> by (destruct ea as [|z ea]; [reflexivity|]; cbn in EQ; injection EQ as _ Q; destruct ea; discriminate). rewrite app_nil_r.
    destruct (asks_for _ _ _ _ _ _ _ _ _ _ _ _ _ _ U C N T ltac:(discriminate)) as (t & i & f2 & k & bl & _ & A & _ & BL & IR & RG). destruct r as [[ri rb] rx].
    destruct (blocks_tile cfg ok fits i bl RG BL) as [_ TL]. apply TL in IR as [-> BO]. exists f2. split; [exact A|exact BO].
Qed.
Theorem sixteen f l c ev p : client_run f l c ev -> outstanding (conn_events p ev) <= 16.
Proof using ok fits.
  intros R. pose proof (pulls_one _ _ _ _ R p) as O. apply open_client in R as (_ & tick & ls & w & es & blank & _ & _ & R & _). apply conns_run in R as (L & F & H). destruct (nth_error (u_conns c) p) as [K|] eqn:N.
  - destruct (H _ _ N) as [lk KR]. eapply outstanding_16; eassumption.
  - apply nth_error_None in N. rewrite (F _ N). cbn. lia.
Qed.
(** What is asked for was announced and missing. *)
Theorem asked_chosen f l c e1 p i e2 : client_run f l c (e1 ++ UN (NEv (EvRequest p i)) :: e2) ->
  exists g1 g2 l1 c1 m, e1 = g1 ++ UN (NEv (EvLooked p)) :: g2 /\ client_run f l1 c1 g1 /\ In (UK p (KRecv m)) g1 /\ P2PServerSpec.announces_piece m i /\ ~ member (s_have (n_srv (u_node c1))) i.
Proof using ok fits.
  intros R. pose proof R as R0. apply open_client in R as (U & tick & ls & w & es & blank & E & B & R & INV). pose proof (ui_node _ _ _ _ _ _ _ _ _ (INV _ _ _ R)) as N.
  destruct (server_run sha1 cfg env hash id blank ok f tick ls w es U E B _ _ N) as [sl SR].
  assert (srv_events (node_events (e1 ++ UN (NEv (EvRequest p i)) :: e2)) = srv_events (node_events e1) ++ EvRequest p i :: srv_events (node_events e2)) as EQ.
  { rewrite node_events_app. unfold srv_events. rewrite flat_map_app. reflexivity. }
  destruct (P2PServerThms.requests_chosen _ _ _ _ _ _ _ _ _ _ _ SR EQ) as (h1 & h2 & Q & _ & AN & NS).
  assert (exists g1 g2, e1 = g1 ++ UN (NEv (EvLooked p)) :: g2 /\ srv_events (node_events g1) = h1) as (g1 & g2 & -> & <-).
  { clear - Q. revert h1 Q. induction e1 as [|x e1 IH]; intros h1 Q; [destruct h1; discriminate|]. assert (srv_events (node_events (x :: e1)) = srv_events (node_events [x]) ++ srv_events (node_events e1)) as Z.
    { change (x :: e1) with ([x] ++ e1). rewrite node_events_app. unfold srv_events. apply flat_map_app. }
    rewrite Z in Q. clear Z. destruct x as [[y|? ? ?|? ?]|? ?]; cbn [node_events flat_map app srv_events] in Q.
    1: destruct h1 as [|z h1]; cbn [app] in Q; injection Q as -> Q; [exists [], e1; auto|]; fold (srv_events (node_events e1)) in Q; destruct (IH _ Q) as (g1 & g2 & -> & <-); eexists (_ :: g1), g2; split; reflexivity.
    all: destruct (IH _ Q) as (g1 & g2 & -> & <-); eexists (_ :: g1), g2; split; reflexivity. }
  clear R0. rewrite <- app_assoc in R. cbn [app] in R. destruct (uruns_event _ _ _ _ _ _ _ _ _ _ R _ _ _ eq_refl) as (l1 & c1 & ev1 & a & c2 & ea & eb & R1 & X & Q1). pose proof (INV _ _ _ R1) as U1.
  assert (ea = []) as ->.
  { apply uexec_ustep in X as [C S]. eapply looked_first; [exact (i_live _ _ _ _ _ _ _ _ _ (ui_node _ _ _ _ _ _ _ _ _ U1) C)|exact S]. }
  rewrite app_nil_r in Q1. subst ev1. exists g1, g2, l1, c1. destruct AN as (m & I & AP). exists m. split; [reflexivity|].
  assert (client_run f l1 c1 g1) as R1' by (split; [exact U|]; exists tick, ls, w, es, blank; auto). split; [exact R1'|]. split.
  { eapply received_came; [exact R1'|]. apply in_node. apply in_srv. exact I. }
  split; [exact AP|]. intros MB. apply NS. destruct (asked_range sha1 cfg env hash id blank ok f tick ls w es U E B _ _ p i N) as [GE _].
  { apply in_node. apply in_or_app. right. now left. }
  destruct (server_run sha1 cfg env hash id blank ok f tick ls w es U E B _ _ (ui_node _ _ _ _ _ _ _ _ _ U1)) as [sl1 SR1]. destruct SR1 as (bl & Bl & _ & SR1).
  destruct (P2PAnnounceProofs.run_events _ _ _ _ (P2PServerThms.blank_empty np _ Bl) _ _ _ SR1) as (_ & HO & _). apply (HO i GE). exact MB.
Qed.
(** What is announced, waited for or held against a peer has all come from it. *)
Theorem told_came f l c e1 x m e2 : client_run f l c (e1 ++ UN (NEv (EvSent x m)) :: e2) -> m_type m = HAVE ->
  exists p before since, e1 = before ++ UN (NEv (EvRequest p (m_index m))) :: since /\ all_came cfg p (m_index m) since.
Proof using ok fits.
  intros R TY. apply client_event in R as (l1 & c1 & ev1 & w & blank & a & c2 & ea & eb & R & U & X & ->). apply uexec_ustep in X as [C S]. pose proof (ui_asking _ _ _ _ _ _ _ _ _ U C) as A.
  assert (In (UN (NEv (EvSent x m))) (ea ++ UN (NEv (EvSent x m)) :: eb)) as I by (apply in_or_app; right; now left).
  assert (forall a0 n en, nexec sha1 cfg env hash id blank (u_node c1) a0 = Some (n, en) -> In (NEv (EvSent x m)) en -> exists t p i l, thread_of c1 t = Some (TPiece p i (PSend x l)) /\ m = mk_have i) as G.
  { intros a0 n en N J. destruct (srv_event _ _ _ _ _ _ _ _ _ _ _ N J) as (b & s & e0 & E0 & I0 & _). destruct (have_event _ _ _ _ _ _ _ _ _ E0 I0 TY) as (t & p & i & l0 & _ & T & ->). exists t, p, i, l0. auto. }
  assert (exists t p i l, thread_of c1 t = Some (TPiece p i (PSend x l)) /\ m = mk_have i) as (t & p & i & l0 & T & ->).
  { remember (ea ++ UN (NEv (EvSent x m)) :: eb) as ee eqn:EE. clear EE. destruct S as [a0 n en c' X0 B0 U1 U2 U3 U4|a0 n en q y ch K K' ek c' X0 B0 N E0 U1 U2 U3 U4|t th q a0 K K' ek c' T M CC N E0 U1 U2 U3 U4|q y ch th K K' ek c' N T0 In0 E0 U1 U2 U3 U4].
    - apply in_map_iff in I as (y & [= ->] & I). eauto.
    - apply in_app_or in I as [I|I]; [|apply in_map_iff in I as (z & [=] & _)]. apply in_map_iff in I as (z & [= ->] & I). eauto.
    - apply in_map_iff in I as (y & [=] & _).
    - apply in_map_iff in I as (z & [=] & _). }
  destruct (a_after _ _ _ A t p i _ T eq_refl) as (f2 & [f1 ->] & AC). exists p, f1, (f2 ++ ea). split; [cbn; now rewrite <- app_assoc|now apply came_more].
Qed.
Theorem blocked_came f l c e1 p e2 : client_run f l c (e1 ++ UN (NEv (EvBlocked p)) :: e2) ->
  exists i before since, e1 = before ++ UN (NEv (EvRequest p i)) :: since /\ all_came cfg p i since /\ blamed (node_events e1) p i.
Proof using ok fits.
  intros R. apply client_event in R as (l1 & c1 & ev1 & w & blank & a & c2 & ea & eb & R & U & X & ->). apply uexec_ustep in X as [C S]. pose proof (ui_asking _ _ _ _ _ _ _ _ _ U C) as A.
  assert (In (UN (NEv (EvBlocked p))) (ea ++ UN (NEv (EvBlocked p)) :: eb)) as I by (apply in_or_app; right; now left).
  assert (forall a0 n en, nexec sha1 cfg env hash id blank (u_node c1) a0 = Some (n, en) -> In (NEv (EvBlocked p)) en -> exists t i, thread_of c1 t = Some (TPiece p i PBlock)) as G.
  { intros a0 n en N J. destruct (srv_event _ _ _ _ _ _ _ _ _ _ _ N J) as (b & s & e0 & E0 & I0 & _). destruct (blocked_event _ _ _ _ _ _ _ _ E0 I0) as (t & i & _ & T). eauto. }
  assert (exists t i, thread_of c1 t = Some (TPiece p i PBlock)) as (t & i & T).
  { remember (ea ++ UN (NEv (EvBlocked p)) :: eb) as ee eqn:EE. clear EE. destruct S as [a0 n en c' X0 B0 U1 U2 U3 U4|a0 n en q y ch K K' ek c' X0 B0 N E0 U1 U2 U3 U4|t th q a0 K K' ek c' T M CC N E0 U1 U2 U3 U4|q y ch th K K' ek c' N T0 In0 E0 U1 U2 U3 U4].
    - apply in_map_iff in I as (y & [= ->] & I). eauto.
    - apply in_app_or in I as [I|I]; [|apply in_map_iff in I as (z & [=] & _)]. apply in_map_iff in I as (z & [= ->] & I). eauto.
    - apply in_map_iff in I as (y & [=] & _).
    - apply in_map_iff in I as (z & [=] & _). }
  destruct (a_after _ _ _ A t p i _ T eq_refl) as (f2 & [f1 ->] & AC). exists i, f1, (f2 ++ ea). split; [cbn; now rewrite <- app_assoc|]. split; [now apply came_more|].
  destruct (client_node _ _ _ _ _ _ _ _ _ R) as [l' R']. destruct (NodeThms.open_run _ _ _ _ _ ok _ _ _ _ R') as (_ & tick & ls & w' & es & blank' & _ & _ & _ & M).
  rewrite node_events_app. apply NodeThms.blamed_more. exact (NodeThms.m_block _ _ _ _ M _ _ _ T).
Qed.
Theorem waited_came f l c e1 t i r e2 : client_run f l c (e1 ++ UN (NRet t (CWait i) r) :: e2) ->
  exists p before since, e1 = before ++ UN (NEv (EvRequest p i)) :: since /\ all_came cfg p i since.
Proof using ok fits.
  intros R. apply client_event in R as (l1 & c1 & ev1 & w & blank & a & c2 & ea & eb & R & U & X & ->). apply uexec_ustep in X as [C S]. pose proof (ui_asking _ _ _ _ _ _ _ _ _ U C) as A. pose proof (i_live _ _ _ _ _ _ _ _ _ (ui_node _ _ _ _ _ _ _ _ _ U) C) as L.
  assert (In (UN (NRet t (CWait i) r)) (ea ++ UN (NRet t (CWait i) r) :: eb)) as I by (apply in_or_app; right; now left).
  assert (exists p, thread_of c1 t = Some (TPiece p i PRun) /\ in_wait (u_node c1) t i) as (p & T & W).
  { remember (ea ++ UN (NRet t (CWait i) r) :: eb) as ee eqn:EE. clear EE. destruct S as [a0 n en c' X0 B0 U1 U2 U3 U4|a0 n en q y ch K K' ek c' X0 B0 N E0 U1 U2 U3 U4|t1 th q a0 K K' ek c' T M CC N E0 U1 U2 U3 U4|q y ch th K K' ek c' N T0 In0 E0 U1 U2 U3 U4].
    - apply in_map_iff in I as (y & [= ->] & I). eapply wait_return; eassumption.
    - apply in_app_or in I as [I|I]; [|apply in_map_iff in I as (z & [=] & _)]. apply in_map_iff in I as (z & [= ->] & I). eapply wait_return; eassumption.
    - apply in_map_iff in I as (y & [=] & _).
    - apply in_map_iff in I as (z & [=] & _). }
  destruct (a_run _ _ _ A t p i T) as (f2 & [f1 ->] & _ & WT & _). exists p, f1, (f2 ++ ea). split; [cbn; now rewrite <- app_assoc|apply came_more; auto].
Qed.
End Runs.
