(** What follows when a request for a piece returns (for PropShare.v). *)
From Verif Require Import GoBase GoBaseProofs Bitfield BitfieldSpec BitfieldProofs GoMap PeerWire Metainfo MetainfoSpec
  Fs Storage StorageSys StorageSpec StorageSysSpec Node NodeSpec NodeProofs NodeThms NodeErrorProofs.
From Verif Require StorageProofs StorageSysProofs StorageMoreProofs P2PServer P2PServerSpec P2PHaveSpec P2PServerProofs P2PRegistryProofs P2PServerThms NodeServerProofs P2PEndProofs.

Section Waits.
Variable sha1 : bytes -> bytes.
Variable cfg : config.
Variable env : nat -> Fs.choice.
Variable hash id blank : bytes.
Notation nexec := (nexec sha1 cfg env hash id blank).
Notation nruns := (nruns sha1 cfg env hash id blank).
Notation sexec := (P2PServer.exec hash id blank).
Notation exec := (StorageSys.exec sha1 cfg env).
Notation execs := (StorageSys.execs sha1 cfg env).
Notation np := (num_pieces (c_info cfg)).
Hypothesis ok : config_ok cfg.
Variable f0 : fs.
Variable tick0 : nat.
Variable ls0 : list label.
Variable w0 : world.
Variable es0 : list event.
Hypothesis unt : untouched cfg f0.
Hypothesis loaded : execs (Dead f0 tick0) ls0 = Some (Running w0 [], es0).
Hypothesis isblank : bf_new np = Some blank.
Notation ninv := (ninv sha1 cfg env hash id blank w0).
Notation threads n := (P2PServer.s_threads (n_srv n)).

Definition blocks (n : node) (ev : list nevent) (t p : nat) (i : Z) : Prop :=
  In (NEv (P2PServer.EvBlocked p)) ev \/ nth_error (threads n) t = Some (P2PServer.TPiece p i P2PServer.PBlock).
Lemma blocks_srv n ev t p i a s e n' ev' : blocks n ev t p i -> sexec (n_srv n) a = Some (s, e) -> n_srv n' = s -> (forall x, In x e -> In (NEv x) ev') -> blocks n' (ev ++ ev') t p i.
Proof.
  intros B H E V. unfold blocks. rewrite E. destruct B as [B|T]; [left; apply in_or_app; auto|].
  assert (X : P2PServerSpec.turn_of t a \/ ~ P2PServerSpec.turn_of t a).
  { destruct a; try (right; intros [c X]; discriminate). destruct (Nat.eq_dec t t0) as [->|N]; [left; eexists; reflexivity|right; intros [d X]; congruence]. }
  destruct X as [[c ->]|X]; [|right; eapply NodeServerProofs.others_stay; eassumption]. left. apply in_or_app. right. apply V.
  unfold P2PServer.exec in H. destruct (P2PServer.s_crashed _); [discriminate|]. unfold P2PServer.step_thread in H. rewrite T in H. unfold P2PServer.step_piece in H.
  destruct (nth_error _ p); [|discriminate]. destruct c; try discriminate H. destruct (P2PServer.s_mu _); [discriminate|]. injection H as <- <-. now left.
Qed.
Lemma blocks_same n ev t p i n' ev' : blocks n ev t p i -> n_srv n' = n_srv n -> blocks n' (ev ++ ev') t p i.
Proof. intros B E. unfold blocks. rewrite E. destruct B; [left; apply in_or_app; auto|auto]. Qed.
Definition bads (n : node) (ev : list nevent) : Prop := forall ev1 t i x g h ev2, ev = ev1 ++ NRet t (CWait i) (RErr (EChecksum x g h)) :: ev2 ->
  exists p, In (NEv (P2PServer.EvRequest p i)) ev1 /\ blocks n ev2 t p i.
(** A call of Wait that returns: the goroutine goes on accordingly. *)
Lemma wait_goes n ev t j w' ts' i r s e : ninv n ev -> P2PServer.s_crashed (n_srv n) = false -> mget Nat.eqb t (n_jobs n) = Some (JCall j) -> exec (n_sto n) (LStep j) = Some (Running w' ts', [Ret (CWait i) r]) ->
  sexec (n_srv n) (P2PServer.AGo t (answer (CWait i) r (bits (n_sto n)) (bits (Running w' ts')))) = Some (s, e) ->
  exists p, In (NEv (P2PServer.EvRequest p i)) ev /\ nth_error (P2PServer.s_threads s) t =
    Some (P2PServer.TPiece p i match r with RNil => P2PServer.PShare | RErr (EChecksum _ _ _) => P2PServer.PBlock | _ => P2PServer.PToken end).
Proof using ok unt loaded isblank.
  intros N C J X E. pose proof (i_live _ _ _ _ _ _ _ _ _ N C) as LV. destruct (l_run _ _ LV) as (w & ts & ST & HB). destruct (jobs_call _ _ _ _ _ _ LV J ST) as (th & st & T & Q & D & K).
  assert (th_call st = CWait i) as CE.
  { rewrite ST in X. apply StorageMoreProofs.step_shape in X as (st' & o & Q' & _ & X1). assert (st' = st) as -> by congruence. destruct o as [w2 q|w2]; [|destruct X1; discriminate]. destruct X1 as [_ X2]. symmetry in X2. apply events_done in X2 as (r' & _ & X2). now injection X2 as ->. }
  rewrite CE in K. destruct (calls_inv _ _ _ K) as [(p & m & -> & M & Y)|[(p & i' & m & -> & M & Y)|(p & i' & -> & [Y|Y])]]; try discriminate Y. injection Y as <-.
  exists p. split; [exact (l_asks _ _ LV _ _ _ T)|].
  unfold P2PServer.exec in E. rewrite C in E. unfold P2PServer.step_thread in E. rewrite T in E. unfold P2PServer.step_piece in E. destruct (nth_error _ p); [|discriminate].
  destruct r as [|d|y]; cbn [answer] in E.
  - destruct (bf_has _ i) as [[]|]; try discriminate E; injection E as <- <-; P2PServerProofs.fields; eapply P2PEndProofs.set_self; exact T.
  - injection E as <- <-. P2PServerProofs.fields. eapply P2PEndProofs.set_self; exact T.
  - destruct y; cbn in E; injection E as <- <-; P2PServerProofs.fields; eapply P2PEndProofs.set_self; exact T.
Qed.
Lemma bads_old n ev n' e : bads n ev -> (forall t p i ev2, blocks n ev2 t p i -> blocks n' (ev2 ++ e) t p i) ->
  forall ev1 t i x g h ev2, ev = ev1 ++ NRet t (CWait i) (RErr (EChecksum x g h)) :: ev2 -> exists p, In (NEv (P2PServer.EvRequest p i)) ev1 /\ blocks n' (ev2 ++ e) t p i.
Proof. intros L K ev1 t i x g h ev2 E. destruct (L _ _ _ _ _ _ _ E) as (p & A & B). exists p. auto. Qed.
Lemma bads_step n ev a n' e : ninv n ev -> bads n ev -> nexec n a = Some (n', e) -> bads n' (ev ++ e).
Proof using ok unt loaded isblank.
  intros N L X ev1 t i x g h ev2 E. apply nexec_nstep in X as [C H].
  assert (NR : forall e0 t c r, ~ In (NRet t c r) (map NEv e0)) by (intros e0 t1 c1 r1 I; apply in_map_iff in I as (z & Z & _); discriminate Z).
  assert (IM : forall e0 (x : P2PServer.event), In x e0 -> In (NEv x) (map NEv e0)) by (intros e0 y I; apply in_map_iff; eauto).
  destruct H as [a1 s e F1 E1|t1 c1 w1 ts1 A S1|t1 j f k s e J X E1|t1 j w' ts' J X|t1 j w' ts' c1 r1 jb J X KP|t1 j w' ts' c1 r1 s e J X KP E1|t1 d0 p0 m0 s e J T0 M0 E1|t1 d0 p0 m0 s e J T0 M0 E1]; apply app_cut in E as [(ev3 & E & ->)|(e1 & E & ->)].
  - eapply bads_old; [exact L| |exact E]. intros. eapply blocks_srv; [eassumption|exact E1|reflexivity|auto].
  - exfalso. eapply (NR e). rewrite E. apply in_elt.
  - eapply bads_old; [exact L| |exact E]. intros. eapply blocks_same; [eassumption|reflexivity].
  - destruct e1; discriminate.
  - eapply bads_old; [exact L| |exact E]. intros. eapply blocks_srv; [eassumption|exact E1|reflexivity|auto].
  - exfalso. eapply (NR e). rewrite E. apply in_elt.
  - eapply bads_old; [exact L| |exact E]. intros. eapply blocks_same; [eassumption|reflexivity].
  - destruct e1; discriminate.
  - eapply bads_old; [exact L| |exact E]. intros. eapply blocks_same; [eassumption|reflexivity].
  - destruct e1 as [|? [|]]; try discriminate. injection E as _ -> _ _. discriminate KP.
  - eapply bads_old; [exact L| |exact E]. intros. eapply blocks_srv; [eassumption|exact E1|reflexivity|]. intros y I. right. auto.
  - assert (e1 = []) as ->.
    { destruct e1 as [|y e1]; [reflexivity|]. exfalso. cbn in E. injection E as _ E. eapply (NR e). rewrite E. apply in_elt. }
    cbn in E. injection E as -> -> -> <-. rewrite app_nil_r.
    destruct (wait_goes _ _ _ _ _ _ _ _ _ _ N C J X E1) as (p & A & T). exists p. split; [exact A|]. right. exact T.
  - eapply bads_old; [exact L| |exact E]. intros. eapply blocks_srv; [eassumption|exact E1|reflexivity|]. intros y I. right. auto.
  - exfalso. destruct e1 as [|y e1]; [discriminate E|]. cbn in E. injection E as _ E. eapply (NR e). rewrite E. apply in_elt.
  - eapply bads_old; [exact L| |exact E]. intros. eapply blocks_srv; [eassumption|exact E1|reflexivity|auto].
  - exfalso. eapply (NR e). rewrite E. apply in_elt.
Qed.
Lemma nruns_bads l n ev : nruns (nstart (Running w0 [])) l = Some (n, ev) -> ninv n ev /\ bads n ev.
Proof using ok unt loaded isblank.
  apply (nruns_ind sha1 cfg env hash id blank (fun n ev => ninv n ev /\ bads n ev)).
  - split; [apply ninv_start|]. intros [|] ? ? ? ? ? ? E; discriminate E.
  - intros n1 ev1 a n2 e [N M] X. split; [eapply ninv_step; eassumption|eapply bads_step; eassumption].
Qed.
End Waits.

(** * The theorems *)
Section Final.
Variable sha1 : bytes -> bytes.
Variable cfg : config.
Variable env : nat -> Fs.choice.
Variable hash id : bytes.
Notation node_run := (node_run sha1 cfg env hash id).
Notation np := (num_pieces (c_info cfg)).
Hypothesis ok : config_ok cfg.
Theorem failed_blocks f l n ev ev1 t i x g h ev2 : node_run f l n ev -> ev = ev1 ++ NRet t (CWait i) (RErr (EChecksum x g h)) :: ev2 ->
  exists p, In (NEv (P2PServer.EvRequest p i)) ev1 /\ (In (NEv (P2PServer.EvBlocked p)) ev2 \/
   (crashed n = false -> P2PServer.s_mu (n_srv n) = None -> exists n', node_run f (l ++ [NServer (P2PServer.AGo t P2PServer.COk)]) n' (ev ++ [NEv (P2PServer.EvBlocked p)]))).
Proof using ok.
  intros (U & tick & ls & w & es & blank & E & B & R) EV. destruct (nruns_bads sha1 cfg env hash id blank ok f tick ls w es U E B l n ev R) as [N BD].
  destruct (BD _ _ _ _ _ _ _ EV) as (p & A & [D|T]); exists p; (split; [exact A|]); [now left|]. right. intros C M. unfold crashed in C.
  destruct (server_run _ _ _ _ _ _ ok _ _ _ _ _ U E B _ _ N) as [l' R']. pose proof (P2PServerThms.v_range _ _ _ (P2PServerThms.run_inv _ _ _ _ _ _ _ R') _ p (nth_error_In _ _ T) eq_refl) as P.
  apply nth_error_Some in P. destruct (nth_error (P2PServer.s_peers (n_srv n)) p) as [q|] eqn:Q; [|congruence].
  assert (exists s, P2PServer.exec hash id blank (n_srv n) (P2PServer.AGo t P2PServer.COk) = Some (s, [P2PServer.EvBlocked p])) as [s S].
  { unfold P2PServer.exec. rewrite C. unfold P2PServer.step_thread. rewrite T. unfold P2PServer.step_piece. rewrite Q, M. eauto. }
  eexists. split; [exact U|]. exists tick, ls, w, es, blank. split; [exact E|]. split; [exact B|]. eapply nruns_one; [exact R|]. unfold nexec. rewrite C. unfold free_to. rewrite T. cbn [without andb]. unfold serve. rewrite S. reflexivity.
Qed.
Theorem complete_announces f l n ev blank t n' i e : node_run f l n ev -> bf_new np = Some blank ->
  nexec sha1 cfg env hash id blank n (NStep t) = Some (n', NRet t (CWait i) RNil :: e) -> P2PHaveSpec.announcing (n_srv n') t i.
Proof using ok.
  intros (U & tick & ls & w & es & blank' & E & B & R) B' X. assert (blank' = blank) as -> by congruence. destruct (nruns_bads sha1 cfg env hash id blank ok f tick ls w es U E B l n ev R) as [N _].
  pose proof X as X0. apply nexec_nstep in X0 as [C H]. remember (NRet t (CWait i) RNil :: e) as e0 eqn:E0.
  destruct H as [a1 s e1 F1 E1|t1 c1 w1 ts1 A S1|t1 j fd kd s e1 J XX E1|t1 j w' ts' J XX|t1 j w' ts' c1 r1 jb J XX KP|t1 j w' ts' c1 r1 s e1 J XX KP E1|t1 d0 p0 m0 s e1 J T0 M0 E1|t1 d0 p0 m0 s e1 J T0 M0 E1]; try discriminate E0; try (destruct e1; discriminate E0).
  - injection E0 as _ -> _ _. discriminate KP.
  - injection E0 as -> -> -> _. destruct (wait_goes _ _ _ _ _ _ ok _ _ _ _ _ U E B _ _ _ _ _ _ _ _ _ _ N C J XX E1) as (p & _ & T). exists p, P2PServer.PShare. auto.
Qed.
End Final.
