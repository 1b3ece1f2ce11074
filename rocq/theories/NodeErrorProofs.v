(** A message that cannot be handled ends its connection. *)
From Verif Require Import GoBase GoBaseProofs Bitfield BitfieldSpec BitfieldProofs GoMap PeerWire Metainfo MetainfoSpec
  Fs Storage StorageSys StorageSpec StorageSysSpec Node NodeSpec P2PEndSpec NodeProofs NodeThms.
From Verif Require StorageProofs StorageSysProofs StorageMoreProofs P2PServer P2PServerSpec P2PServerProofs P2PRegistryProofs P2PServerThms NodeServerProofs P2PEndProofs.

Lemma app_cut {A} (ev e ev1 ev2 : list A) x : ev ++ e = ev1 ++ x :: ev2 ->
  (exists r, ev = ev1 ++ x :: r /\ ev2 = r ++ e) \/ (exists e1, e = e1 ++ x :: ev2 /\ ev1 = ev ++ e1).
Proof.
  revert ev1. induction ev as [|y ev IH]; cbn; intros ev1 H; [right; exists ev1; auto|].
  destruct ev1 as [|z ev1]; cbn in H; injection H as -> H; [left; exists ev; auto|].
  destruct (IH _ H) as [(r & -> & ->)|(e1 & -> & ->)]; [left; exists r; auto|right; exists e1; auto].
Qed.

Section Errors.
Variable sha1 : bytes -> bytes.
Variable cfg : config.
Variable env : nat -> Fs.choice.
Variable hash id blank : bytes.
Notation nexec := (nexec sha1 cfg env hash id blank).
Notation nruns := (nruns sha1 cfg env hash id blank).
Notation sexec := (P2PServer.exec hash id blank).
Notation exec := (StorageSys.exec sha1 cfg env).
Notation execs := (StorageSys.execs sha1 cfg env).
Notation np := (num_pieces (c_info cfg)).
Hypothesis ok : config_ok cfg.
Variable f0 : fs.
Variable tick0 : nat.
Variable ls0 : list label.
Variable w0 : world.
Variable es0 : list event.
Hypothesis unt : untouched cfg f0.
Hypothesis loaded : execs (Dead f0 tick0) ls0 = Some (Running w0 [], es0).
Hypothesis isblank : bf_new np = Some blank.
Notation ninv := (ninv sha1 cfg env hash id blank w0).
Notation threads n := (P2PServer.s_threads (n_srv n)).

Definition over (n : node) (ev : list nevent) (p : nat) : Prop :=
  (p < List.length (P2PServer.s_peers (n_srv n)))%nat /\ P2PServerProofs.tsum (P2PEndProofs.work p) (threads n) = 0 /\
  (In (NEv (P2PServer.EvDisconnected p)) ev \/ exists u, nth_error (threads n) u = Some (P2PServer.THandler p P2PServer.HDisconnect)).
Definition errs (n : node) (ev : list nevent) : Prop := forall ev1 t c r ev2, ev = ev1 ++ NRet t c r :: ev2 -> cannot c r ->
  exists p m, received ev1 p m /\ asks_for m c /\ over n ev2 p /\ forall m', ~ received ev2 p m' /\ ~ In (NServed p m') ev2.
Lemma over_srv n ev p a s e n' : over n ev p -> sexec (n_srv n) a = Some (s, e) -> n_srv n' = s -> (forall m, ~ In (P2PServer.EvReceived p m) e) /\ forall ev', (forall x, In x e -> In (NEv x) ev') -> over n' (ev ++ ev') p.
Proof.
  intros (P & W & D) H E. split.
  - intros m I. pose proof (P2PEndProofs.received_work _ _ _ _ _ _ _ _ _ H I). lia.
  - intros ev' V. unfold over. rewrite E. split; [pose proof (P2PRegistryProofs.peers_len _ _ _ _ _ _ _ H); lia|]. split.
    + pose proof (P2PEndProofs.work_step _ _ _ _ _ _ _ _ H P). pose proof (P2PServerProofs.tsum_nonneg (P2PEndProofs.work p) (P2PServer.s_threads s) (P2PEndProofs.work_nonneg p)). lia.
    + destruct D as [D|[u D]]; [left; apply in_or_app; auto|]. destruct (P2PEndProofs.end_step _ _ _ _ _ _ _ _ _ H D) as [X|X]; [right; eauto|left; apply in_or_app; auto].
Qed.
Lemma over_same n ev p n' ev' : over n ev p -> n_srv n' = n_srv n -> over n' (ev ++ ev') p.
Proof. intros (P & W & D) E. unfold over. rewrite E. split; [exact P|]. split; [exact W|]. destruct D; [left; apply in_or_app; auto|auto]. Qed.
Lemma errs_old n ev n' e : errs n ev -> (forall p ev2, over n ev2 p -> over n' (ev2 ++ e) p /\ forall m', ~ received e p m' /\ ~ In (NServed p m') e) ->
  forall ev1 t c r ev2, ev = ev1 ++ NRet t c r :: ev2 -> cannot c r -> exists p m, received ev1 p m /\ asks_for m c /\ over n' (ev2 ++ e) p /\ forall m', ~ received (ev2 ++ e) p m' /\ ~ In (NServed p m') (ev2 ++ e).
Proof.
  intros L K ev1 t c r ev2 E F. destruct (L _ _ _ _ _ E F) as (p & m & A & B & C & D). exists p, m. split; [exact A|]. split; [exact B|]. destruct (K _ _ C) as [K1 K2]. split; [exact K1|].
  intros m'. destruct (D m') as [D1 D2]. destruct (K2 m') as [K3 K4]. split; intros I; apply in_app_or in I as [I|I]; auto.
Qed.
Lemma errs_step n ev a n' e : ninv n ev -> errs n ev -> nexec n a = Some (n', e) -> errs n' (ev ++ e).
Proof using ok unt loaded isblank.
  intros N L X ev1 t c r ev2 E F. apply nexec_nstep in X as [C H]. pose proof (i_live _ _ _ _ _ _ _ _ _ N C) as LV.
  assert (NS : forall e0 p m', ~ In (NServed p m') (map NEv e0)) by (intros e0 p m' I; apply in_map_iff in I as (z & Z & _); discriminate Z).
  assert (NR : forall e0 t c r, ~ In (NRet t c r) (map NEv e0)) by (intros e0 t1 c1 r1 I; apply in_map_iff in I as (z & Z & _); discriminate Z).
  assert (RC : forall e0 p m', (forall m, ~ In (P2PServer.EvReceived p m) e0) -> ~ received (map NEv e0) p m') by (intros e0 p m' Q I; apply in_map_iff in I as (z & Z & I); injection Z as ->; exact (Q _ I)).
  assert (IM : forall e0 (x : P2PServer.event), In x e0 -> In (NEv x) (map NEv e0)) by (intros e0 x I; apply in_map_iff; eauto).
  destruct H as [a1 s e F1 E1|t1 c1 w1 ts1 A S1|t1 j f k s e J X E1|t1 j w' ts' J X|t1 j w' ts' c1 r1 jb J X KP|t1 j w' ts' c1 r1 s e J X KP E1|t1 d0 p0 m0 s e J T0 M0 E1|t1 d0 p0 m0 s e J T0 M0 E1]; apply app_cut in E as [(ev3 & E & ->)|(e1 & E & ->)].
  - eapply errs_old; [exact L| |exact E|exact F]. intros p ev4 O. destruct (over_srv _ _ _ _ _ _ {| n_srv := s; n_sto := n_sto n; n_jobs := end_job a1 n; n_msgs := note a1 n |} O E1 eq_refl) as [O1 O2]. split; [apply O2; auto|]. intros m'. split; [auto|apply NS].
  - exfalso. apply (NR e t c r). rewrite E. apply in_elt.
  - eapply errs_old; [exact L| |exact E|exact F]. intros p ev4 O. split; [now apply (over_same n)|]. intros m'. split; intros [].
  - destruct e1; discriminate.
  - eapply errs_old; [exact L| |exact E|exact F]. intros p ev4 O. destruct (over_srv _ _ _ _ _ _ {| n_srv := s; n_sto := Dead f k; n_jobs := mdel Nat.eqb t1 (n_jobs n); n_msgs := n_msgs n |} O E1 eq_refl) as [O1 O2]. split; [apply O2; auto|]. intros m'. split; [auto|apply NS].
  - exfalso. apply (NR e t c r). rewrite E. apply in_elt.
  - eapply errs_old; [exact L| |exact E|exact F]. intros p ev4 O. split; [now apply (over_same n)|]. intros m'. split; intros [].
  - destruct e1; discriminate.
  - eapply errs_old; [exact L| |exact E|exact F]. intros p ev4 O. split; [now apply (over_same n)|]. intros m'. split; intros [I|[]]; discriminate I.
  - destruct e1 as [|? [|]]; try discriminate. injection E as _ <- <- _. unfold kept in KP. destruct c1; try discriminate KP; [destruct r1; try discriminate KP|]; contradiction.
  - eapply errs_old; [exact L| |exact E|exact F]. intros p ev4 O.
    destruct (over_srv _ _ _ _ _ _ {| n_srv := s; n_sto := Running w' ts'; n_jobs := mdel Nat.eqb t1 (n_jobs n); n_msgs := n_msgs n |} O E1 eq_refl) as [O1 O2]. split; [apply O2; intros x I; right; auto|].
    intros m'. split; (intros [I|I]; [discriminate I|]); [exact (RC _ _ _ O1 I)|exact (NS _ _ _ I)].
  - destruct (l_run _ _ LV) as (w & ts & ST & HB). destruct (jobs_call _ _ _ _ _ _ LV J ST) as (th & st & T & Q & D & K).
    assert (e1 = []) as ->.
    { destruct e1 as [|x e1]; [reflexivity|]. exfalso. cbn in E. injection E as _ E. apply (NR e t c r). rewrite E. apply in_elt. }
    cbn in E. injection E as -> -> -> <-. rewrite app_nil_r.
    assert (th_call st = c) as CE.
    { rewrite ST in X. apply StorageMoreProofs.step_shape in X as (st' & o & Q' & _ & X1). assert (st' = st) as -> by congruence. destruct o as [w2 q|w2]; [|destruct X1; discriminate]. destruct X1 as [_ X2]. symmetry in X2. apply events_done in X2 as (r' & _ & X2). now injection X2 as ->. }
    rewrite CE in K.
    assert (AN : exists p h m, th = P2PServer.THandler p h /\ mget Nat.eqb t (n_msgs n) = Some m /\ asks_for m c /\ NodeServerProofs.at_storage th = true /\ (answer c r (bits (n_sto n)) (bits (Running w' ts')) = P2PServer.CErr \/ answer c r (bits (n_sto n)) (bits (Running w' ts')) = P2PServer.CStored false)).
    { destruct (calls_inv _ _ _ K) as [(p & m & -> & M & ->)|[(p & i & m & -> & M & ->)|(p & i & -> & [->| ->])]]; [| |elim F|elim F].
      - exists p, P2PServer.HRequest, m. do 2 (split; [easy|]). destruct (l_msgs _ _ LV _ _ _ T eq_refl) as (m0 & M0 & CL & _). assert (m0 = m) as -> by congruence.
        split; [left; split; [exact CL|reflexivity]|]. split; [reflexivity|]. left. destruct r; cbn in F |- *; easy.
      - exists p, (P2PServer.HPiece i), m. do 2 (split; [easy|]). destruct (l_msgs _ _ LV _ _ _ T eq_refl) as (m0 & M0 & CL & _). assert (m0 = m) as -> by congruence.
        split; [right; split; [apply CL|reflexivity]|]. split; [reflexivity|]. cbn [answer]. destruct (bytes_eqb _ _); [left|right]; destruct r as [|d|[]]; cbn in F |- *; easy. }
    destruct AN as (p & h & m & -> & M & AF & AS & AE).
    destruct (P2PEndProofs.fails_ends _ _ _ _ _ _ _ _ _ _ T AS AE E1) as (T' & EE & P & SP). destruct (l_msgs _ _ LV _ _ _ T AS) as (m0 & M0 & _ & _ & RV). assert (m0 = m) as -> by congruence.
    exists p, m. split; [exact RV|]. split; [exact AF|]. split.
    + split; [cbn [n_srv]; now rewrite SP|]. split; [|right; exists t; exact T']. cbn [n_srv].
      destruct (server_run _ _ _ _ _ _ ok _ _ _ _ _ unt loaded isblank _ _ N) as [l R]. pose proof (P2PServerThms.run_inv _ _ _ _ _ _ _ R) as IV. pose proof (P2PServerThms.v_hand _ _ _ IV p) as HO.
      pose proof (P2PRegistryProofs.hand_step _ _ _ _ _ _ _ (P2PServerThms.v_hand _ _ _ IV) E1 p) as HO'. 
      assert (P2PServerProofs.tsum (P2PEndProofs.work p) (P2PServer.s_threads s) + 1 <= P2PServerProofs.tsum (P2PRegistryProofs.hand p) (P2PServer.s_threads s)) as LE by (eapply P2PEndProofs.idle_hand; exact T').
      pose proof (P2PServerProofs.one_range (p <? List.length (P2PServer.s_peers s))%nat). pose proof (P2PServerProofs.tsum_nonneg (P2PEndProofs.work p) (P2PServer.s_threads s) (P2PEndProofs.work_nonneg p)). lia.
    + intros m'. split; [|apply NS]. apply RC. intros m2 I. destruct EE as [->|[i ->]]; [destruct I|destruct I as [I|[]]; discriminate I].
  - eapply errs_old; [exact L| |exact E|exact F]. intros p ev4 O.
    destruct (over_srv _ _ _ _ _ _ {| n_srv := s; n_sto := n_sto n; n_jobs := mdel Nat.eqb t1 (n_jobs n); n_msgs := n_msgs n |} O E1 eq_refl) as [O1 O2]. split; [apply O2; intros x I; right; auto|].
    intros m'. split; (intros [I|I]; [|]); [discriminate I|exact (RC _ _ _ O1 I)| |exact (NS _ _ _ I)]. injection I as -> _. destruct O as (_ & W & _).
    pose proof (P2PEndProofs.working _ _ _ _ T0 ltac:(discriminate) ltac:(discriminate)). lia.
  - exfalso. destruct e1 as [|x e1]; [discriminate E|]. cbn in E. injection E as _ E. apply (NR e t c r). rewrite E. apply in_elt.
  - eapply errs_old; [exact L| |exact E|exact F]. intros p ev4 O.
    destruct (over_srv _ _ _ _ _ _ {| n_srv := s; n_sto := n_sto n; n_jobs := mdel Nat.eqb t1 (n_jobs n); n_msgs := n_msgs n |} O E1 eq_refl) as [O1 O2]. split; [apply O2; auto|]. intros m'. split; [auto|apply NS].
  - exfalso. apply (NR e t c r). rewrite E. apply in_elt.
Qed.
Lemma nruns_errs l n ev : nruns (nstart (Running w0 [])) l = Some (n, ev) -> ninv n ev /\ errs n ev.
Proof using ok unt loaded isblank.
  apply (nruns_ind sha1 cfg env hash id blank (fun n ev => ninv n ev /\ errs n ev)).
  - split; [apply ninv_start|]. intros [|] ? ? ? ? E; discriminate E.
  - intros n1 ev1 a n2 e [N M] X. split; [eapply ninv_step; eassumption|eapply errs_step; eassumption].
Qed.
End Errors.

(** PutBlock that found its block there has stored nothing. *)
Section There.
Import StorageProofs StorageSysProofs StorageMoreProofs.
Variable sha1 : bytes -> bytes.
Variable cfg : config.
Variable env : nat -> Fs.choice.
Hypothesis ok : config_ok cfg.
Notation exec := (StorageSys.exec sha1 cfg env).
Lemma exists_bits base w ts j w' ts' k b d : StorageSysProofs.inv sha1 cfg base (Running w ts) -> exec (Running w ts) (LStep j) = Some (Running w' ts', [Ret (CPut k b d) (RErr EBlockExists)]) ->
  t_bitfield (w_mem w') = t_bitfield (w_mem w).
Proof using ok.
  intros I E. apply step_shape in E as (t & o & T & N & E). destruct o as [w1 q|w1]; [|destruct E; discriminate]. destruct E as [E R]. injection E as -> ->.
  destruct q; cbn in R; try discriminate R. injection R as Ec ER. subst r. symmetry in Ec. pose proof (proj2 (proj2 (proj2 I)) _ _ T) as TO. unfold next in N. unfold thread_ok in TO. rewrite Ec in *.
  destruct (th_pc t) eqn:Ep; try discriminate N; try contradiction TO; cbn [w_mem forget_past] in N.
  - destruct (check_block_size _ _ _ _) eqn:CB; [injection N as <- _; reflexivity|destruct (t_coalesced _); [injection N as <-; reflexivity|discriminate N]].
  - destruct (piece_locked k ts); [discriminate|]. pose proof (put_in_piece_mem k b d (forget_past w)) as [_ M]. destruct (put_in_piece k b d (forget_past w)) as [w2 []]; cbn in N, M; try discriminate N; injection N as <- _; exact M.
  - destruct TO as [K TI]. destruct (torrent_rlocked ts); [discriminate|]. injection N as N. destruct (put_finish sha1 cfg env k (forget_past w)) as [w2 r] eqn:PF.
    destruct r as [u|y|]; try discriminate N. cbn in N. injection N as -> N. subst y. destruct I as (HJ & HM & _). cbn [disk_of] in HJ.
    assert (P0 : PI sha1 cfg (fun k => piece_locked k ts) base (forget_past w)) by (split; [exact HJ|]; split; [constructor|exact HM]).
    destruct HM as ((ML & _) & _). assert (exists p, nth_error (t_pieces (w_mem w)) (Z.to_nat k) = Some p) as [p P].
    { destruct (nth_error (t_pieces (w_mem w)) (Z.to_nat k)) eqn:X; [eauto|]. apply nth_error_None in X. rewrite ML in X. unfold num_pieces, zlen in K. lia. }
    assert (piece_locked k ts = true) as PL by (apply piece_locked_iff; exists j, t; rewrite Ec; auto).
    rewrite <- (Z2Nat.id k) in PF by lia. assert (piece_locked (Z.of_nat (Z.to_nat k)) ts = true) as PL' by (rewrite Z2Nat.id by lia; exact PL). pose proof (put_finish_spec sha1 cfg env ok _ base _ p _ _ _ P0 P PL' PF) as (_ & _ & _ & _ & _ & NF & _ & FU).
    destruct (pc_blocks p) as [l|] eqn:PB; [|destruct NF as [_ NF]; [intros (l & X & _); congruence|discriminate NF]].
    destruct (Z.eq_dec (pc_complete p) (zlen l)) as [FL|FL]; [|destruct NF as [_ NF]; [intros (l' & X & Y); congruence|discriminate NF]].
    destruct (FU l eq_refl FL) as (data & _ & _ & HH). destruct (bytes_eqb _ _) in HH; [discriminate HH|]. destruct HH as (e & [= <-] & [X|X] & _); discriminate X.
Qed.
End There.

(** * The theorems *)
Section Final.
Variable sha1 : bytes -> bytes.
Variable cfg : config.
Variable env : nat -> Fs.choice.
Variable hash id : bytes.
Notation node_run := (node_run sha1 cfg env hash id).
Notation np := (num_pieces (c_info cfg)).
Hypothesis ok : config_ok cfg.

Lemma nruns_one blank n0 l n ev a n' e : nruns sha1 cfg env hash id blank n0 l = Some (n, ev) -> nexec sha1 cfg env hash id blank n a = Some (n', e) ->
  nruns sha1 cfg env hash id blank n0 (l ++ [a]) = Some (n', ev ++ e).
Proof.
  intros H S. revert n0 n ev H S. induction l as [|b l IH]; intros n0 n ev H S; cbn [nruns app] in *; [injection H as -> <-; rewrite S; now rewrite app_nil_r|].
  destruct (nexec _ _ _ _ _ _ n0 b) as [[n1 e1]|]; [|discriminate]. destruct (nruns _ _ _ _ _ _ n1 l) as [[n2 e2]|] eqn:Q; [|discriminate]. injection H as -> <-. rewrite (IH _ _ _ Q S). now rewrite app_assoc.
Qed.
Theorem ends f l n ev ev1 t c r ev2 : node_run f l n ev -> ev = ev1 ++ NRet t c r :: ev2 -> cannot c r ->
  exists p m, received ev1 p m /\ asks_for m c /\ (forall m', ~ received ev2 p m' /\ ~ In (NServed p m') ev2) /\
  (In (NEv (P2PServer.EvDisconnected p)) ev2 \/
   exists u, crashed n = false -> P2PServer.s_mu (n_srv n) = None -> exists n', node_run f (l ++ [NServer (P2PServer.AGo u P2PServer.COk)]) n' (ev ++ [NEv (P2PServer.EvDisconnected p)])).
Proof using ok.
  intros (U & tick & ls & w & es & blank & E & B & R) EV F. destruct (nruns_errs sha1 cfg env hash id blank ok f tick ls w es U E B l n ev R) as [N ER].
  destruct (ER _ _ _ _ _ EV F) as (p & m & RV & AF & (P & _ & O) & D). exists p, m. split; [exact RV|]. split; [exact AF|]. split; [exact D|].
  destruct O as [O|[u O]]; [now left|]. right. exists u. intros C M. unfold crashed in C. apply nth_error_Some in P. destruct (nth_error (P2PServer.s_peers (n_srv n)) p) as [q|] eqn:Q; [|congruence].
  assert (exists s, P2PServer.exec hash id blank (n_srv n) (P2PServer.AGo u P2PServer.COk) = Some (s, [P2PServer.EvDisconnected p])) as [s S].
  { unfold P2PServer.exec. rewrite C. unfold P2PServer.step_thread. rewrite O. unfold P2PServer.step_handler. rewrite Q, M. eauto. }
  eexists. split; [exact U|]. exists tick, ls, w, es, blank. split; [exact E|]. split; [exact B|]. eapply nruns_one; [exact R|]. unfold nexec. rewrite C. unfold free_to. rewrite O. cbn [without andb]. unfold serve. rewrite S. reflexivity.
Qed.
Lemma reads_on blank w n ev t p h ch s1 e1 sto msgs : ninv sha1 cfg env hash id blank w n ev -> nth_error (P2PServer.s_threads (n_srv n)) t = Some (P2PServer.THandler p h) ->
  NodeServerProofs.at_storage (P2PServer.THandler p h) = true -> ch = P2PServer.COk \/ ch = P2PServer.CStored true ->
  P2PServer.exec hash id blank (n_srv n) (P2PServer.AGo t ch) = Some (s1, e1) -> P2PServer.s_crashed (n_srv n) = false ->
  let n' := {| n_srv := s1; n_sto := sto; n_jobs := mdel Nat.eqb t (n_jobs n); n_msgs := msgs |} in
  P2PServer.s_cancelled (n_srv n') = true \/ In (NEv (P2PServer.EvBlocked p)) ev \/
  forall m', on_wire m' = true -> exists n'', nruns sha1 cfg env hash id blank n' [NServer (P2PServer.AGo t P2PServer.COk); NServer (P2PServer.AGo t (P2PServer.CMsg m'))] = Some (n'', [NEv (P2PServer.EvReceived p m')]).
Proof.
  intros N T AS CH S C n'. cbn [n_srv n']. destruct (P2PEndProofs.went_on _ _ _ _ _ _ _ _ _ _ T AS CH S) as (T1 & C1 & P1 & q & P).
  destruct (P2PServer.s_cancelled s1) eqn:CN; [now left|]. right. destruct (P2PServer.q_closed q) eqn:K1.
  - left. destruct (i_srv _ _ _ _ _ _ _ _ _ N) as [l1 R1]. apply in_srv.
    assert (h <> P2PServer.HDisconnect /\ h <> P2PServer.HRelease) as [H1 H2] by (split; intros ->; discriminate AS).
    destruct (P2PEndProofs.closed_why _ _ _ _ _ _ _ _ _ _ _ R1 T H1 H2 P K1) as [Y|Y]; [|exact Y].
    rewrite (P2PEndProofs.cancelled_stays _ _ _ _ _ _ _ S Y) in CN. discriminate.
  - right. intros m' W. rewrite <- P1 in P. assert (0 <= m_index m') as MI by (unfold on_wire in W; lia).
    destruct (P2PEndProofs.loops hash id blank _ _ _ _ m' C1 T1 P CN K1 MI) as (s2 & s3 & L1 & L2 & L3).
    assert (C2 : P2PServer.s_crashed s2 = false) by (unfold P2PServer.exec in L3; destruct (P2PServer.s_crashed s2); [discriminate L3|reflexivity]).
    eexists. unfold n'. cbn [nruns]. unfold nexec at 1. cbn [n_srv]. rewrite C1. unfold free_to, serve. cbn [n_srv n_jobs n_msgs n_sto]. rewrite T1. cbn [without andb]. rewrite L1.
    unfold nexec. cbn [n_srv]. rewrite C2. unfold free_to, serve. cbn [n_srv n_jobs n_msgs n_sto]. rewrite L2. cbn [without andb]. rewrite W, L3. reflexivity.
Qed.
Notation on := (takes_next sha1 cfg env hash id).
Theorem goes f l n ev blank t n' k b d r e : node_run f l n ev -> bf_new np = Some blank ->
  nexec sha1 cfg env hash id blank n (NStep t) = Some (n', NRet t (CPut k b d) r :: e) -> r = RNil \/ r = RErr EBlockExists ->
  exists p m, received ev p m /\ asks_for m (CPut k b d) /\ on blank ev n' t p.
Proof using ok.
  intros (U & tick & ls & w & es & blank' & E & B & R) B' X F. assert (blank' = blank) as -> by congruence. destruct (nruns_errs sha1 cfg env hash id blank ok f tick ls w es U E B l n ev R) as [N _].
  pose proof X as X0. apply nexec_nstep in X0 as [C _]. pose proof (i_live _ _ _ _ _ _ _ _ _ N C) as LV. destruct (l_run _ _ LV) as (w1 & ts & ST & HB).
  unfold nexec in X. rewrite C in X. destruct (mget Nat.eqb t (n_jobs n)) as [[j| |]|] eqn:J; try discriminate X. destruct (jobs_call _ _ _ _ _ _ LV J ST) as (th & st & T & Q & D & K).
  destruct (exec sha1 cfg env (n_sto n) (LStep j)) as [[[w' ts'|fd kd] es1]|] eqn:XE; [| |discriminate X].
  2:{ unfold serve in X. destruct (P2PServer.exec _ _ _ _ _) as [[s1 e1]|]; [|discriminate X]. injection X as _ X. destruct e1; discriminate X. }
  destruct es1 as [|[c1 r1] es1]; [discriminate X|].
  assert (th_call st = c1) as CE.
  { rewrite ST in XE. apply StorageMoreProofs.step_shape in XE as (st' & o & Q' & _ & X1). assert (st' = st) as -> by congruence. destruct o as [w2 q|w2]; [|destruct X1; discriminate]. destruct X1 as [_ X2]. destruct q; cbn in X2; try discriminate X2. now injection X2 as -> _ _. }
  assert (c1 = CPut k b d /\ r1 = r) as [-> ->].
  { destruct (kept c1 r1); [injection X as _ -> -> _; auto|]. unfold serve in X. destruct (P2PServer.exec _ _ _ _ _) as [[s1 e1]|]; [|discriminate X]. injection X as _ -> -> _. auto. }
  cbn [kept] in X. rewrite CE in K.
  destruct (calls_inv _ _ _ K) as [(p & m & -> & M & Z)|[(p & i & m & -> & M & Z)|(p & i & -> & [Z|Z])]]; try discriminate Z. injection Z as -> -> ->.
  unfold serve in X. destruct (P2PServer.exec _ _ _ _ _) as [[s1 e1]|] eqn:S; [|discriminate X]. injection X as <- <-.
  destruct (l_msgs _ _ LV _ _ _ T eq_refl) as (m0 & M0 & CL & _ & RV). assert (m0 = m) as -> by congruence. exists p, m. split; [exact RV|]. split; [right; split; [apply CL|reflexivity]|].
  eapply reads_on; [exact N|exact T|reflexivity| |exact S|exact C]. cbn [answer]. destruct F as [->| ->]; destruct (bytes_eqb _ _) eqn:BE; auto.
  exfalso. pose proof (sto_good sha1 cfg env hash id blank ok f tick ls w es U E n ev N) as SI. rewrite ST in XE, SI. destruct es1 as [|]; [|rewrite ST in *; apply StorageMoreProofs.step_shape in XE as (? & [? []|?] & _ & _ & X1 & X2); discriminate].
  apply (exists_bits sha1 cfg env ok _ _ _ _ _ _ _ _ _ SI) in XE. rewrite ST in BE. cbn [bits] in BE. rewrite XE, (proj2 (bytes_eqb_eq _ _) eq_refl) in BE. discriminate.
Qed.
Theorem sends f l n ev blank t n' e : node_run f l n ev -> bf_new np = Some blank -> nexec sha1 cfg env hash id blank n (NWrite t true) = Some (n', e) ->
  exists p m d, received ev p m /\ asks_for m (CGet (m_index m) (m_begin m) (m_length m)) /\ In (NRet t (CGet (m_index m) (m_begin m) (m_length m)) (RBlock d)) ev /\
  e = [NServed p (mk_piece (m_index m) (m_begin m) d)] /\ on blank ev n' t p.
Proof using ok.
  intros (U & tick & ls & w & es & blank' & E & B & R) B' X. assert (blank' = blank) as -> by congruence. destruct (nruns_errs sha1 cfg env hash id blank ok f tick ls w es U E B l n ev R) as [N _].
  pose proof X as X0. apply nexec_nstep in X0 as [C _]. pose proof (i_live _ _ _ _ _ _ _ _ _ N C) as LV. unfold nexec in X. rewrite C in X.
  destruct (mget Nat.eqb t (n_jobs n)) as [[j| |d]|] eqn:J; try discriminate X. destruct (nth_error (P2PServer.s_threads (n_srv n)) t) as [[| |p []| | | | | |]|] eqn:T; try discriminate X.
  destruct (mget Nat.eqb t (n_msgs n)) as [m|] eqn:M; [|discriminate X]. unfold serve in X. destruct (P2PServer.exec _ _ _ _ _) as [[s1 e1]|] eqn:S; [|discriminate X]. injection X as <- <-.
  destruct (l_msgs _ _ LV _ _ _ T eq_refl) as (m0 & M0 & CL & _ & RV). assert (m0 = m) as -> by congruence. exists p, m, d. split; [exact RV|]. split; [left; split; [exact CL|reflexivity]|].
  split; [exact (l_found _ _ LV _ _ _ J M)|]. split.
  - assert (e1 = []) as ->; [|reflexivity]. unfold P2PServer.exec in S. rewrite C in S. unfold P2PServer.step_thread in S. rewrite T in S. unfold P2PServer.step_handler in S. destruct (nth_error _ p) in S; [|discriminate S]. now injection S as _ <-.
  - eapply reads_on; [exact N|exact T|reflexivity|now left|exact S|exact C].
Qed.
End Final.
