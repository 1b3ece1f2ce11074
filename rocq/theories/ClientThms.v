(** What holds in every run of the client. *)
From Verif Require Import GoBase GoBaseProofs Bitfield GoMap PeerWire Metainfo MetainfoSpec MetainfoProofs Fs Storage StorageSys StorageSpec StorageSysSpec StorageMoreProofs StorageClaimProofs Requests
  Node NodeSpec NodeProofs NodeThms P2PConn P2PConnSpec P2PConnProofs Client ClientSpec ClientProofs ClientPullProofs ClientServerProofs ClientAskProofs.
From Verif Require P2PServer P2PServerSpec P2PServerProofs P2PServerThms NodeServerProofs.
Import P2PServer.

Section Thms.
Variable sha1 : bytes -> bytes.
Variable cfg : config.
Variable env : nat -> Fs.choice.
Variable hash id blank : bytes.
Notation nexec := (nexec sha1 cfg env hash id blank).
Notation nruns := (nruns sha1 cfg env hash id blank).
Notation uexec := (uexec sha1 cfg env hash id blank).
Notation uruns := (uruns sha1 cfg env hash id blank).
Notation ustep := (ustep sha1 cfg env hash id blank).
Notation sexec := (P2PServer.exec hash id blank).
Notation exec := (StorageSys.exec sha1 cfg env).
Notation execs := (StorageSys.execs sha1 cfg env).
Notation np := (num_pieces (c_info cfg)).
Notation threads n := (s_threads (n_srv n)).

(** * Calls and their goroutines *)
Definition groups_ok (c : client) (ev : list uevent) : Prop := forall p K, nth_error (u_conns c) p = Some K -> group p (k_threads K) (conn_events p ev) (u_errs c).
Lemma groups_step c ev a c' e : conns_ok c ev -> groups_ok c ev -> uexec c a = Some (c', e) -> groups_ok c' (ev ++ e).
Proof.
  intros (L & F & R) G H. apply uexec_ustep in H as [_ S].
  assert (forall p K a K' ek, nth_error (u_conns c) p = Some K -> kexec K a = Some (K', ek) -> forall q K1, nth_error (list_set p K' (u_conns c)) q = Some K1 ->
    group q (k_threads K1) (conn_events q ev ++ if Nat.eqb q p then ek else []) (errs_after p K ek (u_errs c))) as MV.
  { intros p K a0 K' ek N E q K1 Q. destruct (Nat.eq_dec q p) as [->|D].
    - rewrite list_set_nth_eq in Q by (apply nth_error_Some; congruence). injection Q as <-. rewrite Nat.eqb_refl. destruct (R _ _ N) as [l RK]. eapply group_step; [eapply base_run; exact RK|eapply call_run; exact RK|exact (G _ _ N)|exact E].
    - rewrite list_set_nth_neq in Q by congruence. apply Nat.eqb_neq in D. rewrite D, app_nil_r. eapply group_errs; [|exact (G _ _ Q)]. intros x. apply errs_keep. }
  intros q K1 Q. destruct S as [a0 n en c' X B U1 U2 U3 U4|a0 n en p k ch K K' ek c' X B N E U1 U2 U3 U4|t th p a0 K K' ek c' T M CC N E U1 U2 U3 U4|p k ch th K K' ek c' N T0 In0 E U1 U2 U3 U4].
  - rewrite U4, conn_events_app, conn_events_un, app_nil_r. rewrite U2 in Q. unfold new_conns in Q. destruct (Nat.lt_ge_cases q (List.length (u_conns c))) as [D|D].
    + rewrite nth_error_app1 in Q by assumption. exact (G _ _ Q).
    + rewrite nth_error_app2 in Q by assumption. apply nth_repeat_k in Q as ->. rewrite (F _ D). apply group_start.
  - rewrite U4, !conn_events_app, conn_events_un, conn_events_uk. cbn [app]. rewrite U2 in Q. unfold new_conns in Q. cbn [u_conns set_uconns] in Q. destruct (Nat.lt_ge_cases q (List.length (u_conns c))) as [D|D].
    + rewrite nth_error_app1 in Q by (rewrite list_set_length; assumption). eapply MV; eassumption.
    + rewrite nth_error_app2 in Q by (rewrite list_set_length; assumption). apply nth_repeat_k in Q as ->. rewrite (F _ D). assert (p < List.length (u_conns c))%nat as Lp by (apply nth_error_Some; congruence). assert (Nat.eqb q p = false) as -> by (apply Nat.eqb_neq; lia). apply group_start.
  - rewrite U4, conn_events_app, conn_events_uk. rewrite U2 in Q. eapply MV; eassumption.
  - rewrite U4, conn_events_app, conn_events_uk. rewrite U2 in Q. eapply MV; eassumption.
Qed.

(** * Asking *)
Definition blocks (i : Z) (bl : list breq) : Prop := exists l, piece_requests (get_piece_length (c_info cfg) i) = Some l /\ bl = map (fun xy => (i, fst xy, snd xy)) l.
Definition since (p : nat) (i : Z) (ev f2 : list uevent) : Prop := exists f1, ev = f1 ++ UN (NEv (EvRequest p i)) :: f2.
Definition silent (p : nat) (f : list uevent) : Prop := forall j, ~ In (UN (NEv (EvRequest p j))) f /\ ~ In (UN (NEv (EvRequested p j))) f.
Record asking_ok (c : client) (ev : list uevent) : Prop := {
  a_run : forall t p i, thread_of c t = Some (TPiece p i PRun) -> exists f2, since p i ev f2 /\ silent p f2 /\ (in_wait (u_node c) t i -> all_came cfg p i f2) /\
    (forall q k, mget Nat.eqb t (u_calls c) = Some (q, k) -> q = p /\ job_of c t = Some JReset /\ exists g1 bl g2, f2 = g1 ++ UK p (KPulled k bl) :: g2 /\ blocks i bl) /\
    (job_of c t = Some JReset \/ in_wait (u_node c) t i -> 0 <= i < np);
  a_own : forall p K k td kd, nth_error (u_conns c) p = Some K -> nth_error (k_threads K) k = Some (TPull td kd) ->
    exists t i, thread_of c t = Some (TPiece p i PRun) /\ mget Nat.eqb t (u_calls c) = Some (p, k);
  a_calls : forall t x, mget Nat.eqb t (u_calls c) = Some x -> (t < List.length (threads (u_node c)))%nat;
  a_after : forall t p i q, thread_of c t = Some (TPiece p i q) -> past q = true -> exists f2, since p i ev f2 /\ all_came cfg p i f2 }.
Lemma since_more p i ev f2 e : since p i ev f2 -> since p i (ev ++ e) (f2 ++ e).
Proof. intros [f1 ->]. exists f1. now rewrite <- app_assoc. Qed.
Lemma came_more p i f e : all_came cfg p i f -> all_came cfg p i (f ++ e).
Proof. intros H b x B. destruct (H b x B) as (m & I & R). exists m. split; [apply in_or_app; now left|exact R]. Qed.
Lemma silent_conn p q ek : silent p (map (UK q) ek).
Proof. intros j. split; intros I; apply in_map_iff in I as (y & [=] & _). Qed.
Lemma silent_app p a b : silent p a -> silent p b -> silent p (a ++ b).
Proof. intros A B j. split; intros I; apply in_app_or in I as [I|I]; [exact (proj1 (A j) I)|exact (proj1 (B j) I)|exact (proj2 (A j) I)|exact (proj2 (B j) I)]. Qed.
Lemma calls_sub a n c t x : mget Nat.eqb t (calls_after a n c) = Some x -> mget Nat.eqb t (u_calls c) = Some x.
Proof.
  assert (forall u, mget Nat.eqb t (mdel Nat.eqb u (u_calls c)) = Some x -> mget Nat.eqb t (u_calls c) = Some x) as D.
  { intros u. rewrite (P2PServerProofs.mget_del _ neq_iff'). destruct (Nat.eqb u t); [discriminate|auto]. }
  unfold calls_after. destruct a as [b|u|u|u w]; auto; [destruct b; auto|]; destruct (in_call _); eauto.
Qed.
Lemma calls_keep a n c t : ~ nturn t a -> mget Nat.eqb t (calls_after a n c) = mget Nat.eqb t (u_calls c).
Proof.
  intros N. assert (forall u, u <> t -> mget Nat.eqb t (mdel Nat.eqb u (u_calls c)) = mget Nat.eqb t (u_calls c)) as D.
  { intros u Q. rewrite (P2PServerProofs.mget_del _ neq_iff'). apply Nat.eqb_neq in Q. now rewrite Q. }
  unfold nturn in N. unfold calls_after. destruct a as [b|u|u|u w]; auto; [destruct b; auto|]; destruct (in_call _); auto; apply D; intros ->; apply N; eauto.
Qed.
Lemma pull_over_inv c t b : pull_over c t b = true -> exists p k K, mget Nat.eqb t (u_calls c) = Some (p, k) /\ nth_error (u_conns c) p = Some K /\ nth_error (k_threads K) k = Some TOver /\ (b = false -> ~ In (p, k) (u_errs c)).
Proof.
  unfold pull_over. destruct (mget Nat.eqb t (u_calls c)) as [[p k]|]; [|discriminate]. destruct (nth_error (u_conns c) p) as [K|] eqn:N; [|discriminate]. destruct (nth_error (k_threads K) k) as [[| | | | |]|] eqn:T; try discriminate.
  intros H. exists p, k, K. split; [reflexivity|]. split; [exact N|]. split; [exact T|]. intros -> I.
  assert (existsb (fun x => Nat.eqb p (fst x) && Nat.eqb k (snd x)) (u_errs c) = true) as E; [|rewrite E in H; discriminate]. apply existsb_exists. exists (p, k). split; [exact I|]. cbn. now rewrite !Nat.eqb_refl.
Qed.
(** The calls on a connection. *)
Lemma call_threads have th j p a K K' ek : conn_call cfg have th j = Some (p, a) -> kexec K a = Some (K', ek) -> exists y, k_threads K' = k_threads K ++ [y] /\
  ((exists i l, th = TPiece p i PRun /\ j = Some JReset /\ piece_requests (get_piece_length (c_info cfg) i) = Some l /\ y = TPull (map (fun xy => (i, fst xy, snd xy)) l) [] /\
      ek = [KPulled (List.length (k_threads K)) (map (fun xy => (i, fst xy, snd xy)) l)]) \/
   ((forall q i, th <> TPiece q i PRun) /\ (forall td kd, y <> TPull td kd) /\ ek = [])).
Proof.
  intros C E. assert (forall f, a = KFlag f -> exists y, k_threads K' = k_threads K ++ [y] /\ (forall td kd, y <> TPull td kd) /\ ek = []) as OF.
  { intros f ->. unfold kexec in E. destruct (k_crashed K); [discriminate|]. injection E as <- <-. eexists. split; [reflexivity|]. split; [discriminate|reflexivity]. }
  assert (forall m, a = KSend m -> exists y, k_threads K' = k_threads K ++ [y] /\ (forall td kd, y <> TPull td kd) /\ ek = []) as OS.
  { intros m ->. unfold kexec in E. destruct (k_crashed K); [discriminate|]. destruct (existsb _ _); [|discriminate]. injection E as <- <-. eexists. split; [reflexivity|]. split; [discriminate|reflexivity]. }
  unfold conn_call in C. destruct th as [| |p0 h|p0 h|p0 i q| |p0 b| |]; try discriminate C.
  all: try (destruct h; try discriminate C).
  all: try (destruct q; try discriminate C).
  all: try (destruct b; try discriminate C).
  all: try (injection C as <- <-; first [destruct (OF _ eq_refl) as (y & Y1 & Y2 & Y3)|destruct (OS _ eq_refl) as (y & Y1 & Y2 & Y3)]; exists y; split; [exact Y1|]; right; split; [intros; discriminate|split; assumption]).
  destruct j as [[| |]|]; try discriminate C. destruct (piece_requests _) as [l|] eqn:PR; [|discriminate C]. injection C as <- <-.
  unfold kexec in E. destruct (k_crashed K); [discriminate|]. injection E as <- <-. eexists. split; [reflexivity|]. left. exists i, l. auto.
Qed.
Section Live.
Hypothesis ok : config_ok cfg.
Hypothesis fits : i_piece_length (c_info cfg) <= 2 ^ 63 - 16384.
Variable f0 : fs.
Variable tick0 : nat.
Variable ls0 : list label.
Variable w0 : world.
Variable es0 : list StorageSys.event.
Hypothesis unt : untouched cfg f0.
Hypothesis loaded : execs (Dead f0 tick0) ls0 = Some (Running w0 [], es0).
Hypothesis isblank : bf_new np = Some blank.
Notation ninv := (ninv sha1 cfg env hash id blank w0).

Lemma blocks_tile i bl : 0 <= i < np -> blocks i bl -> NoDup bl /\ forall j b x, In (j, b, x) bl <-> j = i /\ block_of cfg i b x.
Proof using ok fits.
  intros R (l & E & ->). pose proof ok as (W & _). destruct (piece_length_range _ _ W R) as [S _]. destruct (requests_tile cfg ok i R) as (l' & E' & ND & TL & _); [lia|]. assert (l' = l) as -> by congruence.
  split.
  - apply FinFun.Injective_map_NoDup; [|exact ND]. intros [a b] [a' b'] [= -> ->]. reflexivity.
  - intros j b x. unfold block_of. rewrite in_map_iff. split.
    + intros ([u v] & [= <- <- <-] & I). apply TL in I. auto.
    + intros (-> & _ & I). exists (b, x). split; [reflexivity|]. now apply TL.
Qed.
Record uinv (c : client) (ev : list uevent) : Prop := {
  ui_node : ninv (u_node c) (node_events ev);
  ui_conns : conns_ok c ev;
  ui_groups : groups_ok c ev;
  ui_asking : s_crashed (srv c) = false -> asking_ok c ev }.
Lemma alone_turn c a n e t p i : beside_node c a n e <> Never -> nturn t a -> thread_of c t = Some (TPiece p i PRun) -> job_of c t = Some JReset -> nexec (u_node c) a = Some (n, e) -> exists b, pull_over c t b = true.
Proof.
  intros B T TH J X. destruct T as [[ch ->]|[->|[->|[b ->]]]]; cbn [beside_node] in B; rewrite TH in B.
  - cbn [beside_server] in B. exists true. destruct (pull_over c t true); [reflexivity|]. now destruct B.
  - rewrite J in B. exists false. destruct (pull_over c t false); [reflexivity|]. now destruct B.
  - apply nexec_nstepa in X as [_ X]. unfold job_of in J. inversion X; subst; congruence.
  - apply nexec_nstepa in X as [_ X]. unfold job_of in J. inversion X; subst; congruence.
Qed.
(** A step of the server or its storage, with or without a connection. *)
Lemma asking_node c ev a n e e2 : asking_ok c ev -> ninv (u_node c) (node_events ev) -> conns_ok c ev -> groups_ok c ev -> s_crashed (srv c) = false ->
  nexec (u_node c) a = Some (n, e) -> beside_node c a n e <> Never -> s_crashed (n_srv n) = false -> (e2 = [] \/ exists q ek, e2 = map (UK q) ek) ->
  (forall t p i, nth_error (threads n) t = Some (TPiece p i PRun) -> exists f2, since p i (ev ++ map UN e ++ e2) f2 /\ silent p f2 /\ (in_wait n t i -> all_came cfg p i f2) /\
    (forall q k, mget Nat.eqb t (calls_after a n c) = Some (q, k) -> q = p /\ mget Nat.eqb t (n_jobs n) = Some JReset /\ exists g1 bl g2, f2 = g1 ++ UK p (KPulled k bl) :: g2 /\ blocks i bl) /\
    (mget Nat.eqb t (n_jobs n) = Some JReset \/ in_wait n t i -> 0 <= i < np)) /\
  (forall t p i q, nth_error (threads n) t = Some (TPiece p i q) -> past q = true -> exists f2, since p i (ev ++ map UN e ++ e2) f2 /\ all_came cfg p i f2) /\
  (forall p K k td kd, nth_error (u_conns c) p = Some K -> nth_error (k_threads K) k = Some (TPull td kd) ->
    exists t i, nth_error (threads n) t = Some (TPiece p i PRun) /\ mget Nat.eqb t (calls_after a n c) = Some (p, k)).
Proof using ok fits unt loaded isblank.
  intros A NI CO GR C X NV C' E2. pose proof (i_live _ _ _ _ _ _ _ _ _ NI C) as L.
  assert (forall p, silent p e2) as S2 by (intros p; destruct E2 as [->|(q & ek & ->)]; [intros j; split; intros []|apply silent_conn]).
  split; [|split].
  - intros t p i T. destruct (prun_frame sha1 cfg env hash id blank f0 _ _ _ _ _ _ _ _ L (sto_inv' sha1 cfg env hash id blank ok f0 tick0 ls0 w0 es0 unt loaded _ _ NI) X C' T) as [(NT & -> & J)|(T0 & NG & ST)].
    + exists e2. split; [exists ev; cbn; reflexivity|]. split; [apply S2|]. split; [intros W; exfalso; revert W; apply not_wait; now left|]. split.
      * intros q k Q. apply calls_sub in Q. apply (a_calls _ _ A) in Q. lia.
      * intros [Q|W]; [congruence|]. exfalso; revert W; apply not_wait; now left.
    + destruct (a_run _ _ A t p i T0) as (f2 & SI & SL & WT & CL & RG). exists (f2 ++ map UN e ++ e2). split; [now apply since_more|]. split.
      { apply silent_app; [exact SL|]. apply silent_app; [|apply S2].
        destruct (server_run sha1 cfg env hash id blank ok f0 tick0 ls0 w0 es0 unt loaded isblank _ _ NI) as [sl SR]. pose proof (P2PServerThms.v_tokens _ _ _ (P2PServerThms.run_inv _ _ _ _ _ _ _ SR)) as TK.
        intros j. split; intros I; apply in_map_iff in I as (y & [= ->] & I); destruct (srv_event _ _ _ _ _ _ _ _ _ _ _ X I) as (b & s & e1 & E & I1 & TE).
        - destruct (request_event _ _ _ _ _ _ _ _ _ E I1) as (_ & u & l & _ & U). pose proof (one_token _ _ _ _ _ _ TK T0 U (run_token _ _) (pick_token _ _)) as <-. congruence.
        - destruct (requested_event _ _ _ _ _ _ _ _ _ E I1) as (_ & u & ch & _ & U & U'). pose proof (one_token _ _ _ _ _ _ TK T0 U (run_token _ _) (run_token _ _)) as <-. rewrite TE in U'. congruence. }
      destruct ST as [(NC & JE & IW)|[(-> & J0 & (j & J1) & NW)|[(-> & J0 & j & J1)|(NC & (j & J0) & J1 & R)]]].
      * split; [intros W; apply came_more, WT, IW, W|]. split.
        -- intros q k Q. apply calls_sub in Q. destruct (CL _ _ Q) as (-> & JR & g1 & bl & g2 & -> & BL). split; [reflexivity|]. split; [unfold job_of in JR; congruence|]. exists g1, bl, (g2 ++ map UN e ++ e2). split; [now rewrite <- app_assoc|exact BL].
        -- intros [Q|W]; apply RG; [left; unfold job_of; congruence|right; auto].
      * split; [intros W; contradiction|]. split.
        -- intros q k Q. apply calls_sub in Q. destruct (CL _ _ Q) as (-> & JR & _). unfold job_of in JR. congruence.
        -- intros [Q|W]; [congruence|contradiction].
      * split; [intros _; apply came_more|].
        2:{ split; [|intros _; apply RG; now left]. intros q k Q. unfold calls_after in Q. rewrite T in Q. cbn [in_call] in Q. rewrite (P2PServerProofs.mget_del _ neq_iff'), Nat.eqb_refl in Q. discriminate. }
        cbn [beside_node] in NV. unfold thread_of, srv in NV. rewrite T0 in NV. unfold job_of in NV. rewrite J0 in NV. destruct (pull_over c t false) eqn:PO; [|now destruct NV].
        destruct (pull_over_inv _ _ _ PO) as (q & k & K & Q & N & TO & NE). specialize (NE eq_refl). destruct (CL _ _ Q) as (-> & _ & g1 & bl & g2 & -> & BL). destruct SI as [h1 ->].
        destruct CO as (_ & _ & RK). destruct (RK _ _ N) as [lk KR]. pose proof (GR _ _ N) as G.
        assert (conn_events p (h1 ++ UN (NEv (EvRequest p i)) :: g1 ++ UK p (KPulled k bl) :: g2) = conn_events p (h1 ++ UN (NEv (EvRequest p i)) :: g1) ++ KPulled k bl :: conn_events p g2) as EQ.
        { rewrite app_comm_cons, app_assoc, (conn_events_app p (_ ++ _)). f_equal. cbn. rewrite Nat.eqb_refl. reflexivity. }
        pose proof (pulled_done _ _ _ _ _ _ _ _ _ KR G EQ TO NE) as PD. destruct (blocks_tile i bl (RG (or_introl J0)) BL) as [_ TL]. intros b x B. destruct (PD (i, b, x)) as (m & I & TY & CA).
        { apply TL. auto. }
        exists m. split; [apply in_or_app; right; right; now apply in_conn|]. unfold is_type in TY. apply Z.eqb_eq in TY. unfold carried in CA. injection CA as Ci Cb Cx. auto.
      * split; [intros W; exfalso; revert W; apply not_wait; now right|]. split.
        -- intros q k Q. apply calls_sub in Q. destruct (CL _ _ Q) as (-> & JR & _). unfold job_of in JR. congruence.
        -- intros _. exact R.
  - intros t p i q T PQ. destruct (npast_frame sha1 cfg env hash id blank _ _ _ _ _ _ _ _ _ L X T PQ) as [(q0 & T0 & P0)|[T0 W]].
    + destruct (a_after _ _ A t p i q0 T0 P0) as (f2 & SI & AC). exists (f2 ++ map UN e ++ e2). split; [now apply since_more|now apply came_more].
    + destruct (a_run _ _ A t p i T0) as (f2 & SI & _ & WT & _). exists (f2 ++ map UN e ++ e2). split; [now apply since_more|apply came_more; auto].
  - intros p K k td kd N TP. destruct (a_own _ _ A _ _ _ _ _ N TP) as (t & i & T & Q). exists t, i.
    assert (~ nturn t a) as NT.
    { intros TU. destruct (a_run _ _ A t p i T) as (f2 & _ & _ & _ & CL & _). destruct (CL _ _ Q) as (_ & JR & _). destruct (alone_turn _ _ _ _ _ _ _ NV TU T JR X) as [b PO].
      destruct (pull_over_inv _ _ _ PO) as (q & k' & K1 & Q1 & N1 & TO & _). rewrite Q in Q1. injection Q1 as <- <-. rewrite N in N1. injection N1 as <-. congruence. }
    split; [eapply nstays; eassumption|]. rewrite calls_keep by exact NT. exact Q.
Qed.
Lemma asking_step c ev a c' e : uinv c ev -> uexec c a = Some (c', e) -> s_crashed (srv c') = false -> asking_ok c' (ev ++ e).
Proof using ok fits unt loaded isblank.
  intros U H C'. apply uexec_ustep in H as [C S]. pose proof (ui_asking _ _ U C) as A. pose proof (ui_conns _ _ U) as CO. pose proof CO as (CL & CF & CR).
  assert (forall m p K, nth_error (repeat kstart m) p = Some K -> forall k td kd, nth_error (k_threads K) k <> Some (TPull td kd)) as NEW.
  { intros m p K N k td kd. apply nth_repeat_k in N as ->. destruct k as [|[|k]]; cbn; discriminate. }
  destruct S as [a0 n en c' X B U1 U2 U3 U4|a0 n en p k ch K K' ek c' X B N E U1 U2 U3 U4|t th p a0 K K' ek c' T M CC N E U1 U2 U3 U4|p k ch th K K' ek c' N T0 In0 E U1 U2 U3 U4].
  - unfold srv in C'. rewrite U1 in C'. destruct (asking_node c ev a0 n en [] A (ui_node _ _ U) CO (ui_groups _ _ U) C X ltac:(rewrite B; discriminate) C' (or_introl eq_refl)) as (A1 & A2 & A3). rewrite app_nil_r in A1, A2.
    constructor; unfold thread_of, job_of, srv; rewrite U1, ?U3.
    + exact A1.
    + rewrite U2. intros q K k td kd Q TP. unfold new_conns in Q. destruct (Nat.lt_ge_cases q (List.length (u_conns c))) as [D|D].
      * rewrite nth_error_app1 in Q by assumption. eapply A3; eassumption.
      * rewrite nth_error_app2 in Q by assumption. exfalso. eapply NEW; eassumption.
    + intros t x Q. apply calls_sub in Q. apply (a_calls _ _ A) in Q. pose proof (nthreads_grow _ _ _ _ _ _ _ _ _ _ X). lia.
    + exact A2.
  - unfold srv in C'. rewrite U1 in C'. destruct (asking_node c ev a0 n en (map (UK p) ek) A (ui_node _ _ U) CO (ui_groups _ _ U) C X ltac:(rewrite B; discriminate) C' ltac:(right; eauto)) as (A1 & A2 & A3).
    constructor; unfold thread_of, job_of, srv; rewrite U1, ?U3.
    + exact A1.
    + rewrite U2. intros q K1 k1 td kd Q TP. unfold new_conns in Q. cbn [u_conns set_uconns] in Q. destruct (Nat.lt_ge_cases q (List.length (u_conns c))) as [D|D].
      * rewrite nth_error_app1 in Q by (rewrite list_set_length; assumption). destruct (Nat.eq_dec p q) as [<-|Dq].
        -- rewrite list_set_nth_eq in Q by assumption. injection Q as <-. destruct (CR _ _ N) as [lk KR]. destruct (pulls_old _ _ _ _ _ _ _ _ (base_run _ _ _ KR) E TP) as (td0 & kd0 & TP0). eapply A3; eassumption.
        -- rewrite list_set_nth_neq in Q by assumption. eapply A3; eassumption.
      * rewrite nth_error_app2 in Q by (rewrite list_set_length; assumption). exfalso. eapply NEW; eassumption.
    + intros t x Q. apply calls_sub in Q. apply (a_calls _ _ A) in Q. pose proof (nthreads_grow _ _ _ _ _ _ _ _ _ _ X). lia.
    + exact A2.
  - destruct (call_threads _ _ _ _ _ _ _ _ CC E) as (y & KT & CASE).
    constructor; unfold thread_of, job_of, srv; rewrite U1, ?U3.
    + intros t1 p1 i1 T1. destruct (a_run _ _ A t1 p1 i1 T1) as (f2 & SI & SL & WT & CAL & RG). exists (f2 ++ map (UK p) ek). split; [now apply since_more|]. split; [apply silent_app; [exact SL|apply silent_conn]|].
      split; [intros W; apply came_more; auto|]. split; [|exact RG]. intros q k Q. rewrite P2PServerProofs.mget_put in Q. destruct (Nat.eqb t t1) eqn:D.
      * apply Nat.eqb_eq in D as ->. injection Q as <- <-. unfold thread_of, srv in T. rewrite T1 in T. injection T as <-. destruct CASE as [(i & l & [= <- <-] & J & PR & -> & ->)|(NP & _)]; [|now destruct (NP p1 i1)].
        split; [reflexivity|]. split; [exact J|]. exists f2. eexists. exists []. split; [reflexivity|]. exists l. auto.
      * rewrite (P2PServerProofs.mget_del _ neq_iff'), D in Q. destruct (CAL _ _ Q) as (-> & JR & g1 & bl & g2 & -> & BL). split; [reflexivity|]. split; [exact JR|]. exists g1, bl, (g2 ++ map (UK p) ek). split; [now rewrite <- app_assoc|exact BL].
    + rewrite U2. intros q K1 k td kd Q TP. assert (forall t1 x, mget Nat.eqb t1 (u_calls c) = Some x -> mget Nat.eqb t1 (mput Nat.eqb t (p, List.length (k_threads K)) (u_calls c)) = Some x) as KEEP.
      { intros t1 x Q1. rewrite P2PServerProofs.mget_put, (P2PServerProofs.mget_del _ neq_iff'). destruct (Nat.eqb t t1) eqn:D; [apply Nat.eqb_eq in D as ->; congruence|exact Q1]. }
      assert (forall K0, nth_error (u_conns c) q = Some K0 -> nth_error (k_threads K0) k = Some (TPull td kd) -> exists t0 i, nth_error (threads (u_node c)) t0 = Some (TPiece q i PRun) /\ mget Nat.eqb t0 (mput Nat.eqb t (p, List.length (k_threads K)) (u_calls c)) = Some (q, k)) as OLD.
      { intros K0 N0 TP0. destruct (a_own _ _ A _ _ _ _ _ N0 TP0) as (t1 & i1 & T1 & Q1). exists t1, i1. split; [exact T1|now apply KEEP]. }
      destruct (Nat.eq_dec p q) as [<-|Dq].
      * rewrite list_set_nth_eq in Q by (apply nth_error_Some; congruence). injection Q as <-. rewrite KT in TP. destruct (Nat.lt_ge_cases k (List.length (k_threads K))) as [D|D].
        -- rewrite nth_error_app1 in TP by assumption. eapply OLD; eassumption.
        -- rewrite nth_error_app2 in TP by assumption. destruct (k - List.length (k_threads K))%nat as [|[|z]] eqn:Z; cbn in TP; try discriminate TP. injection TP as ->. assert (k = List.length (k_threads K)) as -> by lia.
           destruct CASE as [(i & l & -> & _)|(_ & NY & _)]; [|now destruct (NY td kd)]. exists t, i. split; [exact T|]. rewrite P2PServerProofs.mget_put, Nat.eqb_refl. reflexivity.
      * rewrite list_set_nth_neq in Q by assumption. eapply OLD; eassumption.
    + intros t1 x Q. rewrite P2PServerProofs.mget_put, (P2PServerProofs.mget_del _ neq_iff') in Q. destruct (Nat.eqb t t1) eqn:D; [|exact (a_calls _ _ A _ _ Q)]. apply Nat.eqb_eq in D as ->. apply nth_error_Some. unfold thread_of, srv in T. congruence.
    + intros t1 p1 i1 q T1 PQ. destruct (a_after _ _ A t1 p1 i1 q T1 PQ) as (f2 & SI & AC). exists (f2 ++ map (UK p) ek). split; [now apply since_more|now apply came_more].
  - constructor; unfold thread_of, job_of, srv; rewrite U1, ?U3.
    + intros t1 p1 i1 T1. destruct (a_run _ _ A t1 p1 i1 T1) as (f2 & SI & SL & WT & CAL & RG). exists (f2 ++ map (UK p) ek). split; [now apply since_more|]. split; [apply silent_app; [exact SL|apply silent_conn]|].
      split; [intros W; apply came_more; auto|]. split; [|exact RG]. intros q k1 Q. destruct (CAL _ _ Q) as (-> & JR & g1 & bl & g2 & -> & BL). split; [reflexivity|]. split; [exact JR|]. exists g1, bl, (g2 ++ map (UK p) ek). split; [now rewrite <- app_assoc|exact BL].
    + rewrite U2. intros q K1 k1 td kd Q TP. destruct (Nat.eq_dec p q) as [<-|Dq].
      * rewrite list_set_nth_eq in Q by (apply nth_error_Some; congruence). injection Q as <-. destruct (CR _ _ N) as [lk KR]. destruct (pulls_old _ _ _ _ _ _ _ _ (base_run _ _ _ KR) E TP) as (td0 & kd0 & TP0). eapply (a_own _ _ A); eassumption.
      * rewrite list_set_nth_neq in Q by assumption. eapply (a_own _ _ A); eassumption.
    + exact (a_calls _ _ A).
    + intros t1 p1 i1 q T1 PQ. destruct (a_after _ _ A t1 p1 i1 q T1 PQ) as (f2 & SI & AC). exists (f2 ++ map (UK p) ek). split; [now apply since_more|now apply came_more].
Qed.
Lemma uinv_start : uinv (ustart (Running w0 [])) [].
Proof.
  constructor.
  - apply ninv_start.
  - split; [reflexivity|]. split; [reflexivity|]. intros [|p] K; discriminate.
  - intros [|p] K; discriminate.
  - intros _. constructor.
    + intros [|t] p i; discriminate.
    + intros [|p] K; discriminate.
    + discriminate.
    + intros [|t] p i; discriminate.
Qed.
Lemma uinv_step c ev a c' e : uinv c ev -> uexec c a = Some (c', e) -> uinv c' (ev ++ e).
Proof using ok fits unt loaded isblank.
  intros U H. constructor.
  - pose proof (uexec_ustep _ _ _ _ _ _ _ _ _ _ H) as [_ S]. pose proof (ui_node _ _ U) as N. destruct S as [a0 n en c' X B U1 U2 U3 U4|a0 n en p k ch K K' ek c' X B N0 E U1 U2 U3 U4|t th p a0 K K' ek c' T M CC N0 E U1 U2 U3 U4|p k ch th K K' ek c' N0 T0 In0 E U1 U2 U3 U4].
    all: rewrite U1, !node_events_app, ?node_events_app, ?node_events_un, ?node_events_uk, ?app_nil_r; try exact N.
    all: eapply ninv_step; eassumption.
  - eapply conns_step; [exact (ui_conns _ _ U)|exact H].
  - eapply groups_step; [exact (ui_conns _ _ U)|exact (ui_groups _ _ U)|exact H].
  - eapply asking_step; eassumption.
Qed.
Lemma uruns_inv l c ev : uruns (ustart (Running w0 [])) l = Some (c, ev) -> uinv c ev.
Proof using ok fits unt loaded isblank. apply (uruns_ind sha1 cfg env hash id blank uinv); [exact uinv_start|]. intros. eapply uinv_step; eassumption. Qed.
End Live.
End Thms.
