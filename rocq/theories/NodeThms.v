(** What holds of every run of the whole program. *)
From Verif Require Import GoBase GoBaseProofs Bitfield BitfieldSpec BitfieldProofs GoMap PeerWire Metainfo MetainfoSpec MetainfoProofs
  Fs FsProofs BencDecode Storage StorageSys StorageSpec StorageSysSpec StorageMemSpec StorageSysProofs StorageClaimProofs StorageMoreProofs Node NodeSpec NodeProofs.
From Verif Require StorageProofs P2PServer P2PServerSpec P2PServerProofs P2PAnnounceProofs P2PRegistryProofs P2PLockProofs P2PServerThms NodeServerProofs.

Section Thms.
Variable sha1 : bytes -> bytes.
Variable cfg : config.
Variable env : nat -> Fs.choice.
Variable hash id blank : bytes.
Notation nexec := (nexec sha1 cfg env hash id blank).
Notation nruns := (nruns sha1 cfg env hash id blank).
Notation sexec := (P2PServer.exec hash id blank).
Notation exec := (StorageSys.exec sha1 cfg env).
Notation execs := (StorageSys.execs sha1 cfg env).
Notation np := (num_pieces (c_info cfg)).
Hypothesis ok : config_ok cfg.
Variable f0 : fs.
Variable tick0 : nat.
Variable ls0 : list label.
Variable w0 : world.
Variable es0 : list event.
Hypothesis unt : untouched cfg f0.
Hypothesis loaded : execs (Dead f0 tick0) ls0 = Some (Running w0 [], es0).
Hypothesis isblank : bf_new np = Some blank.
Notation ninv := (ninv sha1 cfg env hash id blank w0).

(** A step of the program is a step of its storage, or leaves it alone. *)
Lemma nstep_sto n n' e : nstep sha1 cfg env hash id blank n n' e ->
  (n_sto n' = n_sto n /\ sto_events e = []) \/ exists l, exec (n_sto n) l = Some (n_sto n', sto_events e) /\ same_run l.
Proof.
  intros H. destruct H as [a1 s e F E|t c w1 ts1 A S1|t j f k s e J X E|t j w' ts' J X|t j w' ts' c r jb J X KP|t j w' ts' c r s e J X KP E|t d0 p0 m0 s e J T0 M0 E|t d0 p0 m0 s e J T0 M0 E]; cbn [n_sto].
  - left. split; [reflexivity|apply sto_events_map].
  - right. exists (LCall c). rewrite S1. split; [reflexivity|exact Logic.I].
  - right. exists (LStep j). rewrite sto_events_map. split; [exact X|exact Logic.I].
  - right. exists (LStep j). split; [exact X|exact Logic.I].
  - right. exists (LStep j). split; [exact X|exact Logic.I].
  - right. exists (LStep j). change (sto_events (NRet t c r :: ?x)) with (Ret c r :: sto_events x). rewrite sto_events_map. split; [exact X|exact Logic.I].
  - left. split; [reflexivity|]. change (sto_events (NServed ?a ?b :: ?x)) with (sto_events x). apply sto_events_map.
  - left. split; [reflexivity|apply sto_events_map].
Qed.
(** ... and a step of the server, or leaves it alone. *)
Lemma nstep_srv n n' e : nstep sha1 cfg env hash id blank n n' e ->
  (n_srv n' = n_srv n /\ srv_events e = []) \/ exists a, sexec (n_srv n) a = Some (n_srv n', srv_events e).
Proof.
  intros H. destruct H as [a1 s e F E|t c w1 ts1 A S1|t j f k s e J X E|t j w' ts' J X|t j w' ts' c r jb J X KP|t j w' ts' c r s e J X KP E|t d0 p0 m0 s e J T0 M0 E|t d0 p0 m0 s e J T0 M0 E]; cbn [n_srv].
  - right. exists a1. now rewrite srv_events_map.
  - left. split; reflexivity.
  - right. eexists. rewrite srv_events_map. exact E.
  - left. split; reflexivity.
  - left. split; reflexivity.
  - right. eexists. change (srv_events (NRet t c r :: ?x)) with (srv_events x). rewrite srv_events_map. exact E.
  - right. eexists. change (srv_events (NServed ?a ?b :: ?x)) with (srv_events x). rewrite srv_events_map. exact E.
  - right. eexists. rewrite srv_events_map. exact E.
Qed.
Lemma kept_reset c r : kept c r = Some JReset -> exists i, c = CReset i.
Proof. unfold kept. destruct c; try discriminate; [destruct r; discriminate|eauto]. Qed.
Lemma kept_call c r j : kept c r <> Some (JCall j).
Proof. unfold kept. destruct c; try discriminate. destruct r; discriminate. Qed.
Lemma answer_panic c r b b' : answer c r b b' <> P2PServer.CPanic.
Proof. unfold answer. intros H. P2PServerProofs.brk H. Qed.
(** Who has reset piece i and asks for its blocks, or waits for it. *)
Definition past_reset (n : node) (t : nat) (i : Z) : Prop :=
  mget Nat.eqb t (n_jobs n) = Some JReset \/
  exists j w ts st, mget Nat.eqb t (n_jobs n) = Some (JCall j) /\ n_sto n = Running w ts /\ nth_error ts j = Some st /\ th_call st = CWait i.
Lemma step_call w ts j w' ts' es a st : exec (Running w ts) (LStep j) = Some (Running w' ts', es) -> nth_error ts' a = Some st ->
  exists st0, nth_error ts a = Some st0 /\ th_call st0 = th_call st.
Proof.
  intros E A. apply step_shape in E as (t & o & T & _ & E). destruct o as [w1 q|w1]; [|destruct E; discriminate]. destruct E as [E _]. injection E as -> ->.
  apply StorageProofs.nth_error_list_set in A as [(-> & -> & _)|[_ A]]; [exists t; now split|exists st; now split].
Qed.
Lemma ret_call w ts j w' ts' c r st : exec (Running w ts) (LStep j) = Some (Running w' ts', [Ret c r]) -> nth_error ts j = Some st -> c = th_call st.
Proof.
  intros X Q. apply step_shape in X as (st0 & o & Q0 & _ & X). destruct o as [w2 q|w2]; [|destruct X; discriminate]. destruct X as [_ X].
  symmetry in X. apply events_done in X as (r' & _ & X). assert (st0 = st) as -> by congruence. now injection X.
Qed.
Lemma past_frame n ev n' e t p i : live n ev -> nstep sha1 cfg env hash id blank n n' e -> P2PServer.s_crashed (n_srv n') = false ->
  nth_error (P2PServer.s_threads (n_srv n')) t = Some (P2PServer.TPiece p i P2PServer.PRun) -> past_reset n' t i ->
  nth_error (P2PServer.s_threads (n_srv n)) t = Some (P2PServer.TPiece p i P2PServer.PRun) /\
  (past_reset n t i \/ exists j w ts w' ts' i' r, mget Nat.eqb t (n_jobs n) = Some (JCall j) /\ n_sto n = Running w ts /\ exec (Running w ts) (LStep j) = Some (Running w' ts', [Ret (CReset i') r]) /\ n_sto n' = Running w' ts').
Proof.
  intros L H C T P. destruct (l_run _ _ L) as (w & ts & ST & _).
  assert (JT : forall a s ee jb, sexec (n_srv n) a = Some (s, ee) -> mget Nat.eqb t (n_jobs n) = Some jb -> ~ P2PServerSpec.turn_of t a -> nth_error (P2PServer.s_threads s) t = Some (P2PServer.TPiece p i P2PServer.PRun) ->
    nth_error (P2PServer.s_threads (n_srv n)) t = Some (P2PServer.TPiece p i P2PServer.PRun)).
  { intros a s ee jb E J N T'. destruct (l_jobs _ _ L _ _ J) as (th & TH & _). pose proof (NodeServerProofs.others_stay _ _ _ _ _ _ _ _ _ E N TH) as X. congruence. }
  destruct H as [a1 s e F E|t1 c w1 ts1 A S1|t1 j f k s e J X E|t1 j w' ts' J X|t1 j w' ts' c r jb J X KP|t1 j w' ts' c r s e J X KP E|t1 d0 p0 m0 s e J T0 M0 E|t1 d0 p0 m0 s e J T0 M0 E]; cbn [n_srv n_sto n_jobs] in *.
  - assert (past_reset n t i) as P' by (destruct P as [P|(j & w1 & ts1 & st & P & R)]; cbn in P; apply end_job_get in P as [P _]; [now left|right; exists j, w1, ts1, st; auto]).
    split; [|now left]. destruct P as [P|(j & w1 & ts1 & st & P & _)]; cbn in P; apply end_job_get in P as [P N]; eapply JT; eassumption.
  - split; [exact T|]. left. assert (w1 = w /\ ts1 = ts) as [-> ->] by (split; congruence). destruct P as [P|(j & w2 & ts2 & st & P & R & Q & W)]; cbn [n_jobs] in P; rewrite P2PServerProofs.mget_put in P; destruct (Nat.eqb t1 t) eqn:Q1.
    + discriminate P.
    + rewrite (P2PServerProofs.mget_del _ neq_iff'), Q1 in P. now left.
    + apply Nat.eqb_eq in Q1 as ->. injection P as <-. cbn in R. injection R as <- <-. rewrite nth_error_app2, Nat.sub_diag in Q by lia. injection Q as <-. cbn in W. subst c.
      left. unfold at_call in A. rewrite T in A. cbn in A. destruct (mget Nat.eqb t (n_jobs n)) as [[| |]|]; [|reflexivity| |]; destruct (mget Nat.eqb t (n_msgs n)); discriminate A.
    + rewrite (P2PServerProofs.mget_del _ neq_iff'), Q1 in P. destruct (jobs_call _ _ _ _ _ _ L P ST) as (_ & st0 & _ & Q0 & _). cbn in R. injection R as <- <-.
      rewrite nth_error_app1 in Q by (apply nth_error_Some; congruence). right. exists j, w, ts, st. auto.
  - exfalso. destruct (jobs_call _ _ _ _ _ _ L J ST) as (th & st & TT & _ & _ & K). unfold P2PServer.exec in E. destruct (P2PServer.s_crashed (n_srv n)); [discriminate|]. unfold P2PServer.step_thread in E. rewrite TT in E.
    destruct (calls_inv _ _ _ K) as [(p' & x & -> & _)|[(p' & i' & x & -> & _)|(p' & i' & -> & _)]]; unfold P2PServer.step_handler, P2PServer.step_piece, P2PServer.crash in E; destruct (nth_error _ _) in E; try discriminate E; injection E as <- <-; discriminate C.
  - split; [exact T|]. left. destruct P as [P|(j' & w2 & ts2 & st & P & R & Q & W)]; [now left|]. cbn in P, R. injection R as <- <-. rewrite ST in X. destruct (step_call _ _ _ _ _ _ _ _ X Q) as (st0 & Q0 & W0).
    right. exists j', w, ts, st0. repeat split; auto. congruence.
  - split; [exact T|]. destruct (Nat.eq_dec t t1) as [->|N].
    + destruct P as [P|(j' & w2 & ts2 & st & P & R & Q & W)]; cbn [n_jobs n_sto] in P; rewrite P2PServerProofs.mget_put, Nat.eqb_refl in P; injection P as ->; [|destruct (kept_call _ _ _ KP)].
      apply kept_reset in KP as [i' ->]. right. exists j, w, ts, w', ts', i', r. rewrite ST in X. auto.
    + left. assert (Nat.eqb t1 t = false) as Q1 by (apply Nat.eqb_neq; congruence).
      destruct P as [P|(j' & w2 & ts2 & st & P & R & Q & W)]; cbn [n_jobs n_sto] in *; rewrite P2PServerProofs.mget_put, Q1, (P2PServerProofs.mget_del _ neq_iff'), Q1 in P; [now left|].
      injection R as <- <-. rewrite ST in X. destruct (step_call _ _ _ _ _ _ _ _ X Q) as (st0 & Q0 & W0). right. exists j', w, ts, st0. repeat split; auto. congruence.
  - assert (past_reset n t i /\ t <> t1) as [P' N].
    { destruct P as [P|(j' & w2 & ts2 & st & P & R & Q & W)]; cbn [n_jobs n_sto] in *; rewrite (P2PServerProofs.mget_del _ neq_iff') in P; destruct (Nat.eqb t1 t) eqn:Q1; try discriminate P.
      - apply Nat.eqb_neq in Q1. split; [now left|congruence].
      - apply Nat.eqb_neq in Q1. split; [|congruence]. injection R as <- <-. rewrite ST in X. destruct (step_call _ _ _ _ _ _ _ _ X Q) as (st0 & Q0 & W0). right. exists j', w, ts, st0. repeat split; auto. congruence. }
    split; [|now left]. assert (~ P2PServerSpec.turn_of t (P2PServer.AGo t1 (answer c r (bits (n_sto n)) (bits (Running w' ts'))))) as NT by (intros [cc CC]; injection CC as CC _; congruence).
    destruct P' as [P'|(j' & w2 & ts2 & st & P' & _)]; eapply JT; eassumption.
  - assert (past_reset n t i /\ t <> t1) as [P' N].
    { destruct P as [P|(j' & w2 & ts2 & st & P & R & Q & W)]; cbn [n_jobs n_sto] in *; rewrite (P2PServerProofs.mget_del _ neq_iff') in P; destruct (Nat.eqb t1 t) eqn:Q1; try discriminate P.
      - apply Nat.eqb_neq in Q1. split; [now left|congruence].
      - apply Nat.eqb_neq in Q1. split; [|congruence]. right. exists j', w2, ts2, st. auto. }
    split; [|now left]. assert (~ P2PServerSpec.turn_of t (P2PServer.AGo t1 P2PServer.COk)) as NT by (intros [cc CC]; injection CC as CC _; congruence).
    destruct P' as [P'|(j' & w2 & ts2 & st & P' & _)]; eapply JT; eassumption.
  - assert (past_reset n t i /\ t <> t1) as [P' N].
    { destruct P as [P|(j' & w2 & ts2 & st & P & R & Q & W)]; cbn [n_jobs n_sto] in *; rewrite (P2PServerProofs.mget_del _ neq_iff') in P; destruct (Nat.eqb t1 t) eqn:Q1; try discriminate P.
      - apply Nat.eqb_neq in Q1. split; [now left|congruence].
      - apply Nat.eqb_neq in Q1. split; [|congruence]. right. exists j', w2, ts2, st. auto. }
    split; [|now left]. assert (~ P2PServerSpec.turn_of t (P2PServer.AGo t1 P2PServer.CErr)) as NT by (intros [cc CC]; injection CC as CC _; congruence).
    destruct P' as [P'|(j' & w2 & ts2 & st & P' & _)]; eapply JT; eassumption.
Qed.

Lemma blamed_more ev e p i : blamed ev p i -> blamed (ev ++ e) p i.
Proof.
  intros (ev1 & ev2 & t & b & d & x & g & h & -> & A & B). exists ev1, (ev2 ++ e), t, b, d, x, g, h. split; [now rewrite app_assoc|]. split; [exact A|]. apply in_or_app. now left.
Qed.
(** Resets are not undone while the request lasts. *)
Lemma past_persists n ev n' e t p i : live n ev -> nstep sha1 cfg env hash id blank n n' e -> P2PServer.s_crashed (n_srv n') = false ->
  nth_error (P2PServer.s_threads (n_srv n)) t = Some (P2PServer.TPiece p i P2PServer.PRun) ->
  nth_error (P2PServer.s_threads (n_srv n')) t = Some (P2PServer.TPiece p i P2PServer.PRun) -> past_reset n t i -> past_reset n' t i.
Proof.
  intros L H C T T' P. destruct (l_run _ _ L) as (w & ts & ST & _).
  assert (NT : forall a s ee, sexec (n_srv n) a = Some (s, ee) -> P2PServer.s_crashed s = false -> nth_error (P2PServer.s_threads s) t = Some (P2PServer.TPiece p i P2PServer.PRun) -> ~ P2PServerSpec.turn_of t a).
  { intros a s ee E C0 T0. destruct (NodeServerProofs.at_storage_frame _ _ _ _ _ _ _ _ _ E C0 T0 eq_refl) as [[_ X]|[(p' & m & h & X & _)|(p' & i' & _ & X & _)]]; [exact X|discriminate X|].
    apply nth_error_Some_lt in T. lia. }
  assert (KEEP : forall w' ts' jobs, n_sto n' = Running w' ts' -> n_jobs n' = jobs -> mget Nat.eqb t jobs = mget Nat.eqb t (n_jobs n) ->
    (forall j st, nth_error ts j = Some st -> exists st', nth_error ts' j = Some st' /\ th_call st' = th_call st) -> past_reset n' t i).
  { intros w' ts' jobs S' J' G K. destruct P as [P|(j & w1 & ts1 & st & P & S1 & Q & W)]; [left; rewrite J', G; exact P|]. rewrite ST in S1. injection S1 as <- <-.
    destruct (K _ _ Q) as (st' & Q' & W'). right. exists j, w', ts', st'. rewrite J', G. repeat split; auto. congruence. }
  assert (STEP : forall j w' ts' es, exec (n_sto n) (LStep j) = Some (Running w' ts', es) -> forall j' st, nth_error ts j' = Some st -> exists st', nth_error ts' j' = Some st' /\ th_call st' = th_call st).
  { intros j w' ts' es X j' st Q. rewrite ST in X. apply step_shape in X as (st0 & o & Q0 & _ & X). destruct o as [w2 q|w2]; [|destruct X; discriminate]. destruct X as [X _]. injection X as -> ->.
    destruct (Nat.eq_dec j' j) as [->|N]; [assert (st0 = st) as -> by congruence; eexists; split; [eapply list_set_this; exact Q|reflexivity]|exists st; split; [now apply list_set_other|reflexivity]]. }
  destruct H as [a1 s e F E|t1 c w1 ts1 A S1|t1 j f k s e J X E|t1 j w' ts' J X|t1 j w' ts' c r jb J X KP|t1 j w' ts' c r s e J X KP E|t1 d0 p0 m0 s e J T0 M0 E|t1 d0 p0 m0 s e J T0 M0 E]; cbn [n_srv n_sto n_jobs] in *.
  - apply (KEEP w ts (end_job a1 n)); [exact ST|reflexivity| |intros j st Q; eauto]. pose proof (NT _ _ _ E C T') as N. unfold end_job. destruct a1; try reflexivity. rewrite (P2PServerProofs.mget_del _ neq_iff').
    destruct (Nat.eqb t0 t) eqn:Q; [|reflexivity]. apply Nat.eqb_eq in Q as ->. destruct N. eexists. reflexivity.
  - rewrite ST in S1. injection S1 as <- <-. destruct (Nat.eq_dec t t1) as [->|N].
    + unfold at_call in A. rewrite T in A. cbn in A. destruct P as [P|(j & w1 & ts1 & st & P & _)]; rewrite P in A; [|destruct (mget Nat.eqb t1 (n_msgs n)); discriminate A].
      assert (c = CWait i) as -> by (destruct (mget Nat.eqb t1 (n_msgs n)); congruence). right. exists (List.length ts), w, (ts ++ [{| th_call := CWait i; th_pc := Start |}]), {| th_call := CWait i; th_pc := Start |}.
      cbn [n_jobs n_sto]. rewrite P2PServerProofs.mget_put, Nat.eqb_refl. repeat split; auto. rewrite nth_error_app2, Nat.sub_diag by lia. reflexivity.
    + eapply KEEP; [reflexivity|reflexivity| |].
      * rewrite P2PServerProofs.mget_put, (P2PServerProofs.mget_del _ neq_iff'). destruct (Nat.eqb t1 t) eqn:Q; [apply Nat.eqb_eq in Q; congruence|reflexivity].
      * intros j st Q. exists st. split; [|reflexivity]. rewrite nth_error_app1; [exact Q|]. now apply nth_error_Some_lt in Q.
  - exfalso. destruct (jobs_call _ _ _ _ _ _ L J ST) as (th & st & TT & _ & _ & K). unfold P2PServer.exec in E. destruct (P2PServer.s_crashed (n_srv n)); [discriminate|]. unfold P2PServer.step_thread in E. rewrite TT in E.
    destruct (calls_inv _ _ _ K) as [(p' & x & -> & _)|[(p' & i' & x & -> & _)|(p' & i' & -> & _)]]; unfold P2PServer.step_handler, P2PServer.step_piece, P2PServer.crash in E; destruct (nth_error _ _) in E; try discriminate E; injection E as <- <-; discriminate C.
  - eapply KEEP; [reflexivity|reflexivity|reflexivity|]. eapply STEP; exact X.
  - destruct (Nat.eq_dec t t1) as [->|N].
    { left. cbn. rewrite P2PServerProofs.mget_put, Nat.eqb_refl. destruct (jobs_call _ _ _ _ _ _ L J ST) as (th & st & TT & Q & _ & K). rewrite ST in X. rewrite (ret_call _ _ _ _ _ _ _ _ X Q) in KP. rewrite T in TT. injection TT as <-.
      destruct (calls_inv _ _ _ K) as [(p' & x & Z & _)|[(p' & i' & x & Z & _)|(p' & i' & Z & [Y|Y])]]; try discriminate Z; rewrite Y in KP; [now injection KP as <-|discriminate KP]. }
    eapply KEEP; [reflexivity|reflexivity| |eapply STEP; exact X].
    rewrite P2PServerProofs.mget_put, (P2PServerProofs.mget_del _ neq_iff'). destruct (Nat.eqb t1 t) eqn:Q; [apply Nat.eqb_eq in Q; congruence|reflexivity].
  - pose proof (NT _ _ _ E C T') as N. eapply KEEP; [reflexivity|reflexivity| |eapply STEP; exact X]. rewrite (P2PServerProofs.mget_del _ neq_iff').
    destruct (Nat.eqb t1 t) eqn:Q; [|reflexivity]. apply Nat.eqb_eq in Q as ->. destruct N. eexists. reflexivity.
  - pose proof (NT _ _ _ E C T') as N. eapply KEEP; [exact ST|reflexivity| |eauto]. rewrite (P2PServerProofs.mget_del _ neq_iff').
    destruct (Nat.eqb t1 t) eqn:Q; [|reflexivity]. apply Nat.eqb_eq in Q as ->. destruct N. eexists. reflexivity.
  - pose proof (NT _ _ _ E C T') as N. eapply KEEP; [exact ST|reflexivity| |eauto]. rewrite (P2PServerProofs.mget_del _ neq_iff').
    destruct (Nat.eqb t1 t) eqn:Q; [|reflexivity]. apply Nat.eqb_eq in Q as ->. destruct N. eexists. reflexivity.
Qed.
Record more (n : node) (ev : list nevent) : Prop := {
  m_lens : NodeServerProofs.lens_ok blank (n_srv n);
  m_have : forall i, member (P2PServer.s_have (n_srv n)) i -> stored cfg n i;
  m_wait : waiting_ok (n_sto n);
  m_failed : failed_ok (n_sto n) (sto_events ev);
  m_broken : P2PServer.s_crashed (n_srv n) = false -> forall t k b d x g h, In (NRet t (CPut k b d) (RErr (EChecksum x g h))) ev -> broken k (n_sto n);
  m_asks : P2PServer.s_crashed (n_srv n) = false -> forall t p i, nth_error (P2PServer.s_threads (n_srv n)) t = Some (P2PServer.TPiece p i P2PServer.PRun) -> past_reset n t i ->
    exists ev1 ev2, ev = ev1 ++ ev2 /\ In (NEv (P2PServer.EvRequest p i)) ev1 /\ failed_at (Z.to_nat i) (n_sto n) (sto_events ev2);
  m_block : forall t p i, nth_error (P2PServer.s_threads (n_srv n)) t = Some (P2PServer.TPiece p i P2PServer.PBlock) -> blamed ev p i;
  m_blocked : forall p, In (NEv (P2PServer.EvBlocked p)) ev -> exists i, blamed ev p i;
  m_crash : P2PServer.s_crashed (n_srv n) = true -> cause cfg n ev;
  m_reset : P2PServer.s_crashed (n_srv n) = false -> forall t p i, nth_error (P2PServer.s_threads (n_srv n)) t = Some (P2PServer.TPiece p i P2PServer.PRun) ->
    past_reset n t i \/ exists ev1 ev2, ev = ev1 ++ NEv (P2PServer.EvRequest p i) :: ev2 /\ forall u r, ~ In (NRet u (CReset i) r) ev2 }.
Lemma blank_len : np <= 8 * zlen blank < np + 8.
Proof using isblank.
  pose proof isblank as H. unfold bf_new in H. assert (0 <= np) by (unfold num_pieces; apply zlen_nonneg). pose proof (Z.quot_rem' np 8). pose proof (Z.rem_bound_pos np 8 ltac:(lia) ltac:(lia)).
  destruct (negb (Z.rem np 8 =? 0)) eqn:E; destruct (_ <? 0) eqn:E1 in H; try discriminate; injection H as <-; unfold zlen; rewrite repeat_length; [|apply negb_false_iff in E]; lia.
Qed.
Lemma bits_len base w ts : inv sha1 cfg base (Running w ts) -> zlen (t_bitfield (w_mem w)) = zlen blank.
Proof using isblank. intros (_ & ((_ & _ & _ & _ & B & _) & _) & _). pose proof blank_len. lia. Qed.
Lemma inv0 : inv sha1 cfg f0 (Running w0 []).
Proof using ok unt loaded. exact (execs_inv sha1 cfg env ok _ _ _ _ _ unt loaded). Qed.
Lemma more_start : more (nstart (Running w0 [])) [].
Proof using ok unt loaded isblank.
  constructor; cbn [n_srv n_sto nstart].
  - apply NodeServerProofs.lens_start. exact (bits_len _ _ _ inv0).
  - intros i M. apply (bitfield_exact sha1 cfg env ok _ _ _ inv0) in M. exact M.
  - exact (waiting_run sha1 cfg env ok _ _ _ _ _ unt loaded).
  - exact (fresh_run sha1 cfg env _ _ _ _ _ loaded).
  - intros _ t k b d x g h [].
  - intros _ [|t] p i T; discriminate T.
  - intros [|t] p i T; discriminate T.
  - intros p [].
  - discriminate.
  - intros _ [|t] p i T; discriminate T.
Qed.
Lemma sto_good n ev : ninv n ev -> inv sha1 cfg f0 (n_sto n).
Proof using ok unt loaded. intros N. eapply sto_inv'; eassumption. Qed.
Lemma failed_keep k n n' ev e es : ninv n ev -> nstep sha1 cfg env hash id blank n n' e -> failed_at k (n_sto n) es -> failed_at k (n_sto n') (es ++ sto_events e).
Proof using ok unt loaded.
  intros N H F. destruct (nstep_sto _ _ _ H) as [[-> ->]|(l & E & _)]; [now rewrite app_nil_r|]. eapply failed_step; [exact ok| |exact F|exact E].
  eapply sto_inv'; eassumption.
Qed.
Lemma ext_stored n n' ev e i : ninv n ev -> nstep sha1 cfg env hash id blank n n' e -> on_disk cfg (disk n) i <> None -> 0 <= i < np -> on_disk cfg (disk n') i <> None.
Proof using ok unt loaded.
  intros N H S K. destruct (nstep_sto _ _ _ H) as [[E _]|(l & E & _)]; [unfold disk; now rewrite E|]. assert (exists ls, execs (Dead f0 tick0) ls = Some (n_sto n, es0 ++ sto_events ev)) as [ls R] by (eapply sto_inv; eassumption).
  destruct (on_disk cfg (disk n) i) as [b|] eqn:Q; [|congruence]. destruct (durable sha1 cfg env ok f0 tick0 ls (n_sto n) _ [l] (n_sto n') (sto_events e) unt R) as [D _].
  { cbn [StorageSys.execs]. rewrite E. now rewrite app_nil_r. }
  unfold disk. rewrite (D i b K Q). discriminate.
Qed.
Lemma server_run n ev : ninv n ev -> exists l, P2PServerSpec.run_of hash id np (t_bitfield (w_mem w0)) l (n_srv n) (srv_events ev).
Proof using ok unt loaded isblank.
  intros N. destruct (i_srv _ _ _ _ _ _ _ _ _ N) as [l R]. exists l, blank. split; [exact isblank|]. split; [exact (bits_len _ _ _ inv0)|exact R].
Qed.
Lemma announced_out n ev p i : ninv n ev -> P2PServerSpec.announced (srv_events ev) p i -> np <= i -> exists q m, received ev q m /\ out_of_range cfg m.
Proof.
  intros N (m & R & A) K. apply in_srv in R. exists p, m. split; [exact R|]. destruct A as [[A <-]|[A B]]; [left; auto|right; left; eauto].
Qed.
Lemma asked_range n ev p i : ninv n ev -> In (NEv (P2PServer.EvRequest p i)) ev -> 0 <= i /\ (i < np \/ exists q m, received ev q m /\ out_of_range cfg m).
Proof using ok unt loaded isblank.
  intros N Q. destruct (server_run _ _ N) as [l R]. apply in_srv in Q. apply in_split in Q as (e1 & e2 & Q). pose proof (P2PServerThms.requests_chosen _ _ _ _ _ _ _ _ _ _ _ R Q) as (g1 & g2 & -> & _ & A & _).
  assert (0 <= i) as K.
  { destruct A as (m & AI & [[_ <-]|[_ B]]); [|exact (P2PAnnounceProofs.member_nonneg _ _ B)].
    destruct R as (bl & _ & _ & R). assert (In (P2PServer.EvReceived p m) (srv_events ev)) as IN by (rewrite Q; apply in_or_app; left; apply in_or_app; now left).
    clear - R IN. exact (NodeServerProofs.received_index _ _ _ _ _ _ _ _ _ R IN). }
  split; [exact K|]. destruct (Z.lt_ge_cases i np) as [Lt|Ge]; [now left|]. right. apply (announced_out n ev p i); [exact N| |exact Ge].
  destruct A as (m & A & B). exists m. split; [|exact B]. rewrite Q. apply in_or_app. left. apply in_or_app. now left.
Qed.
(** What made the program crash. *)
Lemma crash_cause n ev n' e : ninv n ev -> more n ev -> P2PServer.s_crashed (n_srv n) = false -> nstep sha1 cfg env hash id blank n n' e ->
  P2PServer.s_crashed (n_srv n') = true -> cause cfg n' (ev ++ e) /\ P2PServer.s_have (n_srv n') = P2PServer.s_have (n_srv n).
Proof using ok unt loaded isblank.
  intros N M C H C'. pose proof (i_live _ _ _ _ _ _ _ _ _ N C) as L. destruct (l_run _ _ L) as (w & ts & ST & HB). destruct (server_run _ _ N) as [l R].
  assert (OUT : forall p m, received ev p m -> out_of_range cfg m -> cause cfg n' (ev ++ e)) by (intros p m A B; right; left; exists p, m; split; [now apply received_more|exact B]).
  assert (ASKED : forall p i, In (NEv (P2PServer.EvRequest p i)) ev -> (0 <= i < np -> cause cfg n' (ev ++ e)) -> cause cfg n' (ev ++ e)).
  { intros p i A B. destruct (asked_range _ _ _ _ N A) as [K [K'|(q & m & X & Y)]]; [apply B; lia|exact (OUT _ _ X Y)]. }
  destruct H as [a1 s e F E|t c w1 ts1 A S1|t j f k s e J X E|t j w' ts' J X|t j w' ts' c r jb J X KP|t j w' ts' c r s e J X KP E|t d0 p0 m0 s e J T0 M0 E|t d0 p0 m0 s e J T0 M0 E]; cbn [n_srv n_sto] in *; try congruence.
  - destruct (NodeServerProofs.crash_frame _ _ _ _ _ _ _ E C') as [(t & -> & th & T & A)|[(t & p & i & rest & q & -> & T & Q & B)|(t & p & i & rest & -> & T & B)]].
    + destruct A as [A|(p & -> & ->)]; [exfalso; cbn in F; rewrite T in F; destruct th as [| |p []| |p i []| | | |]; discriminate|].
      split; [left; exists p; apply in_or_app; right; now left|eapply NodeServerProofs.have_same; [exact E|congruence]].
    + split; [|eapply NodeServerProofs.have_same; [exact E|congruence]]. pose proof (P2PServerThms.run_inv _ _ _ _ _ _ _ R) as IV. destruct R as (bl & Bl & _ & R). assert (bl = blank) as -> by congruence.
      destruct (P2PAnnounceProofs.run_events _ _ _ _ (P2PServerThms.blank_empty np _ isblank) _ _ _ R) as ((_ & AN) & _). apply nth_error_In in T.
      pose proof (AN _ T i (or_introl eq_refl)) as AI. pose proof (P2PServerThms.v_nonneg _ _ _ IV _ T i (or_introl eq_refl)) as NN.
      apply bf_add_domain, bf_has_domain in B. rewrite (proj1 (proj2 (m_lens _ _ M)) _ _ Q) in B. pose proof blank_len.
      destruct (announced_out _ _ _ _ N AI) as (p' & m & A & B'); [lia|exact (OUT _ _ A B')].
    + exfalso. apply nth_error_In in T. destruct (m_lens _ _ M) as (L1 & _ & L3). specialize (L3 _ _ _ (or_intror T)). apply bf_has_domain in B. rewrite L1 in B. pose proof blank_len. destruct B as [B|[B|[_ B]]]; try lia. rewrite B in L1. change (zlen []) with 0 in L1. destruct ok as (_ & ok2 & _). lia.
  - split; [|eapply NodeServerProofs.have_same; [exact E|congruence]].
    assert (exists ls, execs (Dead f0 tick0) ls = Some (n_sto n, es0 ++ sto_events ev)) as [ls RS] by (eapply sto_inv; eassumption).
    destruct (jobs_call _ _ _ _ _ _ L J ST) as (th & st & T & Q & D & K). rewrite ST in X, RS. pose proof (panic_only sha1 cfg env ok _ _ _ _ _ _ _ _ _ _ _ unt RS Q X) as PR.
    destruct (exec_ok sha1 cfg env ok _ _ _ _ _ (execs_inv sha1 cfg env ok _ _ _ _ _ unt RS) X) as (_ & EX & _). cbn [disk_of] in EX.
    destruct (calls_inv _ _ _ K) as [(p & x & -> & MX & Y)|[(p & i' & x & -> & MX & Y)|(p & i' & -> & Y)]].
    + rewrite Y in PR. destruct (l_msgs _ _ L _ _ _ T eq_refl) as (m & G & A & W & RC). assert (m = x) as -> by congruence. unfold on_wire in W. cbn in PR.
      apply (OUT p x RC). right. right. left. split; [exact A|]. destruct PR as [PR|PR]; [lia|]. unfold make_ok in PR. assert (2 ^ 32 <= max_alloc) by (unfold max_alloc; lia). lia.
    + rewrite Y in PR. destruct (l_msgs _ _ L _ _ _ T eq_refl) as (m & G & [A1 A2] & W & RC). assert (m = x) as -> by congruence. unfold on_wire in W. cbn in PR.
      apply (OUT p x RC). right. right. right. split; [exact A1|]. lia.
    + pose proof (l_asks _ _ L _ _ _ T) as AS. apply (ASKED _ _ AS). clear AS. intros KI. destruct Y as [Y|Y]; rewrite Y in PR; cbn in PR; [|lia]. destruct PR as [PR|PR]; [lia|]. right. right.
      destruct (m_reset _ _ M C _ _ _ T) as [[PP|(j' & w1 & ts1 & st' & PP & S1 & Q1 & W1)]|(ev1 & ev2 & EV & NRS)]; [congruence|exfalso; assert (j' = j) as -> by congruence; rewrite ST in S1; injection S1 as <- <-; congruence|].
      exists p, i', ev1, (ev2 ++ map NEv e). split; [rewrite EV, <- app_assoc; reflexivity|]. split.
      { intros u r IN. apply in_app_or in IN as [IN|IN]; [exact (NRS _ _ IN)|]. apply in_map_iff in IN as (z & Z & _). discriminate Z. }
      split; [exact KI|].
      destruct PR as (pc & v & P & V). pose proof (m_failed _ _ M) as FA. rewrite ST in FA. destruct v as [e1|].
      * right. destruct (FA _ _ _ P V) as (FT & b & d & I). apply in_sto in I as [t' I]. rewrite Z2Nat.id in I by lia. exists t', b, d, e1. split; [|exact FT]. apply in_or_app. now left.
      * left. pose proof (execs_inv sha1 cfg env ok _ _ _ _ _ unt RS) as (_ & ((_ & MP & _) & MA & _) & _). destruct (MP _ _ P) as (_ & _ & _ & _ & _ & P6 & P7 & P8 & P9). rewrite Z2Nat.id in * by lia.
        assert (pc_coalesced pc = true) as CO.
        { destruct (pc_coalesced pc); [reflexivity|]. exfalso. destruct (piece_locked i' ts) eqn:PL; [rewrite P8 in V by auto; discriminate|].
          destruct (StorageProofs.full_dec sha1 cfg env ok pc) as [FU|FU]; [destruct (P9 eq_refl FU eq_refl) as [e1 V1]; congruence|]. rewrite P8 in V; [discriminate|reflexivity|]. intros FU'. contradiction. }
        apply (MA _ _ P) in CO. rewrite Z2Nat.id in CO by lia. change (on_disk cfg f i' <> None). destruct (on_disk cfg (w_fs w) i') as [bb|] eqn:OD; [|congruence]. rewrite (proj1 EX _ _ KI OD). discriminate.
  - exfalso. destruct (jobs_call _ _ _ _ _ _ L J ST) as (th & st & T & Q & D & K). destruct (NodeServerProofs.crash_frame _ _ _ _ _ _ _ E C') as [(t1 & A & _)|[(t1 & p & i & rest & q & A & T1 & _)|(t1 & p & i & rest & A & T1 & _)]].
    + injection A as _ A. revert A. apply answer_panic.
    + injection A as <- _. rewrite T in T1. injection T1 as ->. destruct (calls_inv _ _ _ K) as [(p' & x & Z & _)|[(p' & i' & x & Z & _)|(p' & i' & Z & _)]]; discriminate Z.
    + injection A as <- _. rewrite T in T1. injection T1 as ->. destruct (calls_inv _ _ _ K) as [(p' & x & Z & _)|[(p' & i' & x & Z & _)|(p' & i' & Z & _)]]; discriminate Z.
  - exfalso. destruct (NodeServerProofs.crash_frame _ _ _ _ _ _ _ E C') as [(t1 & A & _)|[(t1 & p & i & rest & q & A & T1 & _)|(t1 & p & i & rest & A & T1 & _)]]; [discriminate A|injection A as <-; congruence|injection A as <-; congruence].
  - exfalso. destruct (NodeServerProofs.crash_frame _ _ _ _ _ _ _ E C') as [(t1 & A & _)|[(t1 & p & i & rest & q & A & T1 & _)|(t1 & p & i & rest & A & T1 & _)]]; [discriminate A|injection A as <-; congruence|injection A as <-; congruence].
Qed.
(** A reset returned in the goroutine that asks for the piece. *)
Lemma reset_by n ev n' t1 i' r : ninv n ev -> P2PServer.s_crashed (n_srv n) = false -> nstep sha1 cfg env hash id blank n n' [NRet t1 (CReset i') r] ->
  exists p, nth_error (P2PServer.s_threads (n_srv n)) t1 = Some (P2PServer.TPiece p i' P2PServer.PRun) /\ mget Nat.eqb t1 (n_jobs n') = Some JReset.
Proof.
  intros N C H. pose proof (i_live _ _ _ _ _ _ _ _ _ N C) as L. destruct (l_run _ _ L) as (w & ts & ST & _). remember [NRet t1 (CReset i') r] as e0 eqn:E0. destruct H as [a1 s e F E|t c w1 ts1 A S1|t j f k s e J X E|t j w' ts' J X|t j w' ts' c r1 jb J X KP|t j w' ts' c r1 s e J X KP E|t d0 p0 m0 s e J T0 M0 E|t d0 p0 m0 s e J T0 M0 E]; try discriminate E0.
  - destruct e; discriminate E0.
  - destruct e; discriminate E0.
  - injection E0 as -> -> ->. destruct (jobs_call _ _ _ _ _ _ L J ST) as (th & st & TT & Q & _ & K). rewrite ST in X. rewrite <- (ret_call _ _ _ _ _ _ _ _ X Q) in K. injection KP as <-. cbn [n_jobs]. rewrite P2PServerProofs.mget_put, Nat.eqb_refl.
    destruct (calls_inv _ _ _ K) as [(p & m & _ & _ & Z)|[(p & i & m & _ & _ & Z)|(p & i & -> & [Z|Z])]]; try discriminate Z. injection Z as <-. eauto.
  - injection E0 as -> -> _ _. discriminate KP.
  - destruct e; discriminate E0.
Qed.
Lemma more_step n ev a n' e : ninv n ev -> more n ev -> nexec n a = Some (n', e) -> more n' (ev ++ e).
Proof using ok unt loaded isblank.
  intros N M X. assert (N' : ninv n' (ev ++ e)) by (eapply ninv_step; eassumption). apply nexec_nstep in X as [C H]. pose proof (i_live _ _ _ _ _ _ _ _ _ N C) as L.
  assert (SI : inv sha1 cfg f0 (n_sto n)) by exact (sto_good _ _ N). assert (SI' : inv sha1 cfg f0 (n_sto n')) by exact (sto_good _ _ N').
  pose proof (nstep_sto _ _ _ H) as HS. pose proof (nstep_srv _ _ _ H) as HV.
  constructor.
  - destruct HV as [[-> _]|[a1 E]]; [exact (m_lens _ _ M)|]. eapply NodeServerProofs.lens_step; [exact (m_lens _ _ M)|exact E].
  - destruct (P2PServer.s_crashed (n_srv n')) eqn:C'.
    + destruct (crash_cause _ _ _ _ N M C H C') as [_ ->]. intros i B. destruct (m_have _ _ M i B) as [K S]. split; [exact K|]. exact (ext_stored _ _ _ _ _ N H S K).
    + destruct (l_run _ _ (i_live _ _ _ _ _ _ _ _ _ N' C')) as (w & ts & ST & ->). intros i B. unfold stored, disk. rewrite ST in *. exact (proj1 (bitfield_exact sha1 cfg env ok _ _ _ SI' i) B).
  - destruct HS as [[-> _]|(l & E & _)]; [exact (m_wait _ _ M)|]. eapply waiting_step; [exact ok|exact SI|exact (m_wait _ _ M)|exact E].
  - intros k. rewrite sto_events_app. eapply failed_keep; [exact N|exact H|exact (m_failed _ _ M k)].
  - intros C' t k b d x g h I. destruct (l_run _ _ (i_live _ _ _ _ _ _ _ _ _ N' C')) as (w' & ts' & ST' & _). apply in_app_or in I as [I|I].
    + pose proof (m_broken _ _ M C _ _ _ _ _ _ _ I) as B. destruct HS as [[-> _]|(l & E & _)]; [exact B|]. pose proof (broken_step sha1 cfg env ok _ _ _ _ _ _ SI B E) as B'. now rewrite ST' in *.
    + destruct (l_run _ _ L) as (w & ts & ST & _). assert (I' : In (Ret (CPut k b d) (RErr (EChecksum x g h))) (sto_events e)) by (apply in_sto; eauto).
      destruct HS as [[_ HS]|(l & E & _)]; [rewrite HS in I'; destruct I'|]. rewrite ST in E, SI. destruct l as [c|j| |j y| |]; try discriminate E.
      * injection E as E1 E2. rewrite <- E2 in I'. destruct I'.
      * eapply checksum_breaks; [exact ok|exact SI|exact E|exact I'].
      * injection E as E1 E2. congruence.
      * cbn in E. destruct (nth_error ts j); [|discriminate]. destruct (next _ _ _ _ _ _); [|discriminate]. unfold crash_at, option_map in E. destruct (nth_error (w_past _) _); [|discriminate E]. injection E as E1 E2. congruence.
  - intros C' t p i T P. destruct (past_frame _ _ _ _ _ _ _ L H C' T P) as [T0 [P0|(j & w & ts & w' & ts' & i' & r & J & ST & E & ST')]].
    + destruct (m_asks _ _ M C _ _ _ T0 P0) as (ev1 & ev2 & -> & A & F). exists ev1, (ev2 ++ e). split; [now rewrite app_assoc|]. split; [exact A|]. rewrite sto_events_app. eapply failed_keep; [exact N|exact H|exact F].
    + exists (ev ++ e), []. split; [now rewrite app_nil_r|]. split; [apply in_or_app; left; exact (l_asks _ _ L _ _ _ T0)|]. rewrite ST'. rewrite ST in SI.
      assert (i' = i) as ->; [|exact (proj2 (reset_fresh sha1 cfg env ok _ _ _ _ _ _ _ _ SI E))].
      destruct (jobs_call _ _ _ _ _ _ L J ST) as (th & st & T1 & Q & _ & K). apply step_shape in E as (st' & o & Q' & _ & E). assert (st' = st) as -> by congruence.
      destruct o as [w2 q|w2]; [|destruct E; discriminate]. destruct E as [_ EV]. symmetry in EV. apply events_done in EV as (r' & _ & EV). injection EV as EV _. rewrite <- EV in K. rewrite T0 in T1. injection T1 as <-.
      destruct (calls_inv _ _ _ K) as [(p' & x & Z & _)|[(p' & i1 & x & Z & _)|(p' & i1 & Z & [Y|Y])]]; try discriminate Z; [|discriminate Y]. injection Z as _ ->. now injection Y.
  - intros t p i T. assert (OLD : nth_error (P2PServer.s_threads (n_srv n)) t = Some (P2PServer.TPiece p i P2PServer.PBlock) -> blamed (ev ++ e) p i) by (intros T0; apply blamed_more; exact (m_block _ _ M _ _ _ T0)).
    destruct H as [a1 s e F E|t1 c w1 ts1 A S1|t1 j f k s e J X E|t1 j w' ts' J X|t1 j w' ts' c r jb J X KP|t1 j w' ts' c r s e J X KP E|t1 d0 p0 m0 s e J T0 M0 E|t1 d0 p0 m0 s e J T0 M0 E]; cbn [n_srv n_sto] in *; try (now apply OLD).
    + destruct (NodeServerProofs.block_frame _ _ _ _ _ _ _ _ _ _ E T) as [T0|[-> T0]]; [now apply OLD|]. exfalso. cbn in F. rewrite T0 in F. destruct (mget Nat.eqb t (n_jobs n)) as [[| |]|]; discriminate F.
    + destruct (NodeServerProofs.block_frame _ _ _ _ _ _ _ _ _ _ E T) as [T0|[Z T0]]; [now apply OLD|discriminate Z].
    + destruct (NodeServerProofs.block_frame _ _ _ _ _ _ _ _ _ _ E T) as [T0|[Z T0]]; [now apply OLD|]. injection Z as -> AN. destruct (l_run _ _ L) as (w & ts & ST & _).
      destruct (jobs_call _ _ _ _ _ _ L J ST) as (th & st & T1 & Q & _ & K). rewrite T0 in T1. injection T1 as <-. pose proof X as X0. rewrite ST in X0. apply step_shape in X0 as (st' & o & Q' & _ & X1). assert (st' = st) as -> by congruence.
      destruct o as [w2 q|w2]; [|destruct X1; discriminate]. destruct X1 as [_ EV]. symmetry in EV. apply events_done in EV as (r' & _ & EV). injection EV as EV _. rewrite <- EV in K.
      destruct (calls_inv _ _ _ K) as [(p' & x & Z & _)|[(p' & i1 & x & Z & _)|(p' & i1 & Z & [Y|Y])]]; try discriminate Z; [rewrite Y in KP; discriminate KP|]. injection Z as _ <-. subst c.
      assert (past_reset n t i) as PR by (right; exists j, w, ts, st; auto). destruct (m_asks _ _ M C _ _ _ T0 PR) as (ev1 & ev2 & -> & A & FA).
      assert (exists x g h, r = RErr (EChecksum x g h)) as (x & g & h & ->) by (unfold answer in AN; P2PServerProofs.brk AN; eauto).
      rewrite Y in X. destruct (wait_error sha1 cfg env ok _ _ _ _ _ _ _ _ SI (m_wait _ _ M) FA X (or_introl eq_refl)) as [Z|(b & d & I)]; [discriminate Z|]. apply in_sto in I as [t' I].
      eapply blamed_more. exists ev1, ev2, t', b, d, x, g, h. auto.
    + destruct (NodeServerProofs.block_frame _ _ _ _ _ _ _ _ _ _ E T) as [T1|[Z _]]; [now apply OLD|discriminate Z].
    + destruct (NodeServerProofs.block_frame _ _ _ _ _ _ _ _ _ _ E T) as [T1|[Z _]]; [now apply OLD|discriminate Z].
  - intros p I. apply in_app_or in I as [I|I]; [destruct (m_blocked _ _ M _ I) as [i B]; exists i; now apply blamed_more|].
    apply in_srv in I. destruct HV as [[_ HV]|[a1 E]]; [rewrite HV in I; destruct I|]. destruct (NodeServerProofs.blocked_frame _ _ _ _ _ _ _ _ E I) as (t & i & T). exists i. apply blamed_more. exact (m_block _ _ M _ _ _ T).
  - intros C'. exact (proj1 (crash_cause _ _ _ _ N M C H C')).
  - intros C' t p i T'.
    assert (DI : (exists t1 i' r, e = [NRet t1 (CReset i') r]) \/ (forall u r, ~ In (NRet u (CReset i) r) e)).
    { destruct H as [a1 s e F E|t1 c w1 ts1 A S1|t1 j f k s e J X E|t1 j w' ts' J X|t1 j w' ts' c r jb J X KP|t1 j w' ts' c r s e J X KP E|t1 d0 p0 m0 s e J T0 M0 E|t1 d0 p0 m0 s e J T0 M0 E]; try (right; intros u r0 IN; apply in_map_iff in IN as (z & Z & _); discriminate Z); try (right; intros ? ? []; fail).
      - unfold kept in KP. destruct c; try discriminate KP; [destruct r; try discriminate KP; right; intros u r0 [IN|[]]; discriminate IN|left; eauto].
      - right. intros u r0 [IN|IN]; [injection IN as _ -> _; discriminate KP|apply in_map_iff in IN as (z & Z & _); discriminate Z].
      - right. intros u r0 [IN|IN]; [discriminate IN|apply in_map_iff in IN as (z & Z & _); discriminate Z]. }
    assert (OLD : nth_error (P2PServer.s_threads (n_srv n)) t = Some (P2PServer.TPiece p i P2PServer.PRun) -> past_reset n' t i \/ exists ev1 ev2, ev ++ e = ev1 ++ NEv (P2PServer.EvRequest p i) :: ev2 /\ forall u r, ~ In (NRet u (CReset i) r) ev2).
    { intros T. destruct (m_reset _ _ M C _ _ _ T) as [P|(ev1 & ev2 & -> & NRS)]; [left; eapply past_persists; eassumption|].
      destruct DI as [(t1 & i' & r & ->)|NO].
      - destruct (reset_by _ _ _ _ _ _ N C H) as (p1 & T1 & J1). destruct (Z.eq_dec i' i) as [->|NI].
        + left. left. assert (t1 = t) as ->; [|exact J1]. destruct (Nat.eq_dec t1 t) as [E|E]; [exact E|]. exfalso. destruct (server_run _ _ N) as [l R]. pose proof (P2PServerThms.piece_requesters _ _ _ _ _ _ _ i R) as PR. pose proof (P2PServerThms.run_inv _ _ _ _ _ _ _ R) as IV. rewrite (P2PServerThms.v_piece _ _ _ IV) in PR.
          pose proof (P2PServerProofs.tsum_ge2 (P2PServerProofs.asking_piece i) _ _ _ _ _ ltac:(intros [| |? []|? []|? ? []|? []| | |]; cbn; try lia; apply P2PServerProofs.one_range) T1 T E) as G. cbn in G. rewrite Z.eqb_refl in G. cbn in G. lia.
        + right. exists ev1, (ev2 ++ [NRet t1 (CReset i') r]). rewrite <- app_assoc. split; [reflexivity|]. intros u r0 IN. apply in_app_or in IN as [IN|[IN|[]]]; [exact (NRS _ _ IN)|]. injection IN as _ IN _. congruence.
      - right. exists ev1, (ev2 ++ e). rewrite <- app_assoc. split; [reflexivity|]. intros u r0 IN. apply in_app_or in IN as [IN|IN]; [exact (NRS _ _ IN)|exact (NO _ _ IN)]. }
    destruct HV as [[HV _]|[a1 E]]; [rewrite HV in T'; exact (OLD T')|].
    destruct (NodeServerProofs.at_storage_frame _ _ _ _ _ _ _ _ _ E C' T' eq_refl) as [[T _]|[(p' & m & h & X & _)|(p' & i' & X & _ & IN)]]; [exact (OLD T)|discriminate X|]. injection X as <- <-.
    right. apply in_srv in IN. destruct DI as [(t1 & i' & r & ->)|NO]; [destruct IN as [IN|[]]; discriminate IN|]. apply in_split in IN as (e1 & e2 & ->).
    exists (ev ++ e1), e2. rewrite <- app_assoc. split; [reflexivity|]. intros u r IN. apply (NO u r). apply in_or_app. right. now right.
Qed.
Lemma nruns_more l n ev : nruns (nstart (Running w0 [])) l = Some (n, ev) -> ninv n ev /\ more n ev.
Proof using ok unt loaded isblank.
  apply (nruns_ind sha1 cfg env hash id blank (fun n ev => ninv n ev /\ more n ev)).
  - split; [apply ninv_start|apply more_start].
  - intros n1 ev1 a n2 e [N M] X. split; [eapply ninv_step; eassumption|eapply more_step; eassumption].
Qed.

(** The composition adds no obstacle: a goroutine at a call can make it, and goes on with
    whatever the storage returns. *)
Lemma node_calls n ev t c : ninv n ev -> P2PServer.s_crashed (n_srv n) = false -> at_call n t = Some c -> exists n', nexec n (NCall t) = Some (n', []).
Proof.
  intros N C A. destruct (l_run _ _ (i_live _ _ _ _ _ _ _ _ _ N C)) as (w & ts & ST & _). unfold Node.nexec. rewrite C, A, ST. cbn. eauto.
Qed.
Lemma node_steps n ev t j x : ninv n ev -> more n ev -> P2PServer.s_crashed (n_srv n) = false -> mget Nat.eqb t (n_jobs n) = Some (JCall j) ->
  exec (n_sto n) (LStep j) = Some x -> nexec n (NStep t) <> None.
Proof using ok unt loaded isblank.
  intros N M C J X. pose proof (i_live _ _ _ _ _ _ _ _ _ N C) as L. destruct (l_run _ _ L) as (w & ts & ST & HB). destruct (jobs_call _ _ _ _ _ _ L J ST) as (th & st & T & Q & D & K).
  destruct (server_run _ _ N) as [l R]. pose proof (P2PServerThms.run_inv _ _ _ _ _ _ _ R) as IV.
  assert (RG : forall p, P2PLockProofs.names_peer th p -> (p < List.length (P2PServer.s_peers (n_srv n)))%nat) by (intros p NP; exact (P2PServerThms.v_range _ _ _ IV _ _ (nth_error_In _ _ T) NP)).
  pose proof (sto_good _ _ N) as SI. rewrite ST in SI, X. destruct x as [p es].
  assert (SV : forall sto a e0, sexec (n_srv n) a <> None -> serve hash id blank n sto a e0 <> None) by (intros sto a e0 G; unfold serve; destruct (sexec (n_srv n) a) as [[? ?]|]; [discriminate|congruence]).
  unfold Node.nexec. rewrite C, J, ST, X. destruct (exec_ok sha1 cfg env ok _ _ _ _ _ SI X) as (SI' & EX & FO & _).
  destruct p as [w' ts'|f tk].
  2:{ apply SV. destruct (calls_inv _ _ _ K) as [(p & m & -> & _)|[(p & i & m & -> & _)|(p & i & -> & _)]].
      - exact (NodeServerProofs.handler_goes _ _ _ _ _ p P2PServer.HRequest C (RG _ eq_refl) T P2PServer.CPanic ltac:(cbn; tauto)).
      - exact (NodeServerProofs.handler_goes _ _ _ _ _ p (P2PServer.HPiece i) C (RG _ eq_refl) T P2PServer.CPanic ltac:(cbn; tauto)).
      - apply (NodeServerProofs.piece_goes _ _ _ _ _ p i); auto. apply RG. reflexivity. left. cbn. tauto. }
  pose proof X as X0. apply step_shape in X0 as (st' & o & Q' & _ & X1). assert (st' = st) as -> by congruence. destruct o as [w2 q|w2]; [|destruct X1; discriminate]. destruct X1 as [X1 X2].
  destruct es as [|[c r] es']; [discriminate|]. assert (es' = []) as -> by (destruct q; cbn in X2; try discriminate X2; now injection X2). symmetry in X2. apply events_done in X2 as (r' & _ & X2). injection X2 as -> <-.
  pose proof (step_bits sha1 cfg env ok _ _ _ _ _ _ _ _ SI X Q) as SB. pose proof (Forall_inv FO) as FO1.
  destruct (calls_inv _ _ _ K) as [(p & m & -> & _ & Y)|[(p & i & m & -> & MX & Y)|(p & i & -> & Y)]].
  - rewrite Y. pose proof (NodeServerProofs.handler_goes hash id blank _ _ p P2PServer.HRequest C (RG _ eq_refl) T) as G. destruct r; cbn [kept]; [|discriminate|]; apply SV; apply G; cbn; tauto.
  - rewrite Y. cbn [kept]. apply SV. pose proof (NodeServerProofs.handler_goes hash id blank _ _ p (P2PServer.HPiece i) C (RG _ eq_refl) T) as G. cbn [answer bits].
    destruct (bytes_eqb (t_bitfield (w_mem w)) (t_bitfield (w_mem w'))) eqn:BE; [destruct r as [|d|[]]; apply G; cbn; tauto|].
    destruct SB as [SB|(k0 & b & d & r0 & Y1 & _ & _ & B)]; [rewrite SB in BE; rewrite (proj2 (bytes_eqb_eq _ _) eq_refl) in BE; discriminate BE|].
    rewrite Y in Y1. injection Y1 as Y1 _ _. destruct (l_msgs _ _ L _ _ _ T eq_refl) as (m' & G' & [_ A2] & _). assert (m' = m) as -> by congruence. rewrite <- HB in B.
    apply (NodeServerProofs.stored_goes _ _ _ _ _ p i _ (t_bitfield (w_mem w'))); auto; [exact (RG _ eq_refl)|]. congruence.
  - destruct Y as [Y|Y]; rewrite Y; [discriminate|]. cbn [kept]. apply SV. apply (NodeServerProofs.piece_goes _ _ _ _ _ p i); auto; [exact (RG _ eq_refl)|].
    rewrite Y in *. destruct r as [|d|[]]; cbn; try tauto. right. split; [reflexivity|]. cbn in FO1. apply (bitfield_exact sha1 cfg env ok _ _ _ SI') in FO1.
    destruct SB as [SB|(k0 & b & d & r0 & Y1 & _)]; [|discriminate Y1]. rewrite HB, <- SB. exact FO1.
Qed.
Lemma node_writes n ev t d k : ninv n ev -> P2PServer.s_crashed (n_srv n) = false -> mget Nat.eqb t (n_jobs n) = Some (JBlock d) -> nexec n (NWrite t k) <> None.
Proof using ok unt loaded isblank.
  intros N C J. pose proof (i_live _ _ _ _ _ _ _ _ _ N C) as L. destruct (l_jobs _ _ L _ _ J) as (th & T & p & ->).
  destruct (l_msgs _ _ L _ _ _ T eq_refl) as (m & G & _). destruct (server_run _ _ N) as [l R].
  pose proof (P2PServerThms.v_range _ _ _ (P2PServerThms.run_inv _ _ _ _ _ _ _ R) _ p (nth_error_In _ _ T) eq_refl) as RG.
  assert (SV : forall sto a e0, sexec (n_srv n) a <> None -> serve hash id blank n sto a e0 <> None) by (intros sto a e0 S; unfold serve; destruct (sexec (n_srv n) a) as [[? ?]|]; [discriminate|congruence]).
  unfold Node.nexec. rewrite C, J, T, G. destruct k; apply SV; apply (NodeServerProofs.handler_goes hash id blank _ _ p P2PServer.HRequest C RG T); cbn; tauto.
Qed.
End Thms.

(** * The theorems *)
Section Final.
Variable sha1 : bytes -> bytes.
Variable cfg : config.
Variable env : nat -> Fs.choice.
Variable hash id : bytes.
Notation node_run := (node_run sha1 cfg env hash id).
Notation np := (num_pieces (c_info cfg)).
Hypothesis ok : config_ok cfg.

Lemma open_run f l n ev : node_run f l n ev -> untouched cfg f /\ exists tick ls w es blank,
  execs sha1 cfg env (Dead f tick) ls = Some (Running w [], es) /\ bf_new np = Some blank /\ ninv sha1 cfg env hash id blank w n ev /\ more cfg blank n ev.
Proof using ok.
  intros (U & tick & ls & w & es & blank & E & B & R). split; [exact U|]. exists tick, ls, w, es, blank. split; [exact E|]. split; [exact B|]. exact (nruns_more sha1 cfg env hash id blank ok f tick ls w es U E B l n ev R).
Qed.
Lemma run_storage f l n ev : node_run f l n ev -> untouched cfg f /\ exists tick ls es, execs sha1 cfg env (Dead f tick) ls = Some (n_sto n, es ++ sto_events ev).
Proof using ok.
  intros R. apply open_run in R as (U & tick & ls & w & es & blank & E & B & N & M). split; [exact U|]. exists tick.
  assert (exists ls', execs sha1 cfg env (Dead f tick) ls' = Some (n_sto n, es ++ sto_events ev)) as [ls' X] by (eapply sto_inv; eassumption). eauto.
Qed.
Theorem crash_causes f l n ev : node_run f l n ev -> crashed n = true -> cause cfg n ev.
Proof using ok. intros R C. apply open_run in R as (_ & _ & _ & _ & _ & blank & _ & _ & _ & M). exact (m_crash _ _ _ _ M C). Qed.
Theorem blocked_after f l n ev p : node_run f l n ev -> In (NEv (P2PServer.EvBlocked p)) ev ->
  exists i, blamed ev p i /\ exists q m t x g h, received ev q m /\ m_type m = PIECE /\ m_index m = i /\ In (NRet t (CPut i (m_begin m) (m_piece m)) (RErr (EChecksum x g h))) ev.
Proof using ok.
  intros R B. apply open_run in R as (U0 & tick0 & ls0 & w0 & es0 & blank & E0 & B0 & N & M). destruct (m_blocked _ _ _ _ M _ B) as (i & BL). exists i. split; [exact BL|].
  destruct BL as (ev1 & ev2 & t & b & d & x & g & h & E & _ & I). assert (In (NRet t (CPut i b d) (RErr (EChecksum x g h))) ev) as I' by (rewrite E; apply in_or_app; now right).
  destruct (i_rets _ _ _ _ _ _ _ _ _ N _ I') as (q & m & Rc & T & _ & -> & -> & ->). exists q, m, t, x, g, h. auto.
Qed.
Theorem uploads f l n ev p x : node_run f l n ev -> In (NServed p x) ev ->
  exists m d, received ev p m /\ m_type m = REQUEST /\ x = mk_piece (m_index m) (m_begin m) d /\ zlen d = m_length m /\
    (in_piece cfg (m_index m) (m_begin m) (m_length m) ->
       exists c, on_disk cfg (disk n) (m_index m) = Some c /\ verified sha1 cfg (m_index m) c /\ d = slice c (m_begin m) (m_length m)) /\
    (d = [] \/ (exists c s, whole sha1 cfg c /\ 0 <= s /\ s + m_length m <= zlen c /\ d = slice c s (m_length m)) \/
     (exists c, 0 <= m_index m < np /\ verified sha1 cfg (m_index m) c /\ 0 <= m_begin m /\ m_begin m + m_length m <= zlen c /\ d = slice c (m_begin m) (m_length m))).
Proof using ok.
  intros R I. pose proof R as R0. apply open_run in R as (U0 & tick0 & ls0 & w0 & es0 & blank & E0 & B0 & N & M). destruct (i_rets _ _ _ _ _ _ _ _ _ N _ I) as (t & m & d & Rc & T & _ & G & ->).
  destruct (run_storage _ _ _ _ R0) as (U & tick & ls & es & E). assert (In (Ret (CGet (m_index m) (m_begin m) (m_length m)) (RBlock d)) (es ++ sto_events ev)) as G' by (apply in_or_app; right; apply in_sto; eauto).
  exists m, d. do 3 (split; [auto|]). destruct (served_verified sha1 cfg env ok _ _ _ _ _ _ _ _ _ U E G') as [Z V]. split; [exact Z|]. split; [|exact V].
  intros IP. exact (served_range sha1 cfg env ok _ _ _ _ _ _ _ _ _ U E G' IP).
Qed.
Theorem advertised_verified f l n ev p m i : node_run f l n ev -> In (NEv (P2PServer.EvSent p m)) ev -> 0 <= i -> P2PServerSpec.announces_piece m i ->
  i < np /\ exists c, on_disk cfg (disk n) i = Some c /\ verified sha1 cfg i c.
Proof using ok.
  intros R I K A. destruct (run_storage _ _ _ _ R) as (U' & tick' & ls' & es' & E'). pose proof R as R0. apply open_run in R as (U & tick & ls & w & es & blank & E & B & N & M).
  destruct (server_run sha1 cfg env hash id blank ok f tick ls w es U E B n ev N) as [l' R]. apply in_srv, in_split in I as (e1 & e2 & I).
  destruct (P2PServerThms.announcements _ _ _ _ _ _ _ _ _ _ _ R I) as [AN _]. specialize (AN _ A).
  assert (P2PServerSpec.stored_in (t_bitfield (w_mem w)) (srv_events ev) i) as SI by (destruct AN as [AN|AN]; [now left|right; rewrite I; apply in_or_app; now left]).
  destruct R as (bl & Bl & _ & R). destruct (P2PAnnounceProofs.run_events _ _ _ _ (P2PServerThms.blank_empty np _ Bl) _ _ _ R) as (_ & HO & _). apply (HO i K) in SI.
  destruct (m_have _ _ _ _ M i SI) as [K' S]. split; [lia|]. destruct (on_disk cfg (disk n) i) as [c|] eqn:Q; [|congruence]. exists c. split; [reflexivity|]. exact (stored_verified sha1 cfg env ok _ _ _ _ _ _ _ U' E' K' Q).
Qed.
(** A piece that failed its check. *)
Theorem corrupt_stays f l n ev t k b d x g h : node_run f l n ev -> crashed n = false -> In (NRet t (CPut k b d) (RErr (EChecksum x g h))) ev ->
  ~ stored cfg n k /\ ~ member (P2PServer.s_have (n_srv n)) k.
Proof using ok.
  intros R C I. apply open_run in R as (U & tick & ls & w & es & blank & E & B & N & M). pose proof (m_broken _ _ _ _ M C _ _ _ _ _ _ _ I) as BR.
  destruct (l_run _ _ (i_live _ _ _ _ _ _ _ _ _ N C)) as (w' & ts' & ST & HB). pose proof (sto_good sha1 cfg env hash id blank ok f tick ls w es U E n ev N) as SI. unfold stored, disk. rewrite ST in *.
  destruct (broken_means sha1 cfg ok _ _ _ _ SI BR) as (K & OD & MB & _). cbn [disk_of]. rewrite HB, OD. split; [intros [_ S]; now apply S|exact MB].
Qed.
(** ... makes the program crash when it is asked for again. *)
Theorem corrupt_crashes f l n ev t k b d x g h u : node_run f l n ev -> crashed n = false -> In (NRet t (CPut k b d) (RErr (EChecksum x g h))) ev ->
  at_call n u = Some (CReset k) -> exists n', node_run f (l ++ [NCall u; NStep u]) n' ev /\ crashed n' = true.
Proof using ok.
  intros R C I A. pose proof R as R0. destruct R0 as (U & tick & ls & w & es & blank & E & B & R1). pose proof (nruns_more sha1 cfg env hash id blank ok f tick ls w es U E B l n ev R1) as [N M].
  pose proof (m_broken _ _ _ _ M C _ _ _ _ _ _ _ I) as BR. pose proof (i_live _ _ _ _ _ _ _ _ _ N C) as L.
  destruct (l_run _ _ L) as (w' & ts' & ST & HB). pose proof (sto_good sha1 cfg env hash id blank ok f tick ls w es U E n ev N) as SI. rewrite ST in BR, SI.
  destruct (broken_means sha1 cfg ok _ _ _ _ SI BR) as (K & OD & MB & PL & _). pose proof (broken_reset k w' ts' BR) as RS.
  pose (n1 := {| n_srv := n_srv n; n_sto := Running w' (ts' ++ [{| th_call := CReset k; th_pc := Start |}]); n_jobs := mput Nat.eqb u (JCall (List.length ts')) (n_jobs n); n_msgs := n_msgs n |}).
  assert (nexec sha1 cfg env hash id blank n (NCall u) = Some (n1, [])) as S1 by (unfold nexec; unfold crashed in C; rewrite C, A, ST; reflexivity).
  assert (exists th p, nth_error (P2PServer.s_threads (n_srv n)) u = Some th /\ th = P2PServer.TPiece p k P2PServer.PRun) as (th & p & T & ->).
  { unfold at_call in A. destruct (nth_error (P2PServer.s_threads (n_srv n)) u) as [th|] eqn:T; [|discriminate]. exists th. destruct (calls_inv th (mget Nat.eqb u (n_msgs n)) (CReset k)) as [(p & m & _ & _ & Z)|[(p & i & m & _ & _ & Z)|(p & i & -> & [Z|Z])]]; try discriminate Z.
    - unfold calls_it. destruct th as [| |? []| |? ? []| | | |], (mget Nat.eqb u (n_msgs n)), (mget Nat.eqb u (n_jobs n)) as [[]|]; try discriminate A; auto.
    - injection Z as <-. eauto. }
  assert (PL' : piece_locked k (ts' ++ [{| th_call := CReset k; th_pc := Start |}]) = false) by (unfold piece_locked in *; rewrite existsb_app, PL; reflexivity).
  assert (exists f1 k1, exec sha1 cfg env (n_sto n1) (LStep (List.length ts')) = Some (Dead f1 k1, [])) as (f1 & k1 & X).
  { cbn [n_sto n1]. unfold exec. rewrite nth_error_app2, Nat.sub_diag by lia. cbn [nth_error]. unfold next. cbn [th_pc th_call]. rewrite PL', RS. cbn. eauto. }
  assert (exists s ee, P2PServer.exec hash id blank (n_srv n1) (P2PServer.AGo u P2PServer.CPanic) = Some (s, ee) /\ P2PServer.s_crashed s = true /\ ee = []) as (s & ee & G & CR & ->).
  { destruct (server_run sha1 cfg env hash id blank ok f tick ls w es U E B n ev N) as [l' SR]. pose proof (P2PServerThms.v_range _ _ _ (P2PServerThms.run_inv _ _ _ _ _ _ _ SR) _ p (nth_error_In _ _ T) eq_refl) as RG.
    unfold crashed in C. cbn [n_srv n1]. unfold P2PServer.exec. rewrite C. unfold P2PServer.step_thread. rewrite T. unfold P2PServer.step_piece, P2PServer.crash. destruct (nth_error (P2PServer.s_peers (n_srv n)) p) eqn:Q; [|apply nth_error_None in Q; lia].
    do 2 eexists. split; [reflexivity|]. split; reflexivity. }
  assert (exists n2, nexec sha1 cfg env hash id blank n1 (NStep u) = Some (n2, []) /\ crashed n2 = true) as (n2 & S2 & CR2).
  { unfold nexec. change (n_srv n1) with (n_srv n). unfold crashed in C. rewrite C. assert (mget Nat.eqb u (n_jobs n1) = Some (JCall (List.length ts'))) as -> by (cbn [n_jobs n1]; rewrite P2PServerProofs.mget_put, Nat.eqb_refl; reflexivity).
    rewrite X. unfold serve. rewrite G. eexists. split; [reflexivity|exact CR]. }
  exists n2. split; [|exact CR2]. split; [exact U|]. exists tick, ls, w, es, blank. split; [exact E|]. split; [exact B|].
  clear - R1 S1 S2. revert R1. generalize (nstart (Running w [])). intros n0 R1.
  enough (forall l n0 n ev, nruns sha1 cfg env hash id blank n0 l = Some (n, ev) -> forall l' n' ev', nruns sha1 cfg env hash id blank n l' = Some (n', ev') -> nruns sha1 cfg env hash id blank n0 (l ++ l') = Some (n', ev ++ ev')) as APP.
  { rewrite <- (app_nil_r ev) at 1. apply (APP _ _ _ _ R1). cbn. rewrite S1, S2. reflexivity. }
  clear. induction l as [|a l IH]; intros n0 n ev H l' n' ev' H'; cbn in *; [injection H as -> <-; exact H'|].
  destruct (nexec _ _ _ _ _ _ n0 a) as [[n1 e1]|]; [|discriminate]. destruct (nruns _ _ _ _ _ _ n1 l) as [[n2 e2]|] eqn:Q; [|discriminate]. injection H as -> <-. rewrite (IH _ _ _ Q _ _ _ H'). now rewrite app_assoc.
Qed.
(** The composition adds no obstacle. *)
Theorem composed f l n ev t c : node_run f l n ev -> crashed n = false -> at_call n t = Some c -> exists n', node_run f (l ++ [NCall t]) n' ev /\ n_srv n' = n_srv n.
Proof using ok.
  intros R C A. destruct R as (U & tick & ls & w & es & blank & E & B & R1). pose proof (nruns_more sha1 cfg env hash id blank ok f tick ls w es U E B l n ev R1) as [N M].
  destruct (l_run _ _ (i_live _ _ _ _ _ _ _ _ _ N C)) as (w1 & ts & ST & _).
  assert (exists n', nexec sha1 cfg env hash id blank n (NCall t) = Some (n', []) /\ n_srv n' = n_srv n) as (n' & S & SV).
  { unfold nexec. unfold crashed in C. rewrite C, A, ST. cbn. eauto. }
  exists n'. split; [|exact SV]. split; [exact U|]. exists tick, ls, w, es, blank. split; [exact E|]. split; [exact B|].
  clear - R1 S. revert R1. generalize (nstart (Running w [])). revert n ev S. induction l as [|a l IH]; intros n ev S n0 H; cbn in *; [injection H as -> <-; rewrite S; reflexivity|].
  destruct (nexec _ _ _ _ _ _ n0 a) as [[n1 e1]|]; [|discriminate]. destruct (nruns _ _ _ _ _ _ n1 l) as [[n2 e2]|] eqn:Q; [|discriminate]. injection H as -> <-. rewrite (IH _ _ S _ Q). reflexivity.
Qed.
Theorem composed_steps f l n ev blank t j x : node_run f l n ev -> bf_new np = Some blank -> crashed n = false -> mget Nat.eqb t (n_jobs n) = Some (JCall j) ->
  exec sha1 cfg env (n_sto n) (LStep j) = Some x -> nexec sha1 cfg env hash id blank n (NStep t) <> None.
Proof using ok.
  intros R BB C J X. destruct R as (U & tick & ls & w & es & blank' & E & B & R1). assert (blank' = blank) as -> by congruence. pose proof (nruns_more sha1 cfg env hash id blank ok f tick ls w es U E B l n ev R1) as [N M].
  exact (node_steps sha1 cfg env hash id blank ok f tick ls w es U E B n ev t j x N M C J X).
Qed.
Theorem composed_writes f l n ev blank t d k : node_run f l n ev -> bf_new np = Some blank -> crashed n = false -> mget Nat.eqb t (n_jobs n) = Some (JBlock d) ->
  nexec sha1 cfg env hash id blank n (NWrite t k) <> None.
Proof using ok.
  intros R BB C J. destruct R as (U & tick & ls & w & es & blank' & E & B & R1). assert (blank' = blank) as -> by congruence. pose proof (nruns_more sha1 cfg env hash id blank ok f tick ls w es U E B l n ev R1) as [N M].
  exact (node_writes sha1 cfg env hash id blank ok f tick ls w es U E B n ev t d k N C J).
Qed.
End Final.
(** What ReadMessage returns is in the range of the wire. *)
Theorem read_on_wire r m r' : read_message r = Ok (m, r') -> on_wire m = true.
Proof.
  assert (Z0 : forall t, on_wire {| m_type := t; m_bitfield := []; m_index := 0; m_begin := 0; m_length := 0; m_piece := [] |} = true) by reflexivity.
  unfold read_message, decode_msg. destruct (read_full 4 r) as [[h r1]| |]; try discriminate. destruct h as [|a [|b [|c [|d [|]]]]]; try discriminate. destruct (_ =? 0); [intros [= <- _]; apply Z0|].
  destruct (read_full _ r1) as [[[|t payload] r2]| |]; try discriminate. destruct (parse_msg zero_message (b2z t) payload) as [m'| |] eqn:P; try discriminate. intros [= <- _]. revert P.
  assert (U : forall k p x, u32_at k p = Some x -> 0 <= x < 2 ^ 32) by (intros k p x; unfold u32_at; destruct (skipn k p) as [|? [|? [|? [|? ?]]]]; try discriminate; intros [= <-]; apply GoBaseProofs.get_u32_range).
  unfold parse_msg. intros H.
  repeat match type of H with
  | context [u32_at ?k ?p] => let x := fresh "x" in let Q := fresh "Q" in destruct (u32_at k p) as [x|] eqn:Q; [apply U in Q|try discriminate H]
  | context [if ?b then _ else _] => destruct b
  end; try discriminate H; try (injection H as <-); cbn; try reflexivity; unfold on_wire; cbn [m_index m_begin m_length]; lia.
Qed.
