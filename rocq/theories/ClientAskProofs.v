(** Asking a peer for a piece: from requestPieceFromPeer to the requests on the connection. *)
From Verif Require Import GoBase GoBaseProofs Bitfield GoMap PeerWire Metainfo MetainfoSpec MetainfoProofs Fs Storage StorageSys StorageSpec StorageSysSpec StorageMoreProofs StorageClaimProofs Requests
  Node NodeSpec NodeProofs NodeThms P2PConn P2PConnSpec P2PConnProofs Client ClientSpec ClientProofs ClientPullProofs ClientServerProofs.
From Verif Require P2PServer P2PServerSpec P2PServerProofs P2PServerThms NodeServerProofs.
Import P2PServer.

Definition in_wait (n : node) (t : nat) (i : Z) : Prop :=
  exists j w ts st, mget Nat.eqb t (n_jobs n) = Some (JCall j) /\ n_sto n = Running w ts /\ nth_error ts j = Some st /\ th_call st = CWait i.
Section Ask.
Variable sha1 : bytes -> bytes.
Variable cfg : config.
Variable env : nat -> Fs.choice.
Variable hash id blank : bytes.
Notation nexec := (nexec sha1 cfg env hash id blank).
Notation nruns := (nruns sha1 cfg env hash id blank).
Notation uexec := (uexec sha1 cfg env hash id blank).
Notation uruns := (uruns sha1 cfg env hash id blank).
Notation sexec := (P2PServer.exec hash id blank).
Notation exec := (StorageSys.exec sha1 cfg env).
Notation execs := (StorageSys.execs sha1 cfg env).
Notation np := (num_pieces (c_info cfg)).
Notation threads n := (s_threads (n_srv n)).

(** * A goroutine of the server that asks for a piece *)
Lemma not_wait n t i : mget Nat.eqb t (n_jobs n) = None \/ mget Nat.eqb t (n_jobs n) = Some JReset -> ~ in_wait n t i.
Proof. intros [E|E] (j & w & ts & st & J & _); congruence. Qed.
Lemma reset_range base w ts j w' ts' i r : StorageSysProofs.inv sha1 cfg base (Running w ts) ->
  exec (Running w ts) (LStep j) = Some (Running w' ts', [Ret (CReset i) r]) -> 0 <= i < np.
Proof.
  intros (_ & ((L & _) & _) & _ & TO) H. apply step_shape in H as (st & o & T & N & H). destruct o as [w1 q|w1]; [|destruct H; discriminate]. destruct H as [_ H]. symmetry in H. apply events_done in H as (r' & -> & H). injection H as Hc _.
  specialize (TO _ _ T). unfold StorageSysProofs.thread_ok in TO. rewrite <- Hc in TO. unfold next in N. rewrite <- Hc in N. destruct (th_pc st) as [| | | |x|x] eqn:P; try discriminate N; [|contradiction].
  destruct (piece_locked i ts); [discriminate|]. unfold reset_piece, piece_at, bind, get_mem in N. destruct (i <? 0) eqn:I0; [discriminate N|]. cbn [forget_past w_mem] in N.
  destruct (nth_error (t_pieces (w_mem w)) (Z.to_nat i)) as [pp|] eqn:Q; [|discriminate N]. apply StorageSysProofs.nth_error_Some_lt in Q. unfold num_pieces, zlen. lia.
Qed.
Ltac put := rewrite ?P2PServerProofs.mget_put, ?Nat.eqb_refl, ?(P2PServerProofs.mget_del _ neq_iff') in *.
(** The steps with their actions. *)
Inductive nstepa (n : node) : naction -> node -> list nevent -> Prop :=
| NaServer a s e : free_to n a = true -> sexec (n_srv n) a = Some (s, e) ->
    nstepa n (NServer a) {| n_srv := s; n_sto := n_sto n; n_jobs := end_job a n; n_msgs := note a n |} (map NEv e)
| NaCall t c w ts : at_call n t = Some c -> n_sto n = Running w ts ->
    nstepa n (NCall t) {| n_srv := n_srv n; n_sto := Running w (ts ++ [{| th_call := c; th_pc := Start |}]); n_jobs := mput Nat.eqb t (JCall (List.length ts)) (n_jobs n); n_msgs := n_msgs n |} []
| NaPanic t j f k s e : mget Nat.eqb t (n_jobs n) = Some (JCall j) -> exec (n_sto n) (LStep j) = Some (Dead f k, []) ->
    sexec (n_srv n) (P2PServer.AGo t P2PServer.CPanic) = Some (s, e) ->
    nstepa n (NStep t) {| n_srv := s; n_sto := Dead f k; n_jobs := mdel Nat.eqb t (n_jobs n); n_msgs := n_msgs n |} (map NEv e)
| NaStep t j w' ts' : mget Nat.eqb t (n_jobs n) = Some (JCall j) -> exec (n_sto n) (LStep j) = Some (Running w' ts', []) ->
    nstepa n (NStep t) {| n_srv := n_srv n; n_sto := Running w' ts'; n_jobs := n_jobs n; n_msgs := n_msgs n |} []
| NaKeep t j w' ts' c r jb : mget Nat.eqb t (n_jobs n) = Some (JCall j) -> exec (n_sto n) (LStep j) = Some (Running w' ts', [Ret c r]) -> kept c r = Some jb ->
    nstepa n (NStep t) {| n_srv := n_srv n; n_sto := Running w' ts'; n_jobs := mput Nat.eqb t jb (n_jobs n); n_msgs := n_msgs n |} [NRet t c r]
| NaRet t j w' ts' c r s e : mget Nat.eqb t (n_jobs n) = Some (JCall j) -> exec (n_sto n) (LStep j) = Some (Running w' ts', [Ret c r]) -> kept c r = None ->
    sexec (n_srv n) (P2PServer.AGo t (answer c r (bits (n_sto n)) (bits (Running w' ts')))) = Some (s, e) ->
    nstepa n (NStep t) {| n_srv := s; n_sto := Running w' ts'; n_jobs := mdel Nat.eqb t (n_jobs n); n_msgs := n_msgs n |} (NRet t c r :: map NEv e)
| NaWrite t d p m s e : mget Nat.eqb t (n_jobs n) = Some (JBlock d) -> nth_error (P2PServer.s_threads (n_srv n)) t = Some (P2PServer.THandler p P2PServer.HRequest) ->
    mget Nat.eqb t (n_msgs n) = Some m -> sexec (n_srv n) (P2PServer.AGo t P2PServer.COk) = Some (s, e) ->
    nstepa n (NWrite t true) {| n_srv := s; n_sto := n_sto n; n_jobs := mdel Nat.eqb t (n_jobs n); n_msgs := n_msgs n |} (NServed p (mk_piece (m_index m) (m_begin m) d) :: map NEv e)
| NaFail t d p m s e : mget Nat.eqb t (n_jobs n) = Some (JBlock d) -> nth_error (P2PServer.s_threads (n_srv n)) t = Some (P2PServer.THandler p P2PServer.HRequest) ->
    mget Nat.eqb t (n_msgs n) = Some m -> sexec (n_srv n) (P2PServer.AGo t P2PServer.CErr) = Some (s, e) ->
    nstepa n (NWrite t false) {| n_srv := s; n_sto := n_sto n; n_jobs := mdel Nat.eqb t (n_jobs n); n_msgs := n_msgs n |} (map NEv e).
Lemma nexec_nstepa n a n' e : nexec n a = Some (n', e) -> P2PServer.s_crashed (n_srv n) = false /\ nstepa n a n' e.
Proof.
  unfold Node.nexec. destruct (P2PServer.s_crashed (n_srv n)) eqn:C; [discriminate|]. intros H. split; [reflexivity|]. destruct a as [a|t|t|t k].
  - destruct (free_to n a) eqn:F; [|discriminate]. unfold serve in H. destruct (sexec (n_srv n) a) as [[s e1]|] eqn:X; [|discriminate]. injection H as <- <-. now apply NaServer.
  - destruct (at_call n t) as [c|] eqn:A; [|discriminate]. destruct (n_sto n) as [w ts|] eqn:S; [|discriminate]. cbn [StorageSys.exec] in H. injection H as <- <-.
    eapply NaCall; eassumption.
  - destruct (mget Nat.eqb t (n_jobs n)) as [[j| |]|] eqn:J; try discriminate. destruct (exec (n_sto n) (LStep j)) as [[p es]|] eqn:X; [|discriminate].
    pose proof (exec_step_events _ _ _ _ _ _ _ X) as (w & ts & S & Q). destruct p as [w' ts'|f q].
    + destruct Q as [->|[[c r] ->]].
      * injection H as <- <-. eapply NaStep; eassumption.
      * destruct (kept c r) as [jb|] eqn:K.
        -- injection H as <- <-. eapply NaKeep; eassumption.
        -- apply serve_inv in H as (s & e1 & Y & -> & ->). rewrite note_answer. cbn [end_job app]. eapply NaRet; eassumption.
    + subst es. apply serve_inv in H as (s & e1 & Y & -> & ->). eapply NaPanic; eassumption.
  - destruct (mget Nat.eqb t (n_jobs n)) as [[j| |d]|] eqn:J; try discriminate. destruct (nth_error (P2PServer.s_threads (n_srv n)) t) as [[| |p []| | | | | |]|] eqn:T; try discriminate.
    destruct (mget Nat.eqb t (n_msgs n)) as [m|] eqn:M; [|discriminate]. destruct k; apply serve_inv in H as (s & e1 & Y & -> & ->); [eapply NaWrite|eapply NaFail]; eassumption.
Qed.
(** How the goroutine t that asks p for piece i got where it is in n'. *)
Definition prun_step (n : node) (a : naction) (n' : node) (e : list nevent) (t p : nat) (i : Z) : Prop :=
  (t = List.length (threads n) /\ e = [NEv (EvRequest p i)] /\ mget Nat.eqb t (n_jobs n') = None) \/
  (nth_error (threads n) t = Some (TPiece p i PRun) /\ (forall ch, a <> NServer (AGo t ch)) /\
    ((a <> NCall t /\ mget Nat.eqb t (n_jobs n') = mget Nat.eqb t (n_jobs n) /\ (in_wait n' t i -> in_wait n t i)) \/
     (a = NCall t /\ mget Nat.eqb t (n_jobs n) = None /\ (exists j, mget Nat.eqb t (n_jobs n') = Some (JCall j)) /\ ~ in_wait n' t i) \/
     (a = NCall t /\ mget Nat.eqb t (n_jobs n) = Some JReset /\ exists j, mget Nat.eqb t (n_jobs n') = Some (JCall j)) \/
     (a <> NCall t /\ (exists j, mget Nat.eqb t (n_jobs n) = Some (JCall j)) /\ mget Nat.eqb t (n_jobs n') = Some JReset /\ 0 <= i < np))).
Lemma fresh_job n ev t : NodeProofs.live n ev -> (List.length (threads n) <= t)%nat -> mget Nat.eqb t (n_jobs n) = None.
Proof.
  intros L G. destruct (mget Nat.eqb t (n_jobs n)) as [jb|] eqn:J; [|reflexivity]. destruct (l_jobs _ _ L _ _ J) as (th & T & _). apply StorageSysProofs.nth_error_Some_lt in T. lia.
Qed.
Lemma prun_frame base n ev a n' e t p i : NodeProofs.live n ev -> StorageSysProofs.inv sha1 cfg base (n_sto n) -> nexec n a = Some (n', e) -> s_crashed (n_srv n') = false ->
  nth_error (threads n') t = Some (TPiece p i PRun) -> prun_step n a n' e t p i.
Proof.
  intros L IV H C T. destruct (l_run _ _ L) as (w & ts & ST & _).
  assert (forall b s e1, sexec (n_srv n) b = Some (s, e1) -> s_crashed s = false -> nth_error (s_threads s) t = Some (TPiece p i PRun) ->
    (nth_error (threads n) t = Some (TPiece p i PRun) /\ ~ P2PServerSpec.turn_of t b) \/ (t = List.length (threads n) /\ e1 = [EvRequest p i])) as SRV.
  { intros b s e1 E C1 T1. destruct (NodeServerProofs.at_storage_frame _ _ _ _ _ _ _ _ _ E C1 T1 eq_refl) as [X|[(p' & m & h & X & _)|(p' & i' & X & Y & I)]]; [now left|discriminate|].
    injection X as <- <-. right. split; [exact Y|]. now apply (request_event _ _ _ _ _ _ _ _ _ E I). }
  assert (forall b s e1, sexec (n_srv n) b = Some (s, e1) -> t = List.length (threads n) -> e1 = [EvRequest p i] -> exists u, b = AGo u COk /\ u <> t) as REQ.
  { intros b s e1 E Y ->. clear - E Y. P2PServerProofs.open_exec E. all: try discriminate. eexists. split; [reflexivity|]. intros ->. subst. match goal with X : nth_error _ (List.length _) = Some _ |- _ => apply StorageSysProofs.nth_error_Some_lt in X; lia end. }
  assert (forall a0, a = NServer a0 \/ (exists u, a = NStep u) \/ (exists u x, a = NWrite u x) -> a <> NCall t) as NC by (intros a0 [->|[[u ->]|(u & x & ->)]]; discriminate).
  assert (forall n1, mget Nat.eqb t (n_jobs n1) = mget Nat.eqb t (n_jobs n) ->
    (forall w1 ts1, n_sto n1 = Running w1 ts1 -> forall j st, (exists st0, nth_error ts j = Some st0) -> nth_error ts1 j = Some st -> exists st0, nth_error ts j = Some st0 /\ th_call st0 = th_call st) -> in_wait n1 t i -> in_wait n t i) as KEEP.
  { intros n1 G K (j & w1 & ts1 & st & J & S & Q & W). rewrite G in J. destruct (jobs_call _ _ _ _ _ _ L J ST) as (_ & st0 & _ & Q0 & _). destruct (K _ _ S j st ltac:(eauto) Q) as (st1 & Q1 & W1).
    exists j, w, ts, st1. repeat split; auto. congruence. }
  apply nexec_nstepa in H as [_ H].
  destruct H as [a1 s e F E|t1 c w1 ts1 A S1|t1 j f k s e J X E|t1 j w' ts' J X|t1 j w' ts' c r jb J X KP|t1 j w' ts' c r s e J X KP E|t1 d0 p0 m0 s e J T0 M0 E|t1 d0 p0 m0 s e J T0 M0 E]; cbn [n_srv n_sto n_jobs] in *.
  - destruct (SRV _ _ _ E C T) as [[T1 NT]|[-> ->]].
    + right. split; [exact T1|]. split; [intros ch [= ->]; apply NT; eexists; reflexivity|]. left. split; [discriminate|].
      assert (mget Nat.eqb t (end_job a1 n) = mget Nat.eqb t (n_jobs n)) as EJ.
      { unfold end_job. destruct a1; try reflexivity. rewrite (P2PServerProofs.mget_del _ neq_iff'). destruct (Nat.eqb t0 t) eqn:Q; [|reflexivity]. apply Nat.eqb_eq in Q as ->. destruct NT. eexists. reflexivity. }
      split; [exact EJ|]. match goal with |- in_wait ?x _ _ -> _ => apply (KEEP x EJ) end. cbn [n_sto]. intros w1 ts1 S1 j st _ Q. rewrite ST in S1. injection S1 as <- <-. eauto.
    + left. split; [reflexivity|]. split; [reflexivity|]. destruct (REQ _ _ _ E eq_refl eq_refl) as (u & -> & D). cbn [end_job n_jobs]. rewrite (P2PServerProofs.mget_del _ neq_iff').
      destruct (Nat.eqb u _) eqn:Q; [reflexivity|]. eapply fresh_job; [exact L|]. lia.
  - right. split; [exact T|]. split; [intros ch; discriminate|]. rewrite ST in S1. injection S1 as <- <-. destruct (Nat.eq_dec t t1) as [->|D].
    + right. unfold at_call in A. rewrite T in A. assert (call_of (TPiece p i PRun) (mget Nat.eqb t1 (n_msgs n)) (mget Nat.eqb t1 (n_jobs n)) = match mget Nat.eqb t1 (n_jobs n) with None => Some (CReset i) | Some JReset => Some (CWait i) | _ => None end) as CE.
      { unfold call_of. destruct (mget Nat.eqb t1 (n_msgs n)); destruct (mget Nat.eqb t1 (n_jobs n)) as [[| |]|]; reflexivity. }
      rewrite CE in A. clear CE. destruct (mget Nat.eqb t1 (n_jobs n)) as [[| |]|] eqn:J1; try discriminate A; injection A as <-.
      * right. left. split; [reflexivity|]. split; [reflexivity|]. cbn [n_jobs]. rewrite P2PServerProofs.mget_put, Nat.eqb_refl. eauto.
      * left. split; [reflexivity|]. split; [reflexivity|]. cbn [n_jobs]. rewrite P2PServerProofs.mget_put, Nat.eqb_refl. split; [eauto|]. intros (j & w2 & ts2 & st & J & S & Q & W). cbn [n_jobs n_sto] in J, S. rewrite P2PServerProofs.mget_put, Nat.eqb_refl in J. injection J as <-. injection S as <- <-.
        rewrite nth_error_app2, Nat.sub_diag in Q by lia. injection Q as <-. discriminate W.
    + left. split; [congruence|]. assert (mget Nat.eqb t (mput Nat.eqb t1 (JCall (List.length ts)) (n_jobs n)) = mget Nat.eqb t (n_jobs n)) as EJ.
      { rewrite P2PServerProofs.mget_put, (P2PServerProofs.mget_del _ neq_iff'). destruct (Nat.eqb t1 t) eqn:Q; [apply Nat.eqb_eq in Q; congruence|reflexivity]. }
      split; [exact EJ|]. match goal with |- in_wait ?x _ _ -> _ => apply (KEEP x EJ) end. cbn [n_sto]. intros w1 ts1 [= <- <-] j st (st0 & Q0) Q. rewrite nth_error_app1 in Q by (apply nth_error_Some; congruence). eauto.
  - exfalso. destruct (jobs_call _ _ _ _ _ _ L J ST) as (th & st & TT & _ & _ & K). unfold P2PServer.exec in E. destruct (P2PServer.s_crashed (n_srv n)); [discriminate|]. unfold P2PServer.step_thread in E. rewrite TT in E.
    destruct (calls_inv _ _ _ K) as [(p' & x & -> & _)|[(p' & i' & x & -> & _)|(p' & i' & -> & _)]]; unfold P2PServer.step_handler, P2PServer.step_piece, P2PServer.crash in E; destruct (nth_error _ _) in E; try discriminate E; injection E as <- <-; discriminate C.
  - right. split; [exact T|]. split; [intros ch; discriminate|]. left. split; [discriminate|]. split; [reflexivity|]. match goal with |- in_wait ?x _ _ -> _ => apply (KEEP x eq_refl) end. cbn [n_sto]. intros w1 ts1 [= <- <-] j0 st _ Q. rewrite ST in X. eapply step_call; eassumption.
  - right. split; [exact T|]. split; [intros ch; discriminate|]. destruct (Nat.eq_dec t t1) as [->|D].
    + right. right. right. split; [discriminate|]. split; [eauto|]. destruct (jobs_call _ _ _ _ _ _ L J ST) as (th & st & TT & Q & _ & K). rewrite ST in X. pose proof (ret_call _ _ _ _ _ _ _ _ _ _ _ X Q) as RC.
      cbn [n_jobs]. rewrite P2PServerProofs.mget_put, Nat.eqb_refl. rewrite T in TT. injection TT as <-. destruct (calls_inv _ _ _ K) as [(p' & x & Z & _)|[(p' & i' & x & Z & _)|(p' & i' & Z & [Y|Y])]]; try discriminate Z; injection Z as <- <-.
      * rewrite Y in RC. subst c. injection KP as <-. split; [reflexivity|]. eapply reset_range; [|exact X]. rewrite <- ST. exact IV.
      * rewrite Y in RC. subst c. discriminate KP.
    + left. split; [discriminate|]. assert (mget Nat.eqb t (mput Nat.eqb t1 jb (n_jobs n)) = mget Nat.eqb t (n_jobs n)) as EJ.
      { rewrite P2PServerProofs.mget_put, (P2PServerProofs.mget_del _ neq_iff'). destruct (Nat.eqb t1 t) eqn:Q; [apply Nat.eqb_eq in Q; congruence|reflexivity]. }
      split; [exact EJ|]. match goal with |- in_wait ?x _ _ -> _ => apply (KEEP x EJ) end. cbn [n_sto]. intros w1 ts1 [= <- <-] j0 st _ Q. rewrite ST in X. eapply step_call; eassumption.
  - destruct (SRV _ _ _ E C T) as [[T1 NT]|[-> ->]].
    + right. split; [exact T1|]. split; [intros ch; discriminate|]. left. split; [discriminate|].
      assert (mget Nat.eqb t (mdel Nat.eqb t1 (n_jobs n)) = mget Nat.eqb t (n_jobs n)) as EJ.
      { rewrite (P2PServerProofs.mget_del _ neq_iff'). destruct (Nat.eqb t1 t) eqn:Q; [|reflexivity]. apply Nat.eqb_eq in Q as ->. destruct NT. eexists. reflexivity. }
      split; [exact EJ|]. match goal with |- in_wait ?x _ _ -> _ => apply (KEEP x EJ) end. cbn [n_sto]. intros w1 ts1 [= <- <-] j0 st _ Q. rewrite ST in X. eapply step_call; eassumption.
    + exfalso. destruct (jobs_call _ _ _ _ _ _ L J ST) as (th & st & TT & _ & _ & K). destruct (request_event _ _ _ _ _ _ _ _ _ E (or_introl eq_refl)) as [_ (u & l & RE & Tu)]. injection RE as <- _.
      destruct (calls_inv _ _ _ K) as [(p' & x & Y & _)|[(p' & i' & x & Y & _)|(p' & i' & Y & _)]]; congruence.
  - destruct (SRV _ _ _ E C T) as [[T1 NT]|[-> ->]].
    + right. split; [exact T1|]. split; [intros ch; discriminate|]. left. split; [discriminate|].
      assert (mget Nat.eqb t (mdel Nat.eqb t1 (n_jobs n)) = mget Nat.eqb t (n_jobs n)) as EJ.
      { rewrite (P2PServerProofs.mget_del _ neq_iff'). destruct (Nat.eqb t1 t) eqn:Q; [|reflexivity]. apply Nat.eqb_eq in Q as ->. destruct NT. eexists. reflexivity. }
      split; [exact EJ|]. match goal with |- in_wait ?x _ _ -> _ => apply (KEEP x EJ) end. cbn [n_sto]. intros w1 ts1 S1 j0 st _ Q. rewrite ST in S1. injection S1 as <- <-. eauto.
    + exfalso. destruct (request_event _ _ _ _ _ _ _ _ _ E (or_introl eq_refl)) as [_ (u & l & RE & Tu)]. congruence.
  - destruct (SRV _ _ _ E C T) as [[T1 NT]|[-> ->]].
    + right. split; [exact T1|]. split; [intros ch; discriminate|]. left. split; [discriminate|].
      assert (mget Nat.eqb t (mdel Nat.eqb t1 (n_jobs n)) = mget Nat.eqb t (n_jobs n)) as EJ.
      { rewrite (P2PServerProofs.mget_del _ neq_iff'). destruct (Nat.eqb t1 t) eqn:Q; [|reflexivity]. apply Nat.eqb_eq in Q as ->. destruct NT. eexists. reflexivity. }
      split; [exact EJ|]. match goal with |- in_wait ?x _ _ -> _ => apply (KEEP x EJ) end. cbn [n_sto]. intros w1 ts1 S1 j0 st _ Q. rewrite ST in S1. injection S1 as <- <-. eauto.
    + exfalso. destruct (request_event _ _ _ _ _ _ _ _ _ E (or_introl eq_refl)) as [_ (u & l & RE & Tu)]. congruence.
Qed.
Lemma srv_event n a n' e x : nexec n a = Some (n', e) -> In (NEv x) e -> exists b s e1, sexec (n_srv n) b = Some (s, e1) /\ In x e1 /\ s_threads s = threads n'.
Proof.
  intros H I. apply nexec_nstepa in H as [_ H].
  destruct H as [a1 s e F E|t1 c w1 ts1 A S1|t1 j f k s e J X E|t1 j w' ts' J X|t1 j w' ts' c r jb J X KP|t1 j w' ts' c r s e J X KP E|t1 d0 p0 m0 s e J T0 M0 E|t1 d0 p0 m0 s e J T0 M0 E]; cbn [n_srv].
  all: try (destruct I as [I|I]; [discriminate I|]); try contradiction.
  all: apply in_map_iff in I as (y & [= ->] & I); do 3 eexists; split; [eassumption|split; [exact I|reflexivity]].
Qed.
Lemma npast_frame n ev a n' e t p i q : NodeProofs.live n ev -> nexec n a = Some (n', e) -> nth_error (threads n') t = Some (TPiece p i q) -> past q = true ->
  (exists q0, nth_error (threads n) t = Some (TPiece p i q0) /\ past q0 = true) \/ (nth_error (threads n) t = Some (TPiece p i PRun) /\ in_wait n t i).
Proof.
  intros L H T Q. destruct (l_run _ _ L) as (w & ts & ST & _). apply nexec_nstepa in H as [_ H].
  destruct H as [a1 s e F E|t1 c w1 ts1 A S1|t1 j f k s e J X E|t1 j w' ts' J X|t1 j w' ts' c r jb J X KP|t1 j w' ts' c r s e J X KP E|t1 d0 p0 m0 s e J T0 M0 E|t1 d0 p0 m0 s e J T0 M0 E]; cbn [n_srv n_sto n_jobs] in *.
  all: try (left; exists q; auto; fail).
  all: destruct (past_frame _ _ _ _ _ _ _ _ _ _ _ E T Q) as [P|[P AC]]; [now left|].
  - exfalso. destruct AC as [->| ->]; cbn in F; rewrite P in F; destruct (mget Nat.eqb t (n_jobs n)) as [[]|]; discriminate F.
  - destruct AC; discriminate.
  - right. split; [exact P|]. assert (t1 = t) as -> by (destruct AC as [AC|AC]; now injection AC). destruct (jobs_call _ _ _ _ _ _ L J ST) as (th & st & TT & QQ & _ & K). rewrite ST in X. pose proof (ret_call _ _ _ _ _ _ _ _ _ _ _ X QQ) as RC.
    rewrite P in TT. injection TT as <-. destruct (calls_inv _ _ _ K) as [(p' & x & Z & _)|[(p' & i' & x & Z & _)|(p' & i' & Z & [Y|Y])]]; try discriminate Z; injection Z as <- <-.
    + rewrite Y in RC. subst c. discriminate KP.
    + exists j, w, ts, st. auto.
  - exfalso. assert (t1 = t) as -> by (destruct AC as [AC|AC]; now injection AC). congruence.
  - exfalso. assert (t1 = t) as -> by (destruct AC as [AC|AC]; now injection AC). congruence.
Qed.
Lemma wait_return n ev a n' e t i r : NodeProofs.live n ev -> nexec n a = Some (n', e) -> In (NRet t (CWait i) r) e -> exists p, nth_error (threads n) t = Some (TPiece p i PRun) /\ in_wait n t i.
Proof.
  intros L H I. destruct (l_run _ _ L) as (w & ts & ST & _). apply nexec_nstepa in H as [_ H].
  destruct H as [a1 s e F E|t1 c w1 ts1 A S1|t1 j f k s e J X E|t1 j w' ts' J X|t1 j w' ts' c r0 jb J X KP|t1 j w' ts' c r0 s e J X KP E|t1 d0 p0 m0 s e J T0 M0 E|t1 d0 p0 m0 s e J T0 M0 E]; cbn [n_srv n_sto n_jobs] in *.
  all: try contradiction.
  all: try (apply in_map_iff in I as (y & [=] & _)).
  - destruct I as [I|[]]. injection I as -> -> ->. discriminate KP.
  - destruct I as [I|I]; [|apply in_map_iff in I as (y & [=] & _)]. injection I as -> -> ->. destruct (jobs_call _ _ _ _ _ _ L J ST) as (th & st & TT & QQ & _ & K). rewrite ST in X. pose proof (ret_call _ _ _ _ _ _ _ _ _ _ _ X QQ) as RC.
    rewrite <- RC in K. destruct (calls_inv _ _ _ K) as [(p' & x & -> & _ & Z)|[(p' & i' & x & -> & _ & Z)|(p' & i' & -> & [Y|Y])]]; try discriminate. injection Y as <-. exists p'. split; [exact TT|]. exists j, w, ts, st. auto.
  - destruct I as [I|I]; [discriminate|apply in_map_iff in I as (y & [=] & _)].
Qed.
Definition nturn (t : nat) (a : naction) : Prop := (exists ch, a = NServer (AGo t ch)) \/ a = NCall t \/ a = NStep t \/ exists b, a = NWrite t b.
Lemma nstays n a n' e t th : nexec n a = Some (n', e) -> ~ nturn t a -> nth_error (threads n) t = Some th -> nth_error (threads n') t = Some th.
Proof.
  intros H N T. apply nexec_nstepa in H as [_ H]. unfold nturn in N.
  destruct H as [a1 s e F E|t1 c w1 ts1 A S1|t1 j f k s e J X E|t1 j w' ts' J X|t1 j w' ts' c r0 jb J X KP|t1 j w' ts' c r0 s e J X KP E|t1 d0 p0 m0 s e J T0 M0 E|t1 d0 p0 m0 s e J T0 M0 E]; cbn [n_srv]; try exact T.
  all: eapply NodeServerProofs.others_stay; [exact E| |exact T]; intros [ch Q]; apply N; try injection Q as -> _; try subst; eauto 6.
Qed.
Lemma nthreads_grow n a n' e : nexec n a = Some (n', e) -> (List.length (threads n) <= List.length (threads n'))%nat.
Proof.
  intros H. apply nexec_nstepa in H as [_ H].
  destruct H as [a1 s e F E|t1 c w1 ts1 A S1|t1 j f k s e J X E|t1 j w' ts' J X|t1 j w' ts' c r0 jb J X KP|t1 j w' ts' c r0 s e J X KP E|t1 d0 p0 m0 s e J T0 M0 E|t1 d0 p0 m0 s e J T0 M0 E]; cbn [n_srv]; try lia.
  all: eapply threads_grow; exact E.
Qed.
End Ask.
