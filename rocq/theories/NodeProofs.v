(** Invariants of the whole program. *)
From Verif Require Import GoBase GoBaseProofs Bitfield BitfieldSpec BitfieldProofs GoMap PeerWire Metainfo MetainfoSpec MetainfoProofs
  Fs FsProofs Storage StorageSys StorageSpec StorageSysSpec StorageMemSpec StorageSysProofs StorageClaimProofs StorageMoreProofs Node NodeSpec.
From Verif Require P2PServer P2PServerSpec P2PServerProofs P2PServerThms NodeServerProofs.

Lemma srv_events_app a b : srv_events (a ++ b) = srv_events a ++ srv_events b. Proof. unfold srv_events. apply flat_map_app. Qed.
Lemma sto_events_app a b : sto_events (a ++ b) = sto_events a ++ sto_events b. Proof. unfold sto_events. apply flat_map_app. Qed.
Lemma srv_events_map e : srv_events (map NEv e) = e. Proof. unfold srv_events. induction e as [|x e IH]; cbn; [easy|]. now rewrite IH. Qed.
Lemma sto_events_map e : sto_events (map NEv e) = []. Proof. unfold sto_events. induction e as [|x e IH]; cbn; [easy|]. exact IH. Qed.
Lemma in_srv x ev : In x (srv_events ev) <-> In (NEv x) ev.
Proof.
  unfold srv_events. rewrite in_flat_map. split.
  - intros ([y| |] & I & X); cbn in X; try contradiction. destruct X as [->|[]]. exact I.
  - intros I. exists (NEv x). split; [exact I|now left].
Qed.
Lemma in_sto c r ev : In (Ret c r) (sto_events ev) <-> exists t, In (NRet t c r) ev.
Proof.
  unfold sto_events. rewrite in_flat_map. split.
  - intros ([y|t c' r'|] & I & X); cbn in X; try contradiction. destruct X as [[= -> ->]|[]]. eauto.
  - intros [t I]. exists (NRet t c r). split; [exact I|now left].
Qed.
Lemma neq_iff' (a b : nat) : Nat.eqb a b = true <-> a = b. Proof. apply Nat.eqb_eq. Qed.

Section Node.
Variable sha1 : bytes -> bytes.
Variable cfg : config.
Variable env : nat -> Fs.choice.
Variable hash id blank : bytes.
Notation nexec := (nexec sha1 cfg env hash id blank).
Notation nruns := (nruns sha1 cfg env hash id blank).
Notation sexec := (P2PServer.exec hash id blank).
Notation sruns := (P2PServer.runs hash id blank).
Notation exec := (StorageSys.exec sha1 cfg env).
Notation execs := (StorageSys.execs sha1 cfg env).
Notation np := (num_pieces (c_info cfg)).

Lemma nruns_ind (P : node -> list nevent -> Prop) n0 : P n0 [] -> (forall n ev a n' e, P n ev -> nexec n a = Some (n', e) -> P n' (ev ++ e)) ->
  forall l n ev, nruns n0 l = Some (n, ev) -> P n ev.
Proof.
  intros P0 PS. assert (forall l n1 ev1 n ev, P n1 ev1 -> nruns n1 l = Some (n, ev) -> P n (ev1 ++ ev)) as G.
  { induction l as [|a l IH]; cbn [Node.nruns]; intros n1 ev1 n ev P1; [intros [= <- <-]; now rewrite app_nil_r|].
    destruct (nexec n1 a) as [[n2 e2]|] eqn:E; [|discriminate]. destruct (nruns n2 l) as [[n3 e3]|] eqn:R; [|discriminate]. intros [= <- <-].
    rewrite app_assoc. eapply IH; [|exact R]. eapply PS; eassumption. }
  intros l n ev R. exact (G l n0 [] n ev P0 R).
Qed.
Lemma sruns_one s0 l s ev a s' e : sruns s0 l = Some (s, ev) -> sexec s a = Some (s', e) -> sruns s0 (l ++ [a]) = Some (s', ev ++ e).
Proof. intros R E. rewrite P2PServerProofs.runs_app, R. cbn [P2PServer.runs]. rewrite E. now rewrite app_nil_r. Qed.
Lemma execs_one p0 l p es a p' e : execs p0 l = Some (p, es) -> exec p a = Some (p', e) -> execs p0 (l ++ [a]) = Some (p', es ++ e).
Proof.
  revert p0 es. induction l as [|b l IH]; cbn [StorageSys.execs app]; intros p0 es R E.
  - injection R as <- <-. rewrite E. now rewrite app_nil_r.
  - destruct (exec p0 b) as [[p1 e1]|]; [|discriminate]. destruct (execs p1 l) as [[p2 e2]|] eqn:R2; [|discriminate]. injection R as <- <-.
    rewrite (IH _ _ R2 E). now rewrite app_assoc.
Qed.
Lemma execs_app p0 l p es l' p' es' : execs p0 l = Some (p, es) -> execs p l' = Some (p', es') -> execs p0 (l ++ l') = Some (p', es ++ es').
Proof.
  revert p0 es. induction l as [|b l IH]; cbn [StorageSys.execs app]; intros p0 es R E; [injection R as <- <-; exact E|].
  destruct (exec p0 b) as [[p1 e1]|]; [|discriminate]. destruct (execs p1 l) as [[p2 e2]|] eqn:R2; [|discriminate]. injection R as <- <-.
  rewrite (IH _ _ R2 E). now rewrite app_assoc.
Qed.

(** * The steps *)
Inductive nstep (n : node) : node -> list nevent -> Prop :=
| NsServer a s e : free_to n a = true -> sexec (n_srv n) a = Some (s, e) ->
    nstep n {| n_srv := s; n_sto := n_sto n; n_jobs := end_job a n; n_msgs := note a n |} (map NEv e)
| NsCall t c w ts : at_call n t = Some c -> n_sto n = Running w ts ->
    nstep n {| n_srv := n_srv n; n_sto := Running w (ts ++ [{| th_call := c; th_pc := Start |}]); n_jobs := mput Nat.eqb t (JCall (List.length ts)) (n_jobs n); n_msgs := n_msgs n |} []
| NsPanic t j f k s e : mget Nat.eqb t (n_jobs n) = Some (JCall j) -> exec (n_sto n) (LStep j) = Some (Dead f k, []) ->
    sexec (n_srv n) (P2PServer.AGo t P2PServer.CPanic) = Some (s, e) ->
    nstep n {| n_srv := s; n_sto := Dead f k; n_jobs := mdel Nat.eqb t (n_jobs n); n_msgs := n_msgs n |} (map NEv e)
| NsStep t j w' ts' : mget Nat.eqb t (n_jobs n) = Some (JCall j) -> exec (n_sto n) (LStep j) = Some (Running w' ts', []) ->
    nstep n {| n_srv := n_srv n; n_sto := Running w' ts'; n_jobs := n_jobs n; n_msgs := n_msgs n |} []
| NsKeep t j w' ts' c r jb : mget Nat.eqb t (n_jobs n) = Some (JCall j) -> exec (n_sto n) (LStep j) = Some (Running w' ts', [Ret c r]) -> kept c r = Some jb ->
    nstep n {| n_srv := n_srv n; n_sto := Running w' ts'; n_jobs := mput Nat.eqb t jb (n_jobs n); n_msgs := n_msgs n |} [NRet t c r]
| NsRet t j w' ts' c r s e : mget Nat.eqb t (n_jobs n) = Some (JCall j) -> exec (n_sto n) (LStep j) = Some (Running w' ts', [Ret c r]) -> kept c r = None ->
    sexec (n_srv n) (P2PServer.AGo t (answer c r (bits (n_sto n)) (bits (Running w' ts')))) = Some (s, e) ->
    nstep n {| n_srv := s; n_sto := Running w' ts'; n_jobs := mdel Nat.eqb t (n_jobs n); n_msgs := n_msgs n |} (NRet t c r :: map NEv e)
| NsWrite t d p m s e : mget Nat.eqb t (n_jobs n) = Some (JBlock d) -> nth_error (P2PServer.s_threads (n_srv n)) t = Some (P2PServer.THandler p P2PServer.HRequest) ->
    mget Nat.eqb t (n_msgs n) = Some m -> sexec (n_srv n) (P2PServer.AGo t P2PServer.COk) = Some (s, e) ->
    nstep n {| n_srv := s; n_sto := n_sto n; n_jobs := mdel Nat.eqb t (n_jobs n); n_msgs := n_msgs n |} (NServed p (mk_piece (m_index m) (m_begin m) d) :: map NEv e)
| NsFail t d p m s e : mget Nat.eqb t (n_jobs n) = Some (JBlock d) -> nth_error (P2PServer.s_threads (n_srv n)) t = Some (P2PServer.THandler p P2PServer.HRequest) ->
    mget Nat.eqb t (n_msgs n) = Some m -> sexec (n_srv n) (P2PServer.AGo t P2PServer.CErr) = Some (s, e) ->
    nstep n {| n_srv := s; n_sto := n_sto n; n_jobs := mdel Nat.eqb t (n_jobs n); n_msgs := n_msgs n |} (map NEv e).
Lemma exec_step_events p j p' es : exec p (LStep j) = Some (p', es) -> exists w ts, p = Running w ts /\ match p' with Dead _ _ => es = [] | _ => es = [] \/ exists e, es = [e] end.
Proof.
  destruct p as [w ts|]; [|discriminate]. intros H. apply step_shape in H as (t & o & _ & _ & H). exists w, ts. split; [reflexivity|].
  destruct o; destruct H as [-> ->]; [|reflexivity]. unfold events_of. destruct p; eauto.
Qed.
Lemma note_answer t c r b b' n : note (P2PServer.AGo t (answer c r b b')) n = n_msgs n.
Proof. cbn [note]. destruct (answer c r b b') eqn:A; try reflexivity. exfalso. unfold answer in A. P2PServerProofs.brk A. Qed.
Lemma serve_inv n sto a ev n' e : serve hash id blank n sto a ev = Some (n', e) -> exists s e1, sexec (n_srv n) a = Some (s, e1) /\
  n' = {| n_srv := s; n_sto := sto; n_jobs := end_job a n; n_msgs := note a n |} /\ e = ev ++ map NEv e1.
Proof. unfold serve. destruct (sexec (n_srv n) a) as [[s e1]|]; [|discriminate]. intros [= <- <-]. eauto. Qed.
Lemma nexec_nstep n a n' e : nexec n a = Some (n', e) -> P2PServer.s_crashed (n_srv n) = false /\ nstep n n' e.
Proof.
  unfold Node.nexec. destruct (P2PServer.s_crashed (n_srv n)) eqn:C; [discriminate|]. intros H. split; [reflexivity|]. destruct a as [a|t|t|t k].
  - destruct (free_to n a) eqn:F; [|discriminate]. unfold serve in H. destruct (sexec (n_srv n) a) as [[s e1]|] eqn:X; [|discriminate]. injection H as <- <-. now apply NsServer.
  - destruct (at_call n t) as [c|] eqn:A; [|discriminate]. destruct (n_sto n) as [w ts|] eqn:S; [|discriminate]. cbn [StorageSys.exec] in H. injection H as <- <-.
    eapply NsCall; eassumption.
  - destruct (mget Nat.eqb t (n_jobs n)) as [[j| |]|] eqn:J; try discriminate. destruct (exec (n_sto n) (LStep j)) as [[p es]|] eqn:X; [|discriminate].
    pose proof (exec_step_events _ _ _ _ X) as (w & ts & S & Q). destruct p as [w' ts'|f q].
    + destruct Q as [->|[[c r] ->]].
      * injection H as <- <-. eapply NsStep; eassumption.
      * destruct (kept c r) as [jb|] eqn:K.
        -- injection H as <- <-. eapply NsKeep; eassumption.
        -- apply serve_inv in H as (s & e1 & Y & -> & ->). rewrite note_answer. cbn [end_job app]. eapply NsRet; eassumption.
    + subst es. apply serve_inv in H as (s & e1 & Y & -> & ->). eapply NsPanic; eassumption.
  - destruct (mget Nat.eqb t (n_jobs n)) as [[j| |d]|] eqn:J; try discriminate. destruct (nth_error (P2PServer.s_threads (n_srv n)) t) as [[| |p []| | | | | |]|] eqn:T; try discriminate.
    destruct (mget Nat.eqb t (n_msgs n)) as [m|] eqn:M; [|discriminate]. destruct k; apply serve_inv in H as (s & e1 & Y & -> & ->); [eapply NsWrite|eapply NsFail]; eassumption.
Qed.

(** * The invariant *)
Hypothesis ok : config_ok cfg.
Variable f0 : fs.
Variable tick0 : nat.
Variable ls0 : list label.
Variable w0 : world.
Variable es0 : list event.
Hypothesis unt : untouched cfg f0.
Hypothesis loaded : execs (Dead f0 tick0) ls0 = Some (Running w0 [], es0).

(** Call [c] is what goroutine [th], after message [m], comes to. *)
Definition calls_it (th : P2PServer.thread) (m : option message) (c : call) : Prop := call_of th m None = Some c \/ call_of th m (Some JReset) = Some c.
Definition job_ok (n : node) (t : nat) (jb : job) : Prop :=
  exists th, nth_error (P2PServer.s_threads (n_srv n)) t = Some th /\
  match jb with
  | JReset => exists p i, th = P2PServer.TPiece p i P2PServer.PRun
  | JBlock d => exists p, th = P2PServer.THandler p P2PServer.HRequest
  | JCall j => exists w ts st, n_sto n = Running w ts /\ nth_error ts j = Some st /\ (forall r, th_pc st <> Done r) /\ calls_it th (mget Nat.eqb t (n_msgs n)) (th_call st)
  end.
Definition msgs_ok (n : node) (ev : list nevent) : Prop := forall t p h, nth_error (P2PServer.s_threads (n_srv n)) t = Some (P2PServer.THandler p h) ->
  NodeServerProofs.at_storage (P2PServer.THandler p h) = true ->
  exists m, mget Nat.eqb t (n_msgs n) = Some m /\ NodeServerProofs.calls h m /\ on_wire m = true /\ received ev p m.
Definition asks_ok (n : node) (ev : list nevent) : Prop := forall t p i, nth_error (P2PServer.s_threads (n_srv n)) t = Some (P2PServer.TPiece p i P2PServer.PRun) ->
  In (NEv (P2PServer.EvRequest p i)) ev.
(** A block that is being sent was found for the request. *)
Definition found_ok (n : node) (ev : list nevent) : Prop := forall t d m, mget Nat.eqb t (n_jobs n) = Some (JBlock d) -> mget Nat.eqb t (n_msgs n) = Some m ->
  In (NRet t (CGet (m_index m) (m_begin m) (m_length m)) (RBlock d)) ev.
Record live (n : node) (ev : list nevent) : Prop := {
  l_run : exists w ts, n_sto n = Running w ts /\ P2PServer.s_have (n_srv n) = t_bitfield (w_mem w);
  l_jobs : forall t jb, mget Nat.eqb t (n_jobs n) = Some jb -> job_ok n t jb;
  l_inj : forall t t' j, mget Nat.eqb t (n_jobs n) = Some (JCall j) -> mget Nat.eqb t' (n_jobs n) = Some (JCall j) -> t = t';
  l_found : found_ok n ev;
  l_msgs : msgs_ok n ev;
  l_asks : asks_ok n ev }.
(** Where calls and uploads come from. *)
Definition ret_ok (ev : list nevent) (x : nevent) : Prop :=
  match x with
  | NRet _ (CPut k b d) _ => exists p m, received ev p m /\ m_type m = PIECE /\ on_wire m = true /\ k = m_index m /\ b = m_begin m /\ d = m_piece m
  | NRet _ (CGet k b len) _ => exists p m, received ev p m /\ m_type m = REQUEST /\ on_wire m = true /\ k = m_index m /\ b = m_begin m /\ len = m_length m
  | NRet _ (CReset i) _ | NRet _ (CWait i) _ => exists p, In (NEv (P2PServer.EvRequest p i)) ev
  | NRet _ CWaitAll _ => False
  | NServed p x => exists t m d, received ev p m /\ m_type m = REQUEST /\ on_wire m = true /\ In (NRet t (CGet (m_index m) (m_begin m) (m_length m)) (RBlock d)) ev /\ x = mk_piece (m_index m) (m_begin m) d
  | NEv _ => True
  end.
Record ninv (n : node) (ev : list nevent) : Prop := {
  i_srv : exists l, sruns (P2PServer.started (t_bitfield (w_mem w0))) l = Some (n_srv n, srv_events ev);
  i_sto : exists ls, execs (Running w0 []) ls = Some (n_sto n, sto_events ev);
  i_live : P2PServer.s_crashed (n_srv n) = false -> live n ev;
  i_rets : forall x, In x ev -> ret_ok ev x }.
Lemma received_more ev e p m : received ev p m -> received (ev ++ e) p m. Proof. intros H. apply in_or_app. now left. Qed.
Lemma ret_more ev e x : ret_ok ev x -> ret_ok (ev ++ e) x.
Proof.
  unfold ret_ok. destruct x as [x|t [k b d|k b len|k|k|] r|p m]; auto.
  - intros (p & m & H & X). exists p, m. split; [now apply received_more|exact X].
  - intros (p & m & H & X). exists p, m. split; [now apply received_more|exact X].
  - intros (p & H). exists p. apply in_or_app. now left.
  - intros (p & H). exists p. apply in_or_app. now left.
  - intros (t & m' & d & H & A & B & C & D). exists t, m', d. split; [now apply received_more|]. split; [exact A|]. split; [exact B|]. split; [apply in_or_app; now left|exact D].
Qed.
Lemma sto_inv n ev : ninv n ev -> exists ls, execs (Dead f0 tick0) ls = Some (n_sto n, es0 ++ sto_events ev).
Proof using loaded. intros I. destruct (i_sto _ _ I) as [ls E]. exists (ls0 ++ ls). eapply execs_app; eassumption. Qed.
Lemma sto_inv' n ev : ninv n ev -> inv sha1 cfg f0 (n_sto n).
Proof using loaded unt ok. intros I. destruct (sto_inv _ _ I) as [ls E]. exact (execs_inv sha1 cfg env ok _ _ _ _ _ unt E). Qed.
Lemma ninv_start : ninv (nstart (Running w0 [])) [].
Proof.
  constructor.
  - exists []. reflexivity.
  - exists []. reflexivity.
  - intros _. constructor.
    + do 2 eexists. split; reflexivity.
    + intros t jb H. discriminate H.
    + intros t t' j H. discriminate H.
    + intros t d m H. discriminate H.
    + intros [|t] p h H; discriminate H.
    + intros [|t] p i H; discriminate H.
  - intros x [].
Qed.
(** The server moves on: who is still in a call, and who comes to one. *)
Lemma msgs_step n ev a s e n' ev' : live n ev -> free_to n a = true \/ (forall t m, a <> P2PServer.AGo t (P2PServer.CMsg m)) -> sexec (n_srv n) a = Some (s, e) ->
  P2PServer.s_crashed s = false -> n_srv n' = s -> n_msgs n' = note a n -> (forall x, In x e -> In (NEv x) ev') -> msgs_ok n' (ev ++ ev') /\ asks_ok n' (ev ++ ev').
Proof.
  intros L F E C <- M Ev. split.
  - intros t p h T A. destruct (NodeServerProofs.at_storage_frame _ _ _ _ _ _ _ _ _ E C T A) as [[T0 N]|[(p' & m & h' & X & -> & T0 & -> & K)|(p' & i & X & _)]]; [| |discriminate X].
    + destruct (l_msgs _ _ L _ _ _ T0 A) as (m & G & K & W & R). exists m. split; [|split; [exact K|split; [exact W|now apply received_more]]].
      rewrite M. unfold note. destruct a as [u c| | | | | | | | | |]; try exact G. destruct c; try exact G. rewrite P2PServerProofs.mget_put.
      destruct (Nat.eqb u t) eqn:Q; [|rewrite (P2PServerProofs.mget_del _ neq_iff'), Q; exact G]. apply Nat.eqb_eq in Q as ->. exfalso. apply N. eexists. reflexivity.
    + injection X as <- <-. exists m. split; [rewrite M; cbn [note]; rewrite P2PServerProofs.mget_put, Nat.eqb_refl; reflexivity|]. split; [exact K|].
      split; [|apply in_or_app; right; apply Ev; now left]. destruct F as [F|F]; [|now destruct (F t m)]. cbn in F. rewrite T0 in F. now apply andb_prop in F as [_ F].
  - intros t p i T. destruct (NodeServerProofs.at_storage_frame _ _ _ _ _ _ _ _ _ E C T eq_refl) as [[T0 N]|[(p' & m & h' & X & _)|(p' & i' & X & _ & I)]]; [|discriminate X|].
    + apply in_or_app. left. exact (l_asks _ _ L _ _ _ T0).
    + injection X as <- <-. apply in_or_app. right. now apply Ev.
Qed.
Lemma msgs_keep n ev n' ev' : live n ev -> n_srv n' = n_srv n -> n_msgs n' = n_msgs n -> msgs_ok n' (ev ++ ev') /\ asks_ok n' (ev ++ ev').
Proof.
  intros L S M. split.
  - intros t p h T A. rewrite S in T. destruct (l_msgs _ _ L _ _ _ T A) as (m & G & K & W & R). exists m. rewrite M. repeat split; auto. now apply received_more.
  - intros t p i T. rewrite S in T. apply in_or_app. left. exact (l_asks _ _ L _ _ _ T).
Qed.
Lemma note_other a n t : ~ P2PServerSpec.turn_of t a -> mget Nat.eqb t (note a n) = mget Nat.eqb t (n_msgs n).
Proof.
  intros N. unfold note. destruct a as [u c| | | | | | | | | |]; try reflexivity. destruct c; try reflexivity. rewrite P2PServerProofs.mget_put.
  destruct (Nat.eqb u t) eqn:Q; [|now rewrite (P2PServerProofs.mget_del _ neq_iff'), Q]. apply Nat.eqb_eq in Q as ->. exfalso. apply N. eexists. reflexivity.
Qed.
Lemma end_job_get a n t jb : mget Nat.eqb t (end_job a n) = Some jb -> mget Nat.eqb t (n_jobs n) = Some jb /\ ~ P2PServerSpec.turn_of t a.
Proof.
  unfold end_job. destruct a as [u c| | | | | | | | | |]; try (intros H; split; [exact H|]; intros [x X]; discriminate X).
  rewrite (P2PServerProofs.mget_del _ neq_iff'). destruct (Nat.eqb u t) eqn:Q; [discriminate|]. intros H. split; [exact H|]. intros [x X]. injection X as -> _. now rewrite Nat.eqb_refl in Q.
Qed.
(** The calls of others are not touched. *)
Lemma job_keep n n' t jb : job_ok n t jb -> (forall th, nth_error (P2PServer.s_threads (n_srv n)) t = Some th -> nth_error (P2PServer.s_threads (n_srv n')) t = Some th) ->
  mget Nat.eqb t (n_msgs n') = mget Nat.eqb t (n_msgs n) ->
  (forall j w ts st, jb = JCall j -> n_sto n = Running w ts -> nth_error ts j = Some st -> exists w' ts', n_sto n' = Running w' ts' /\ nth_error ts' j = Some st) -> job_ok n' t jb.
Proof.
  intros (th & T & H) S M K. exists th. split; [now apply S|]. destruct jb as [j| |]; [|exact H..]. destruct H as (w & ts & st & A & B & D & F).
  destruct (K _ _ _ _ eq_refl A B) as (w' & ts' & A' & B'). exists w', ts', st. rewrite M. auto.
Qed.
Lemma rets_keep ev e : (forall x, In x ev -> ret_ok ev x) -> (forall x, In x e -> ret_ok (ev ++ e) x) -> forall x, In x (ev ++ e) -> ret_ok (ev ++ e) x.
Proof. intros A B x X. apply in_app_or in X as [X|X]; [apply ret_more; auto|auto]. Qed.
Lemma rets_srv ev e : forall x, In x (map NEv e) -> ret_ok ev x.
Proof. intros x X. apply in_map_iff in X as (y & <- & _). exact I. Qed.

Lemma calls_inv th m c : calls_it th m c ->
  (exists p x, th = P2PServer.THandler p P2PServer.HRequest /\ m = Some x /\ c = CGet (m_index x) (m_begin x) (m_length x)) \/
  (exists p i x, th = P2PServer.THandler p (P2PServer.HPiece i) /\ m = Some x /\ c = CPut (m_index x) (m_begin x) (m_piece x)) \/
  (exists p i, th = P2PServer.TPiece p i P2PServer.PRun /\ (c = CReset i \/ c = CWait i)).
Proof.
  intros [H|H]; unfold call_of in H; P2PServerProofs.brk H; injection H as <-.
  all: first [left; do 2 eexists; repeat split; reflexivity|right; left; do 3 eexists; repeat split; reflexivity|right; right; do 2 eexists; split; [reflexivity|now auto]].
Qed.
Lemma bits_same p : match p with Running w _ => bits p = t_bitfield (w_mem w) | _ => True end. Proof. now destruct p. Qed.
Lemma events_done c q x : events_of c q = [x] -> exists r, q = Done r /\ x = Ret c r.
Proof. destruct q; try discriminate. intros [= <-]. eauto. Qed.
Lemma events_none c q : events_of c q = [] -> forall r, q <> Done r.
Proof. intros H r ->. discriminate H. Qed.
Lemma list_set_other {A} k (x : A) l j y : j <> k -> nth_error l j = Some y -> nth_error (list_set k x l) j = Some y.
Proof. intros N H. rewrite list_set_nth_neq by congruence. exact H. Qed.
Lemma list_set_this {A} k (x : A) l y : nth_error l k = Some y -> nth_error (list_set k x l) k = Some x.
Proof. revert k. induction l as [|z l IH]; intros [|k]; cbn; try discriminate; [reflexivity|apply IH]. Qed.
Lemma answer_stored c r b b' t ok' : answer c r b b' = P2PServer.CStored ok' -> (exists i x d, c = CPut i x d) /\ b <> b' /\ (forall m, P2PServer.AGo t (answer c r b b') <> P2PServer.AGo t (P2PServer.CMsg m)).
Proof.
  intros H. split; [|split].
  - unfold answer in H. destruct c; [eauto| | | |]; P2PServerProofs.brk H; discriminate H.
  - unfold answer in H. intros ->. rewrite (proj2 (bytes_eqb_eq b' b') eq_refl) in H. P2PServerProofs.brk H; discriminate H.
  - intros m X. rewrite H in X. discriminate X.
Qed.
Lemma answer_same c r b b' : (forall i x d, c = CPut i x d -> b = b') -> forall o, answer c r b b' <> P2PServer.CStored o.
Proof. intros S o H. destruct (answer_stored _ _ _ _ O _ H) as ((i & x & d & ->) & N & _). apply N. eapply S. reflexivity. Qed.
Lemma answer_msg c r b b' t u m : P2PServer.AGo t (answer c r b b') <> P2PServer.AGo u (P2PServer.CMsg m).
Proof. intros H. injection H as _ H. unfold answer in H. P2PServerProofs.brk H; discriminate H. Qed.
Lemma jobs_call n ev t j w ts : live n ev -> mget Nat.eqb t (n_jobs n) = Some (JCall j) -> n_sto n = Running w ts ->
  exists th st, nth_error (P2PServer.s_threads (n_srv n)) t = Some th /\ nth_error ts j = Some st /\ (forall r, th_pc st <> Done r) /\ calls_it th (mget Nat.eqb t (n_msgs n)) (th_call st).
Proof. intros L J S. destruct (l_jobs _ _ L _ _ J) as (th & T & w1 & ts1 & st & S1 & Q & D & K). rewrite S in S1. injection S1 as <- <-. eauto 6. Qed.
(** What the return of a call of goroutine t comes from. *)
Lemma ret_from n ev e t th c r : live n ev -> nth_error (P2PServer.s_threads (n_srv n)) t = Some th -> calls_it th (mget Nat.eqb t (n_msgs n)) c -> ret_ok (ev ++ e) (NRet t c r).
Proof.
  intros L T K. apply ret_more. destruct (calls_inv _ _ _ K) as [(p & x & -> & M & ->)|[(p & i & x & -> & M & ->)|(p & i & -> & [->| ->])]]; cbn.
  - destruct (l_msgs _ _ L _ _ _ T eq_refl) as (m & G & A & W & R). assert (m = x) as -> by congruence. exists p, x. repeat split; auto.
  - destruct (l_msgs _ _ L _ _ _ T eq_refl) as (m & G & A & W & R). assert (m = x) as -> by congruence. exists p, x. destruct A. repeat split; auto.
  - exists p. exact (l_asks _ _ L _ _ _ T).
  - exists p. exact (l_asks _ _ L _ _ _ T).
Qed.
(** The handler has sent a block, or not. *)
Lemma sent_inv n ev t c s e e0 : ninv n ev -> live n ev -> c = P2PServer.COk \/ c = P2PServer.CErr -> srv_events e0 = [] -> sto_events e0 = [] -> sexec (n_srv n) (P2PServer.AGo t c) = Some (s, e) ->
  let n' := {| n_srv := s; n_sto := n_sto n; n_jobs := mdel Nat.eqb t (n_jobs n); n_msgs := n_msgs n |} in
  (exists l, sruns (P2PServer.started (t_bitfield (w_mem w0))) l = Some (n_srv n', srv_events (ev ++ e0 ++ map NEv e))) /\
  (exists ls, execs (Running w0 []) ls = Some (n_sto n', sto_events (ev ++ e0 ++ map NEv e))) /\
  (P2PServer.s_crashed (n_srv n') = false -> live n' (ev ++ e0 ++ map NEv e)).
Proof.
  intros N L CC Z1 Z2 E n'. destruct (i_srv _ _ N) as [la RS]. destruct (i_sto _ _ N) as [lb RB]. destruct (l_run _ _ L) as (w & ts & ST & HB). split; [|split].
  - exists (la ++ [P2PServer.AGo t c]). rewrite !srv_events_app, srv_events_map, Z1. eapply sruns_one; eassumption.
  - exists lb. rewrite !sto_events_app, sto_events_map, Z2, !app_nil_r. exact RB.
  - intros C'. assert (forall u m, P2PServer.AGo t c <> P2PServer.AGo u (P2PServer.CMsg m)) as NM by (destruct CC as [-> | ->]; discriminate).
    destruct (msgs_step n ev (P2PServer.AGo t c) s e n' (e0 ++ map NEv e) L (or_intror NM) E C' eq_refl) as [M A]; [unfold n', note; cbn; destruct CC as [-> | ->]; reflexivity|intros x I; apply in_or_app; right; now apply in_map|].
    constructor; [| | | |exact M|exact A].
    + exists w, ts. cbn. split; [exact ST|]. rewrite <- HB. eapply NodeServerProofs.have_same; [exact E|]. intros u k X. destruct CC as [-> | ->]; discriminate X.
    + intros t' jb G. cbn in G. rewrite (P2PServerProofs.mget_del _ neq_iff') in G. destruct (Nat.eqb t t') eqn:Q; [discriminate|]. apply (job_keep n); [exact (l_jobs _ _ L _ _ G)| |reflexivity|].
      * intros th. eapply NodeServerProofs.others_stay; [exact E|]. intros [x X]. injection X as -> _. now rewrite Nat.eqb_refl in Q.
      * intros j w2 ts2 st _ S Q'. cbn. eauto.
    + intros t1 t2 j G G'. cbn in G, G'. rewrite (P2PServerProofs.mget_del _ neq_iff') in G, G'. destruct (Nat.eqb t t1); [discriminate|]. destruct (Nat.eqb t t2); [discriminate|]. exact (l_inj _ _ L _ _ _ G G').
    + intros t1 d m G G'. cbn in G, G'. rewrite (P2PServerProofs.mget_del _ neq_iff') in G. destruct (Nat.eqb t t1); [discriminate|]. apply in_or_app. left. exact (l_found _ _ L _ _ _ G G').
Qed.
Lemma ninv_step n ev a n' e : ninv n ev -> nexec n a = Some (n', e) -> ninv n' (ev ++ e).
Proof using loaded unt ok.
  intros N X. apply nexec_nstep in X as [C X]. pose proof (i_live _ _ N C) as L. pose proof (sto_inv' _ _ N) as SI. destruct (i_srv _ _ N) as [la RS]. destruct (i_sto _ _ N) as [lb RB].
  destruct (l_run _ _ L) as (w & ts & ST & HB).
  destruct X as [a1 s e F E|t c w1 ts1 A S1|t j f k s e J X E|t j w' ts' J X|t j w' ts' c r jb0 J X KP|t j w' ts' c r s e J X KP E|t d p m s e J T MM E|t d p m s e J T MM E].
  - (* the server *)
    constructor; cbn [n_srv n_sto].
    + exists (la ++ [a1]). rewrite srv_events_app, srv_events_map. eapply sruns_one; eassumption.
    + exists lb. rewrite sto_events_app, sto_events_map, app_nil_r. exact RB.
    + intros C'. destruct (msgs_step n ev a1 s e {| n_srv := s; n_sto := n_sto n; n_jobs := end_job a1 n; n_msgs := note a1 n |} (map NEv e) L (or_introl F) E C' eq_refl eq_refl) as [M A]; [intros x I; now apply in_map|].
      constructor; [| | | |exact M|exact A].
      * exists w, ts. cbn. split; [exact ST|]. rewrite <- HB. eapply NodeServerProofs.have_same; [exact E|]. intros t k ->. cbn in F.
        destruct (nth_error (P2PServer.s_threads (n_srv n)) t) as [th|] eqn:T; [|discriminate]. rewrite andb_true_r in F.
        unfold P2PServer.exec in E. rewrite C in E. unfold P2PServer.step_thread in E. rewrite T in E.
        destruct th as [tp []| |p h|p h|p i h|p []|p []|[]|]; try discriminate E; try (unfold P2PServer.step_handler in E; destruct (nth_error _ _); [|discriminate]; destruct h; discriminate).
        -- P2PServerProofs.brk E.
        -- unfold P2PServer.step_requester in E. destruct (nth_error _ _); [|discriminate]. destruct h; try discriminate. destruct l; discriminate.
        -- unfold P2PServer.step_piece in E. destruct (nth_error _ _); [|discriminate]. destruct h; try discriminate. destruct l; discriminate.
      * intros t jb G. cbn in G. apply end_job_get in G as [G T]. apply (job_keep n); [exact (l_jobs _ _ L _ _ G)| |now apply note_other|].
        -- intros th. eapply NodeServerProofs.others_stay; eassumption.
        -- intros j w2 ts2 st _ S Q. cbn. eauto.
      * intros t t' j G G'. cbn in G, G'. apply end_job_get in G as [G _]. apply end_job_get in G' as [G' _]. exact (l_inj _ _ L _ _ _ G G').
      * intros t d m G G'. cbn in G, G'. apply end_job_get in G as [G N']. rewrite note_other in G' by exact N'. apply in_or_app. left. exact (l_found _ _ L _ _ _ G G').
    + apply rets_keep; [exact (i_rets _ _ N)|apply rets_srv].
  - (* a call is made *)
    assert (w1 = w /\ ts1 = ts) as [-> ->] by (split; congruence). rewrite app_nil_r. constructor; cbn [n_srv n_sto].
    + exists la. exact RS.
    + exists (lb ++ [LCall c]). rewrite <- (app_nil_r (sto_events ev)). eapply execs_one; [exact RB|]. rewrite ST. reflexivity.
    + intros C'. pose proof (msgs_keep n ev {| n_srv := n_srv n; n_sto := Running w (ts ++ [{| th_call := c; th_pc := Start |}]); n_jobs := mput Nat.eqb t (JCall (List.length ts)) (n_jobs n); n_msgs := n_msgs n |} [] L eq_refl eq_refl) as [M A'].
      rewrite app_nil_r in M, A'. constructor; [| | | |exact M|exact A'].
      * do 2 eexists. split; [reflexivity|exact HB].
      * intros t' jb G. cbn in G. rewrite P2PServerProofs.mget_put in G. destruct (Nat.eqb t t') eqn:Q.
        -- injection G as <-. apply Nat.eqb_eq in Q as <-. unfold at_call in A. destruct (nth_error (P2PServer.s_threads (n_srv n)) t) as [th|] eqn:T; [|discriminate].
           exists th. split; [exact T|]. do 3 eexists. split; [reflexivity|]. split; [rewrite nth_error_app2, Nat.sub_diag by lia; reflexivity|]. split; [discriminate|]. cbn.
           destruct (mget Nat.eqb t (n_jobs n)) as [[j| |d]|] eqn:G; [|now right| |now left]; exfalso; unfold call_of in A; destruct th as [| |p []| |p i []| | | |]; try discriminate A; destruct (mget Nat.eqb t (n_msgs n)); discriminate A.
        -- rewrite (P2PServerProofs.mget_del _ neq_iff'), Q in G. apply (job_keep n); [exact (l_jobs _ _ L _ _ G)|auto|reflexivity|].
           intros j w2 ts2 st _ S T. cbn. do 2 eexists. split; [reflexivity|]. assert (ts2 = ts) as -> by congruence. rewrite nth_error_app1; [exact T|]. apply nth_error_Some. congruence.
      * assert (forall u, mget Nat.eqb u (n_jobs n) = Some (JCall (List.length ts)) -> False) as FR.
        { intros u G. destruct (jobs_call _ _ _ _ _ _ L G ST) as (th & st & _ & Q & _). apply nth_error_Some_lt in Q. lia. }
        intros t1 t2 j G G'. cbn in G, G'. rewrite P2PServerProofs.mget_put in G, G'.
        destruct (Nat.eqb t t1) eqn:Q1, (Nat.eqb t t2) eqn:Q2; try (apply Nat.eqb_eq in Q1); try (apply Nat.eqb_eq in Q2); try congruence.
        -- injection G as <-. rewrite (P2PServerProofs.mget_del _ neq_iff'), Q2 in G'. now apply FR in G'.
        -- injection G' as <-. rewrite (P2PServerProofs.mget_del _ neq_iff'), Q1 in G. now apply FR in G.
        -- rewrite (P2PServerProofs.mget_del _ neq_iff'), Q1 in G. rewrite (P2PServerProofs.mget_del _ neq_iff'), Q2 in G'. exact (l_inj _ _ L _ _ _ G G').
      * intros t1 d m G G'. cbn in G, G'. rewrite P2PServerProofs.mget_put in G. destruct (Nat.eqb t t1) eqn:Q1; [discriminate G|]. rewrite (P2PServerProofs.mget_del _ neq_iff'), Q1 in G. exact (l_found _ _ L _ _ _ G G').
    + exact (i_rets _ _ N).
  - (* a panic in a call *)
    constructor; cbn [n_srv n_sto].
    + exists (la ++ [P2PServer.AGo t P2PServer.CPanic]). rewrite srv_events_app, srv_events_map. eapply sruns_one; eassumption.
    + exists (lb ++ [LStep j]). rewrite sto_events_app, sto_events_map. eapply execs_one; eassumption.
    + intros C'. exfalso. destruct (jobs_call _ _ _ _ _ _ L J ST) as (th & st & T & _ & _ & K). unfold P2PServer.exec in E. rewrite C in E. unfold P2PServer.step_thread in E. rewrite T in E.
      destruct (calls_inv _ _ _ K) as [(p & x & -> & _)|[(p & i & x & -> & _)|(p & i & -> & _)]]; unfold P2PServer.step_handler, P2PServer.step_piece, P2PServer.crash in E; destruct (nth_error _ _) in E; try discriminate E; injection E as <- <-; discriminate C'.
    + apply rets_keep; [exact (i_rets _ _ N)|apply rets_srv].
  - (* within a call *)
    rewrite app_nil_r. pose proof X as X0. rewrite ST in X0. pose proof (jobs_call _ _ _ _ _ _ L J ST) as (th & st & T & Q & D & K).
    pose proof X0 as X1. apply step_shape in X0 as (st' & o & Q' & _ & X0). assert (st' = st) as -> by congruence. destruct o as [w2 q|w2]; [|destruct X0; discriminate]. destruct X0 as [X0 EV]. injection X0 as -> ->.
    constructor; cbn [n_srv n_sto].
    + exists la. exact RS.
    + exists (lb ++ [LStep j]). rewrite <- (app_nil_r (sto_events ev)). eapply execs_one; eassumption.
    + intros C'. match goal with |- live ?m _ => pose proof (msgs_keep n ev m [] L eq_refl eq_refl) as [M A'] end. rewrite app_nil_r in M, A'. constructor; [| | |exact (l_found _ _ L)|exact M|exact A'].
      * do 2 eexists. split; [reflexivity|]. cbn. rewrite HB. rewrite ST in SI. destruct (step_bits sha1 cfg env ok _ _ _ _ _ _ _ _ SI X1 Q) as [<-|(k & b & d & r & _ & R & _)]; [reflexivity|]. discriminate R.
      * intros t' jb G. cbn in G. destruct (Nat.eq_dec t' t) as [->|Nt].
        -- assert (jb = JCall j) as -> by congruence. exists th. split; [exact T|]. do 3 eexists. split; [reflexivity|]. split; [eapply list_set_this; exact Q|]. split; [eapply events_none; symmetry; exact EV|exact K].
        -- apply (job_keep n); [exact (l_jobs _ _ L _ _ G)|auto|reflexivity|]. intros j' w2' ts2 st2 -> S T2. cbn. do 2 eexists. split; [reflexivity|]. assert (ts2 = ts) as -> by congruence.
           apply list_set_other; [|exact T2]. intros ->. apply Nt. exact (l_inj _ _ L _ _ _ G J).
      * exact (l_inj _ _ L).
    + exact (i_rets _ _ N).
  - (* ResetPiece returned, or GetBlock a block *)
    pose proof X as X0. rewrite ST in X0. pose proof (jobs_call _ _ _ _ _ _ L J ST) as (th & st & T & Q & D & K).
    pose proof X0 as X1. apply step_shape in X0 as (st' & o & Q' & _ & X0). assert (st' = st) as -> by congruence. destruct o as [w2 q|w2]; [|destruct X0; discriminate]. destruct X0 as [X0 EV]. injection X0 as -> ->.
    symmetry in EV. apply events_done in EV as (r' & -> & EV). injection EV as EC <-. rewrite <- EC in K.
    constructor; cbn [n_srv n_sto].
    + exists la. rewrite srv_events_app. cbn. rewrite app_nil_r. exact RS.
    + exists (lb ++ [LStep j]). rewrite sto_events_app. eapply execs_one; eassumption.
    + intros C'. match goal with |- live ?m (_ ++ ?x) => pose proof (msgs_keep n ev m x L eq_refl eq_refl) as [M A'] end. constructor; [| | | |exact M|exact A'].
      * do 2 eexists. split; [reflexivity|]. cbn. rewrite HB. rewrite ST in SI. destruct (step_bits sha1 cfg env ok _ _ _ _ _ _ _ _ SI X1 Q) as [<-|(k & b & d & r' & R & _)]; [reflexivity|]. assert (c = CPut k b d) as -> by congruence. discriminate KP.
      * intros t' jb G. cbn in G. rewrite P2PServerProofs.mget_put in G. destruct (Nat.eqb t t') eqn:QQ.
        -- injection G as <-. apply Nat.eqb_eq in QQ as <-. exists th. split; [exact T|]. destruct (calls_inv _ _ _ K) as [(p & x & -> & _ & ->)|[(p & i' & x & _ & _ & ->)|(p & i' & -> & [->| ->])]]; cbn in KP; try discriminate KP; [destruct r; try discriminate KP|]; injection KP as <-; eauto.
        -- rewrite (P2PServerProofs.mget_del _ neq_iff'), QQ in G. apply (job_keep n); [exact (l_jobs _ _ L _ _ G)|auto|reflexivity|].
           intros j' w2' ts2 st2 -> S T2. cbn. do 2 eexists. split; [reflexivity|]. assert (ts2 = ts) as -> by congruence.
           apply list_set_other; [|exact T2]. intros ->. pose proof (l_inj _ _ L _ _ _ G J). subst. now rewrite Nat.eqb_refl in QQ.
      * intros t1 t2 j' G G'. cbn in G, G'. rewrite P2PServerProofs.mget_put in G, G'. assert (forall j, jb0 <> JCall j) as NC by (intros jj ->; unfold kept in KP; destruct c; try discriminate KP; destruct r; discriminate KP). destruct (Nat.eqb t t1) eqn:Q1, (Nat.eqb t t2) eqn:Q2; try (exfalso; injection G as G; exact (NC _ G)); try (exfalso; injection G' as G'; exact (NC _ G')).
        rewrite (P2PServerProofs.mget_del _ neq_iff'), Q1 in G. rewrite (P2PServerProofs.mget_del _ neq_iff'), Q2 in G'. exact (l_inj _ _ L _ _ _ G G').
      * intros t1 d m G G'. cbn in G, G'. rewrite P2PServerProofs.mget_put in G. destruct (Nat.eqb t t1) eqn:Q1; [|rewrite (P2PServerProofs.mget_del _ neq_iff'), Q1 in G; apply in_or_app; left; exact (l_found _ _ L _ _ _ G G')].
        apply Nat.eqb_eq in Q1 as <-. injection G as ->. apply in_or_app. right. left. destruct (calls_inv _ _ _ K) as [(p & x & -> & MX & ->)|[(p & i' & x & _ & _ & ->)|(p & i' & -> & [->| ->])]]; cbn in KP; try discriminate KP.
        destruct r; try discriminate KP. injection KP as ->. now assert (x = m) as -> by congruence.
    + apply rets_keep; [exact (i_rets _ _ N)|]. intros x [<-|[]]. exact (ret_from _ _ _ _ _ _ _ L T K).
  - (* another call returned *)
    pose proof X as X0. rewrite ST in X0. pose proof (jobs_call _ _ _ _ _ _ L J ST) as (th & st & T & Q & D & K).
    pose proof X0 as X1. apply step_shape in X0 as (st' & o & Q' & _ & X0). assert (st' = st) as -> by congruence. destruct o as [w2 q|w2]; [|destruct X0; discriminate]. destruct X0 as [X0 EV]. injection X0 as -> ->.
    symmetry in EV. apply events_done in EV as (r' & -> & EV). injection EV as EC <-. rewrite <- EC in K.
    constructor; cbn [n_srv n_sto].
    + exists (la ++ [P2PServer.AGo t (answer c r (bits (n_sto n)) (bits (Running w2 (list_set j {| th_call := th_call st; th_pc := Done r |} ts))))]).
      rewrite srv_events_app. change (srv_events (NRet t c r :: ?x)) with (srv_events x). rewrite srv_events_map. eapply sruns_one; eassumption.
    + exists (lb ++ [LStep j]). rewrite sto_events_app. change (sto_events (NRet t c r :: ?x)) with (Ret c r :: sto_events x). rewrite sto_events_map. eapply execs_one; eassumption.
    + intros C'. match goal with |- live ?m (_ ++ ?x) => pose proof (msgs_step n ev _ s e m x L (or_intror (fun u y => answer_msg c r _ _ t u y)) E C' eq_refl (eq_sym (note_answer t c r _ _ n))) as [M A'] end.
      { intros x I. right. now apply in_map. }
      constructor; [| | | |exact M|exact A'].
      * do 2 eexists. split; [reflexivity|]. cbn [n_srv]. rewrite ST in SI. pose proof (step_bits sha1 cfg env ok _ _ _ _ _ _ _ _ SI X1 Q) as SB. rewrite ST in E. cbn [bits] in E.
        assert (t_bitfield (w_mem w2) = t_bitfield (w_mem w) -> P2PServer.s_have s = t_bitfield (w_mem w2)) as SAME.
        { intros BB. rewrite BB, <- HB. eapply NodeServerProofs.have_same; [exact E|]. intros t1 o1 Z. injection Z as _ Z. revert Z. apply answer_same. intros; congruence. }
        destruct SB as [SB|(k1 & b & d & r' & R & _ & K1 & BA)]; [now apply SAME|].
        destruct (bytes_eqb (t_bitfield (w_mem w)) (t_bitfield (w_mem w2))) eqn:BE; [apply bytes_eqb_eq in BE; now apply SAME|].
        assert (c = CPut k1 b d) as EC1 by congruence. clear EC R. subst c. destruct (calls_inv _ _ _ K) as [(p & x & _ & _ & Y)|[(p & i' & x & -> & MX & Y)|(p & i' & _ & [Y|Y])]]; try discriminate Y.
        injection Y as -> -> ->. destruct (l_msgs _ _ L _ _ _ T eq_refl) as (m & G & [_ MI] & _). assert (m = x) as -> by congruence.
        unfold answer in E. rewrite BE in E. pose proof (NodeServerProofs.have_stored _ _ _ _ _ _ _ _ _ _ E T) as HS. rewrite HB, <- MI, BA in HS. now injection HS.
      * intros t' jb G. cbn in G. rewrite (P2PServerProofs.mget_del _ neq_iff') in G. destruct (Nat.eqb t t') eqn:QQ; [discriminate|].
        assert (t' <> t) as Nt by (intros ->; now rewrite Nat.eqb_refl in QQ).
        apply (job_keep n); [exact (l_jobs _ _ L _ _ G)| |reflexivity|].
        -- intros th1. eapply NodeServerProofs.others_stay; [exact E|]. intros [cc CC]. injection CC as CC _. congruence.
        -- intros j' w2' ts2 st2 -> S T2. cbn. do 2 eexists. split; [reflexivity|]. assert (ts2 = ts) as -> by congruence.
           apply list_set_other; [|exact T2]. intros ->. apply Nt. exact (l_inj _ _ L _ _ _ G J).
      * intros t1 t2 j' G G'. cbn in G, G'. rewrite (P2PServerProofs.mget_del _ neq_iff') in G, G'. destruct (Nat.eqb t t1); [discriminate|]. destruct (Nat.eqb t t2); [discriminate|]. exact (l_inj _ _ L _ _ _ G G').
      * intros t1 d m G G'. cbn in G, G'. rewrite (P2PServerProofs.mget_del _ neq_iff') in G. destruct (Nat.eqb t t1); [discriminate|]. apply in_or_app. left. exact (l_found _ _ L _ _ _ G G').
    + apply rets_keep; [exact (i_rets _ _ N)|]. intros x [<-|I]; [exact (ret_from _ _ _ _ _ _ _ L T K)|exact (rets_srv _ _ _ I)].
  - (* a block is sent *)
    destruct (sent_inv n ev t P2PServer.COk s e [NServed p (mk_piece (m_index m) (m_begin m) d)] N L (or_introl eq_refl) eq_refl eq_refl E) as (A1 & A2 & A3).
    constructor; [exact A1|exact A2|exact A3|]. apply rets_keep; [exact (i_rets _ _ N)|]. intros x [<-|I]; [|exact (rets_srv _ _ _ I)].
    destruct (l_msgs _ _ L _ _ _ T eq_refl) as (m' & G & Y & W & R). assert (m' = m) as -> by congruence. exists t, m, d. split; [now apply received_more|]. split; [exact Y|]. split; [exact W|]. split; [|reflexivity].
    apply in_or_app. left. exact (l_found _ _ L _ _ _ J MM).
  - (* ... or not *)
    destruct (sent_inv n ev t P2PServer.CErr s e [] N L (or_intror eq_refl) eq_refl eq_refl E) as (A1 & A2 & A3). constructor; [exact A1|exact A2|exact A3|]. apply rets_keep; [exact (i_rets _ _ N)|]. intros x I. exact (rets_srv _ _ _ I).
Qed.
Lemma nruns_inv l n ev : nruns (nstart (Running w0 [])) l = Some (n, ev) -> ninv n ev.
Proof using loaded unt ok. apply nruns_ind; [exact ninv_start|]. intros. eapply ninv_step; eassumption. Qed.
End Node.
