(** C106 to C112: the life of a server, from Start to the end.

    [fresh_server] is a server on which Start is called; [lruns fresh_server l] is a history
    of it: its last state and the events (Lifecycle.v).  A history may be any interleaving of
    Start, its loops and any number of calls of Stop, with any outcome of every announce.
    [reason], [at_rest], [quiet], [sent] and [count] are in LifecycleSpec.v. *)
From Verif Require Import GoBase BencTypes Metainfo Fs Storage StorageSys StorageSpec StorageSysSpec StorageReloadProofs
  Multitracker Lifecycle LifecycleSpec LifecycleProofs LifecycleThms.
From Verif Require PropStorage.

(** ** Examples: a tracker that asks for an announce every minute *)
Definition ex_answer : got gval unit := GotRes (VStruct [VStr []; VInt 60; VPtr VNil]).
Definition ex_ok : option (got gval unit) := Some ex_answer.
Definition ex_down : option (got gval unit) := Some (GotErr tt).
(** Load, listen, tell the tracker, add its peers, unchoke. *)
Definition ex_up : list laction := [AStart true; AStart true; AStarted ex_ok; AStart true; AStart true; AStart true].
Definition ex_end : list laction := [AEnd 0; AEnd 1; AEnd 2; AEnd 3; AEnd 4]%nat.
(** The user stops it. *)
Definition ex_stop : list laction := ex_up ++ [ACallStop; ASStep 0; AStopped 0 ex_ok]%nat ++ ex_end ++ [AStart true; AWatch; ASStep 1; AStopped 1 ex_ok]%nat.
(** An announce fails. *)
Definition ex_fails : list laction := ex_up ++ [ALoop 4; AAnnounced 4 ex_down; AEnd 0; AEnd 1; AEnd 2; AEnd 3; AStart true; AWatch; ASStep 0; AStopped 0 ex_ok]%nat.

(** ** C106: what Start returns *)
(** Never nil. *)
Theorem C106_start_never_returns_nil : forall l s ev e,
  lruns fresh_server l = Some (s, ev) -> In (VReturned e) ev -> exists c, e = Some c.
Proof. exact never_nil. Qed.
Print Assumptions C106_start_never_returns_nil.
(** Only if Load or Listen failed, or if the server is ending, for one of the reasons of
    C107. *)
Theorem C106_start_returns_for_a_reason : forall l s ev c,
  lruns fresh_server l = Some (s, ev) -> In (VReturned (Some c)) ev -> c = CLoad \/ c = CListen \/ (reason ev /\ li_done s = true).
Proof. exact returns_for_a_reason. Qed.
Print Assumptions C106_start_returns_for_a_reason.
(** If Load or Listen fails, Start returns that error, no goroutine runs and nothing is sent;
    if the first announce fails, Start returns that error. *)
Theorem C106_failed_start_is_reported : forall l s ev,
  lruns fresh_server l = Some (s, ev) ->
  (forall x, outcomes l = false :: x -> In (VReturned (Some CLoad)) ev /\ li_loops s = [] /\ forall e b, ~ In (VSent e b) ev) /\
  (forall x, outcomes l = true :: false :: x -> In (VReturned (Some CListen)) ev /\ li_loops s = [] /\ forall e b, ~ In (VSent e b) ev) /\
  (In (VSent STARTED false) ev -> li_crashed s = false -> In (VReturned (Some CTracker)) ev).
Proof. exact failed_start. Qed.
Print Assumptions C106_failed_start_is_reported.
Example C106_case :
  (exists s, lruns fresh_server ex_stop = Some (s, [VSent STARTED true; VStopCalled; VSent STOPPED true; VStop None; VReturned (Some CAccept); VSent STOPPED true; VStop None]) /\ at_rest s) /\
  (exists s, lruns fresh_server ex_fails = Some (s, [VSent STARTED true; VSent ANNOUNCE false; VAcceptFailed; VReturned (Some CTracker); VSent STOPPED true; VStop None])) /\
  lruns fresh_server [AStart true; AStart false] = Some (set_main (MReturned (Some CListen)) fresh_server, [VReturned (Some CListen)]) /\
  lruns fresh_server [ACallStop; AStart false; ASStep 0]%nat = Some (set_stops [SReturned (Some CNotStarted)] (set_main (MReturned (Some CLoad)) fresh_server), [VStopCalled; VReturned (Some CLoad); VStop (Some CNotStarted)]) /\
  (exists s, lruns fresh_server [AStart true; AStart true; AStarted ex_down] = Some (s, [VSent STARTED false; VReturned (Some CTracker)]) /\ li_crashed s = false).
Proof.
  split; [|split; [eexists; vm_compute; reflexivity|split; [vm_compute; reflexivity|split; [vm_compute; reflexivity|eexists; split; vm_compute; reflexivity]]]].
  eexists. split; [vm_compute; reflexivity|]. unfold at_rest. cbn. split; [eauto|]. split; [|split; [|auto]].
  - intros x p H. intuition congruence.
  - intros p H. destruct H as [<-|[<-|[]]]; eauto.
Qed.

(** If what happens first is that the listener fails, or an announce, then the error Start
    returns is that one, whatever fails later. *)
Theorem C106_first_failure_is_returned : forall l s ev a y c e,
  lruns fresh_server l = Some (s, ev) -> li_crashed s = false -> ev = a ++ y :: c -> ~ reason a ->
  In (VSent STARTED true) ev -> In (VReturned e) ev ->
  (y = VAcceptFailed -> e = Some CAccept) /\ (y = VSent ANNOUNCE false -> e = Some CTracker).
Proof. exact first_failure. Qed.
Print Assumptions C106_first_failure_is_returned.
(** An announce fails, then the listener. *)
Example C106_first_case : exists s c,
  lruns fresh_server ex_fails = Some (s, [VSent STARTED true] ++ VSent ANNOUNCE false :: VAcceptFailed :: c) /\ li_crashed s = false /\
  ~ reason [VSent STARTED true] /\ In (VReturned (Some CTracker)) c.
Proof.
  eexists. eexists. split; [vm_compute; reflexivity|]. split; [vm_compute; reflexivity|]. split; [|cbn; auto].
  unfold reason. cbn. intuition discriminate.
Qed.

(** ** C107: a server goes on until it is stopped *)
(** Until then its loops run: it accepts connections, requests pieces, dials and unchokes
    from the moment it listens, and once Start waits it also announces. *)
Theorem C107_all_loops_run : forall l s ev,
  lruns fresh_server l = Some (s, ev) -> ~ reason ev ->
  (li_main s = MTracker -> forall x, x <> LAnnounce -> exists p, In (x, p) (li_loops s) /\ p <> LEnded) /\
  (li_main s = MWait -> forall x, exists p, In (x, p) (li_loops s) /\ p <> LEnded).
Proof. exact loops_run. Qed.
Print Assumptions C107_all_loops_run.
Example C107_loops_case : exists s ev,
  lruns fresh_server ex_up = Some (s, ev) /\ ~ reason ev /\ li_main s = MWait.
Proof. eexists. eexists. split; [vm_compute; reflexivity|]. split; [|vm_compute; reflexivity]. unfold reason. cbn. intuition discriminate. Qed.
(** What ends it: a call of Stop, a failure of the listener or of an announce. *)
Theorem C107_ends_for_a_reason_partial : forall l s ev,
  lruns fresh_server l = Some (s, ev) ->
  li_done s = true \/ (li_open s = false /\ In (VSent STARTED true) ev) \/ (exists x, In (x, LEnded) (li_loops s)) -> reason ev.
Proof. exact goes_on. Qed.
Print Assumptions C107_ends_for_a_reason_partial.
Example C107_case : exists s, lruns fresh_server (ex_up ++ [ALoop 3; ALoop 4; AAnnounced 4 ex_ok; ALoop 4; ALoop 3; ALoop 3]%nat) = Some (s, [VSent STARTED true; VSent ANNOUNCE true]) /\
  li_done s = false /\ li_open s = true /\ li_main s = MWait.
Proof. eexists. split; [vm_compute; reflexivity|]. split; [|split]; reflexivity. Qed.
(** But one announce that fails ends it: whatever happens afterwards the context stays
    done, and it can come to rest without anybody calling Stop. *)
Theorem C107_failed_announce_ends_it_refuted : forall l s ev i,
  lruns fresh_server l = Some (s, ev) -> li_crashed s = false -> nth_error (li_loops s) i = Some (LAnnounce, LCall) ->
  exists s1, lexec s (AAnnounced i (Some (GotErr tt))) = Some (s1, [VSent ANNOUNCE false]) /\
    (forall l' s2 e2, lruns s1 l' = Some (s2, e2) -> li_done s2 = true) /\
    exists l' s2 e2, lruns s1 l' = Some (s2, e2) /\ Forall (quiet (GotErr tt)) l' /\ at_rest s2.
Proof. exact failed_announce. Qed.
Print Assumptions C107_failed_announce_ends_it_refuted.
(** And so does one Accept that fails, be it for a moment only (too many open files). *)
Theorem C107_failed_accept_ends_it_refuted : forall l s ev i,
  lruns fresh_server l = Some (s, ev) -> li_crashed s = false -> li_open s = true -> nth_error (li_loops s) i = Some (LServe, LSelect) ->
  exists s1, lexec s (AEnd i) = Some (s1, [VAcceptFailed]) /\
    (forall l' s2 e2, lruns s1 l' = Some (s2, e2) -> li_done s2 = true) /\
    forall g, use_start g <> Panic -> use_announce g <> Panic -> exists l' s2 e2, lruns s1 l' = Some (s2, e2) /\ Forall (quiet g) l' /\ at_rest s2.
Proof. exact failed_accept. Qed.
Print Assumptions C107_failed_accept_ends_it_refuted.
Example C107_refuted_case :
  (exists s ev, lruns fresh_server (ex_up ++ [ALoop 4%nat]) = Some (s, ev) /\ li_crashed s = false /\ li_open s = true /\
    nth_error (li_loops s) 4 = Some (LAnnounce, LCall) /\ nth_error (li_loops s) 0 = Some (LServe, LSelect)) /\
  use_start ex_answer <> Panic /\ use_announce ex_answer <> Panic /\
  (exists s ev, lruns fresh_server ex_fails = Some (s, ev) /\ at_rest s /\ ~ In VStopCalled ev).
Proof.
  split; [do 2 eexists; split; [vm_compute; reflexivity|]; repeat split; vm_compute; reflexivity|].
  split; [vm_compute; discriminate|]. split; [vm_compute; discriminate|].
  do 2 eexists. split; [vm_compute; reflexivity|]. split; [|cbn; intuition discriminate]. unfold at_rest. cbn. split; [eauto|]. split; [|split; [|auto]].
  - intros x p H. intuition congruence.
  - intros p H. destruct H as [<-|[]]; eauto.
Qed.

(** ** C108: the tracker is told of the start once, then asked, then told of the stop once *)
Theorem C108_started_at_most_once_partial : forall l s ev,
  lruns fresh_server l = Some (s, ev) -> (sent STARTED ev <= 1)%nat.
Proof. exact started_once. Qed.
Print Assumptions C108_started_at_most_once_partial.
Theorem C108_announce_after_started_partial : forall l s ev a b c,
  lruns fresh_server l = Some (s, ev) -> ev = a ++ VSent ANNOUNCE b :: c -> In (VSent STARTED true) a.
Proof. exact announce_after_started. Qed.
Print Assumptions C108_announce_after_started_partial.
(** How often it is told of the stop: once for every call of Stop that was not refused, and
    once more. *)
Theorem C108_stopped_count : forall l s ev,
  lruns fresh_server l = Some (s, ev) -> li_crashed s = false -> at_rest s -> In (VSent STARTED true) ev ->
  (sent STOPPED ev + count is_rejection ev = count is_call ev + 1)%nat.
Proof. exact stopped_count. Qed.
Print Assumptions C108_stopped_count.
(** So every server that is stopped by the user tells the tracker at least twice. *)
Theorem C108_stopped_once_refuted : forall l s ev,
  lruns fresh_server l = Some (s, ev) -> li_crashed s = false -> at_rest s -> In (VSent STARTED true) ev ->
  (count is_rejection ev < count is_call ev)%nat -> (2 <= sent STOPPED ev)%nat.
Proof. exact stopped_twice. Qed.
Print Assumptions C108_stopped_once_refuted.
(** And an announce, or the start itself, may come after the stop: the tracker then takes
    the server for a running one. *)
Theorem C108_nothing_after_stopped_refuted :
  (exists l s a b c, lruns fresh_server l = Some (s, a ++ VSent STOPPED true :: b ++ VSent ANNOUNCE true :: c) /\ at_rest s) /\
  (exists l s a b c, lruns fresh_server l = Some (s, a ++ VSent STOPPED true :: b ++ VSent STARTED true :: c) /\ at_rest s).
Proof.
  split.
  - exists (ex_up ++ [ACallStop; ASStep 0; AStopped 0 ex_ok; AWatch; ASStep 1; AStopped 1 ex_ok; ALoop 4; AAnnounced 4 ex_ok; ALoop 4]%nat ++ ex_end ++ [AStart true]).
    eexists. exists [VSent STARTED true; VStopCalled], [VStop None; VSent STOPPED true; VStop None], [VReturned (Some CAccept)].
    split; [vm_compute; reflexivity|]. unfold at_rest. cbn. split; [eauto|]. split; [|split; [|auto]].
    + intros x p H. intuition congruence.
    + intros p H. destruct H as [<-|[<-|[]]]; eauto.
  - exists ([AStart true; AStart true; ACallStop; ASStep 0; AStopped 0 ex_ok; AWatch; ASStep 1; AStopped 1 ex_ok; AStarted ex_ok; AStart true; AStart true; AStart true]%nat ++ ex_end ++ [AStart true]).
    eexists. exists [VStopCalled], [VStop None; VSent STOPPED true; VStop None], [VReturned (Some CAccept)].
    split; [vm_compute; reflexivity|]. unfold at_rest. cbn. split; [eauto|]. split; [|split; [|auto]].
    + intros x p H. intuition congruence.
    + intros p H. destruct H as [<-|[<-|[]]]; eauto.
Qed.
Print Assumptions C108_nothing_after_stopped_refuted.
Example C108_case : exists s ev, lruns fresh_server (ACallStop :: ASStep 0 :: ex_up ++ [ACallStop; ASStep 1; AStopped 1 ex_ok]%nat ++ ex_end ++ [AStart true; AWatch; ASStep 2; AStopped 2 ex_down]%nat) = Some (s, ev) /\
  sent STARTED ev = 1%nat /\ sent STOPPED ev = 2%nat /\ count is_call ev = 2%nat /\ count is_rejection ev = 1%nat /\ li_crashed s = false.
Proof. do 2 eexists. split; [vm_compute; reflexivity|]. repeat split. Qed.

(** ** C109: the tracker is told when the download is complete *)
(** It never is: no code calls Complete. *)
Theorem C109_completed_is_sent_refuted : forall l s ev,
  lruns fresh_server l = Some (s, ev) -> sent COMPLETED ev = 0%nat.
Proof. exact never_completed. Qed.
Print Assumptions C109_completed_is_sent_refuted.
Example C109_case : is_sent COMPLETED (VSent COMPLETED true) = true /\ exists s ev, lruns fresh_server ex_stop = Some (s, ev) /\ ev <> [].
Proof. split; [reflexivity|]. do 2 eexists. split; [vm_compute; reflexivity|discriminate]. Qed.

(** ** C110: Start can be called again *)
(** Start begins with Load.  If a piece of the torrent is stored, a second Load of the same
    Storage panics, unless the operating system fails first. *)
Theorem C110_second_load_panics_refuted : forall sha1 cfg env, config_ok cfg -> forall f tick ls w ts es w' r,
  untouched cfg f -> execs sha1 cfg env (Dead f tick) ls = Some (Running w ts, es) ->
  load cfg env w = (w', r) -> (exists k, 0 <= k < num_pieces (c_info cfg) /\ on_disk cfg (w_fs w) k <> None) ->
  (r = Panic \/ r = Err EIO) /\ ((forall t, ch_fail (env t) = false) -> r = Panic).
Proof. exact load_again. Qed.
Print Assumptions C110_second_load_panics_refuted.
(** As long as no piece is stored it does nothing. *)
Theorem C110_second_load_partial : forall sha1 cfg env, config_ok cfg -> forall f tick ls w ts es w' r,
  untouched cfg f -> execs sha1 cfg env (Dead f tick) ls = Some (Running w ts, es) ->
  load cfg env w = (w', r) -> (forall k, 0 <= k < num_pieces (c_info cfg) -> on_disk cfg (w_fs w) k = None) ->
  (r = Ok tt \/ r = Err EIO) /\ w_fs w' = w_fs w /\ w_mem w' = w_mem w.
Proof. exact load_again_empty. Qed.
Print Assumptions C110_second_load_partial.

(** Piece 0 is stored, then Load is called again; and Load twice with nothing stored. *)
Example C110_case :
  (exists w ts es w', PropStorage.ex_run PropStorage.ex_two (LStart :: PropStorage.ex_put 0 0 (bs "ab")) = Some (Running w ts, es) /\
    on_disk (PropStorage.ex_cfg PropStorage.ex_two) (w_fs w) 0 = Some (bs "ab") /\
    load (PropStorage.ex_cfg PropStorage.ex_two) PropStorage.ex_env w = (w', Panic)) /\
  (exists w ts es w', PropStorage.ex_run PropStorage.ex_two [LStart] = Some (Running w ts, es) /\
    load (PropStorage.ex_cfg PropStorage.ex_two) PropStorage.ex_env w = (w', Ok tt)) /\
  config_ok (PropStorage.ex_cfg PropStorage.ex_two) /\ untouched (PropStorage.ex_cfg PropStorage.ex_two) PropStorage.ex_fs.
Proof.
  split; [|split].
  - eexists. eexists. eexists. eexists. split; [vm_compute; reflexivity|]. split; vm_compute; reflexivity.
  - eexists. eexists. eexists. eexists. split; [vm_compute; reflexivity|]. vm_compute; reflexivity.
  - apply PropStorage.ex_ok. auto.
Qed.

(** ** C111: Stop *)
(** When it returns, with whatever but the error "server not started", the listener is
    closed and the loops are told to end; and so it stays. *)
Theorem C111_stopped_means_closed : forall l s ev e,
  lruns fresh_server l = Some (s, ev) -> In (VStop e) ev -> e <> Some CNotStarted -> li_open s = false /\ li_done s = true.
Proof. exact stopped_is_closed. Qed.
Print Assumptions C111_stopped_means_closed.
(** It returns that error only to those who were too early: the tracker had not been told
    anything. *)
Theorem C111_not_started : forall l s ev,
  lruns fresh_server l = Some (s, ev) -> forall a c, ev = a ++ VStop (Some CNotStarted) :: c -> forall e b, ~ In (VSent e b) a.
Proof. exact rejected_before_listening. Qed.
Print Assumptions C111_not_started.
Example C111_case :
  (exists s, lruns fresh_server [AStart true; ACallStop; ASStep 0; AStart true; AStarted ex_ok]%nat = Some (s, [VStopCalled; VStop (Some CNotStarted); VSent STARTED true]) /\ li_done s = false) /\
  (exists s ev, lruns fresh_server ex_stop = Some (s, ev) /\ In (VStop None) ev /\ li_open s = false).
Proof. split; [eexists|do 2 eexists]; (split; [vm_compute; reflexivity|]); [reflexivity|split; [cbn; tauto|reflexivity]]. Qed.

(** ** C112: a server that is ending can come to rest *)
(** Whatever the trackers answer (unless the answer makes the process crash: C31, C61), and
    without further calls by the user. *)
Theorem C112_can_come_to_rest : forall g, use_start g <> Panic -> use_announce g <> Panic -> forall l s ev,
  lruns fresh_server l = Some (s, ev) -> li_crashed s = false -> li_done s = true ->
  exists l' s' e, lruns s l' = Some (s', e) /\ Forall (quiet g) l' /\ at_rest s'.
Proof. exact comes_to_rest. Qed.
Print Assumptions C112_can_come_to_rest.
(** And then nothing of it is left that could do anything. *)
Theorem C112_rest_is_final : forall s a s' e, at_rest s -> lexec s a = Some (s', e) -> a = ACallStop \/ a = AOther.
Proof. exact rest_is_final. Qed.
Print Assumptions C112_rest_is_final.
Example C112_case :
  (exists s ev, lruns fresh_server ([AStart true; AStart true; ALoop 3; AOther; ACallStop; AEnd 0]%nat) = Some (s, ev) /\ li_crashed s = false /\ li_done s = true /\
     li_main s = MTracker /\ li_mu s = Some HOther) /\
  (exists s ev, lruns fresh_server ex_stop = Some (s, ev) /\ lexec s ACallStop <> None /\ lexec s (ALoop 4) = None).
Proof.
  split; do 2 eexists; (split; [vm_compute; reflexivity|]).
  - repeat split.
  - split; [discriminate|reflexivity].
Qed.
