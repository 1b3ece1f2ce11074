(** C54, C56, C57: one connection, as p2p/peer.go drives it.

    [krun_of l s ev]: a connection can go through the actions l (steps of its goroutines in
    any order: the loop that receives, calls of Choke, Unchoke, Interest, NotInterest,
    Send, requestPiece; failures and deadlines) to the state s, with the events ev. *)
From Verif Require Import GoBase GoMap PeerWire P2PConn P2PConnSpec P2PConnProofs P2PAskProofs.

(** ** Examples *)
Definition cx_block : breq := (3, 0, 4).
Definition cx_data : bytes := bs "data".
Definition cx_go (t k : nat) : list kaction := repeat (KGo t KOk) k.
(** The remote sends m and it is handled. *)
Definition cx_hear (m : message) : list kaction := KGo 0 (KMsg m) :: cx_go 0 2.
(** Goroutine t makes the call f of Choke, Unchoke, Interest or NotInterest. *)
Definition cx_flag (t : nat) (f : flag) : list kaction := KFlag f :: cx_go t 3.
(** Goroutine 0 answers a request: looks, finds the block, writes. *)
Definition cx_serve : list kaction := [KGo 0 KOk; KGo 0 (KData cx_data)] ++ cx_go 0 2.
Ltac cxrunw l tac := exists l; eexists; eexists; tac; split; [unfold krun_of; vm_compute; reflexivity|].
Ltac cxrun l := exists l; eexists; eexists; split; [unfold krun_of; vm_compute; reflexivity|].

(** ** C54 *)
(** Once the remote's CHOKE has been handled, and until an UNCHOKE is, at most one REQUEST
    is written (one that was being written); before the first UNCHOKE, none. *)
Theorem C54_no_requests_choked_partial :
  forall l s e1 e2, krun_of l s (e1 ++ e2) -> they_choke e1 = true -> tally (handled UNCHOKE) e2 = 0 ->
  tally (tried REQUEST) e2 <= 1 /\ (e1 = [] -> tally (tried REQUEST) e2 = 0).
Proof. exact requests_choked. Qed.
Print Assumptions C54_no_requests_choked_partial.
(** ... which does happen: the request was even made after the CHOKE had been received. *)
Definition cx_late_request : list kaction :=
  cx_hear (mk_plain UNCHOKE) ++ [KPull [cx_block]; KGo 1 KOk; KGo 0 (KMsg (mk_plain CHOKE)); KGo 0 KOk] ++ cx_go 2 3 ++ cx_go 0 1 ++ cx_go 2 1.
Theorem C54_request_after_choke_refuted :
  exists l s ev e1 e2 e3 e4, krun_of l s ev /\
  ev = e1 ++ KRecv (mk_plain CHOKE) :: e2 ++ KPending 2 cx_block :: e3 ++ KHandled (mk_plain CHOKE) :: e4 /\ they_choke (e1 ++ KRecv (mk_plain CHOKE) :: e2 ++ KPending 2 cx_block :: e3 ++ [KHandled (mk_plain CHOKE)]) = true /\
  In (KSent (request_for cx_block)) e4 /\ tally (handled UNCHOKE) e4 = 0.
Proof.
  cxrunw cx_late_request ltac:(exists [KRecv (mk_plain UNCHOKE); KHandled (mk_plain UNCHOKE); KPulled 1 [cx_block]], [], [], [KSent (request_for cx_block)]).
  split; [reflexivity|]. split; [reflexivity|]. split; [now left|reflexivity].
Qed.
Print Assumptions C54_request_after_choke_refuted.

(** A PIECE is only written to answer a REQUEST that was handled when we did not choke,
    each REQUEST with at most one PIECE; once we choke, at most one PIECE is written (the
    answer to a request handled before); before our first Unchoke, none. *)
Theorem C54_pieces_answer :
  forall l s e1 m e2, krun_of l s (e1 ++ KSent m :: e2) -> is_type PIECE m = true ->
  exists q e0 ea eb d, e1 = e0 ++ KHandled q :: ea ++ KLooked (named q) :: eb /\ m = answer_to q d /\ is_type REQUEST q = true /\
    we_choke e0 = false /\ cancel_waits (named q) e0 = false /\ quiet ea /\ quiet eb.
Proof. exact pieces_answer. Qed.
Print Assumptions C54_pieces_answer.
Theorem C54_no_pieces_choked_partial :
  forall l s e1 e2, krun_of l s (e1 ++ e2) -> we_choke e1 = true -> tally (changed FUnchoke) e2 = 0 ->
  tally (tried PIECE) e2 <= 1 /\ (e1 = [] -> tally (tried PIECE) e2 = 0).
Proof. exact pieces_choked. Qed.
Print Assumptions C54_no_pieces_choked_partial.
(** ... which does happen, even after the CHOKE has been written. *)
Definition cx_late_piece : list kaction :=
  cx_flag 1 FUnchoke ++ cx_hear (request_for cx_block) ++ [KGo 0 KOk; KGo 0 (KData cx_data)] ++ cx_flag 2 FChoke ++ cx_go 0 2.
Theorem C54_piece_after_choke_refuted :
  exists l s ev e1 e2, krun_of l s ev /\ ev = e1 ++ KSent (mk_plain CHOKE) :: e2 /\ we_choke e1 = true /\ tally (changed FUnchoke) e2 = 0 /\ In (KSent (mk_piece 3 0 cx_data)) e2.
Proof.
  cxrunw cx_late_piece ltac:(exists [KChange FUnchoke; KSent (mk_plain UNCHOKE); KRecv (request_for cx_block); KHandled (request_for cx_block); KLooked cx_block; KChange FChoke], [KSent (mk_piece 3 0 cx_data)]).
  repeat split. now left.
Qed.
Print Assumptions C54_piece_after_choke_refuted.
(** A connection on which both happen: it was unchoked, a block was served, it was choked. *)
Example C54_case : exists l s ev, krun_of l s ev /\ they_choke ev = true /\ we_choke ev = true /\ In (KSent (mk_piece 3 0 cx_data)) ev /\ settled_flags s.
Proof.
  cxrun cx_late_piece. split; [reflexivity|]. split; [reflexivity|]. split; [vm_compute; repeat (try (left; reflexivity); right)|].
  intros th I. vm_compute in I. repeat (destruct I as [<-|I]; [split; discriminate|]). destruct I.
Qed.

(** CHOKE, UNCHOKE, INTERESTED and NOT_INTERESTED are sent once for each change of the
    flag (but for writes that fail), and a change is one. *)
Theorem C54_messages_on_changes :
  forall l s ev f, krun_of l s ev ->
  tally (tried (ftype f)) ev <= tally (changed f) ev /\ (settled_flags s -> tally (tried (ftype f)) ev = tally (changed f) ev).
Proof. exact flag_counts. Qed.
Print Assumptions C54_messages_on_changes.
Theorem C54_changes :
  forall l s e1 f e2, krun_of l s (e1 ++ KChange f :: e2) ->
  match f with FChoke => we_choke e1 = false | FUnchoke => we_choke e1 = true | FInterest => we_want e1 = false | FNotInterest => we_want e1 = true end.
Proof. exact changes_change. Qed.
Print Assumptions C54_changes.
(** What was told last is so, if the calls do not overlap and no write failed. *)
Theorem C54_told_partial :
  forall l s ev, krun_of l s ev -> settled_flags s -> (forall f, tally (failed (ftype f)) ev = 0) ->
  (in_turn FChoke FUnchoke ev -> flag_told FChoke FUnchoke true ev = we_choke ev) /\
  (in_turn FInterest FNotInterest ev -> flag_told FInterest FNotInterest false ev = we_want ev).
Proof. intros l s ev R S F. split; intros T; (apply (flags_told _ _ _ l s ev R); [discriminate|exact T|apply F|apply F|exact S]). Qed.
Print Assumptions C54_told_partial.
Example C54_told_case : exists l s ev, krun_of l s ev /\ settled_flags s /\ (forall f, tally (failed (ftype f)) ev = 0) /\ in_turn FChoke FUnchoke ev /\ tally (changed FChoke) ev = 1.
Proof.
  cxrun (cx_flag 1 FUnchoke ++ cx_flag 2 FChoke ++ cx_flag 3 FUnchoke). split; [|split; [intros []; reflexivity|split; [|reflexivity]]].
  - intros th I. vm_compute in I. repeat (destruct I as [<-|I]; [split; discriminate|]). destruct I.
  - intros e1 f e2 g e3 H _ _. change [KChange FUnchoke; KSent (mk_plain UNCHOKE); KChange FChoke; KSent (mk_plain CHOKE); KChange FUnchoke; KSent (mk_plain UNCHOKE)] with
      ([KChange FUnchoke; KSent (flag_message FUnchoke); KChange FChoke; KSent (flag_message FChoke); KChange FUnchoke; KSent (flag_message FUnchoke)]) in H.
    destruct e1 as [|x1 [|x2 [|x3 [|x4 [|x5 [|x6 e1]]]]]]; cbn [app] in H; try discriminate H; injection H; intros; try discriminate; subst;
    repeat match goal with X : _ :: _ = ?e2 ++ _ |- _ => destruct e2; cbn [app] in X; [try discriminate X|injection X; intros; try discriminate; subst] | X : [] = ?z ++ _ |- _ => destruct z; discriminate X end;
    try (vm_compute; reflexivity).
Qed.
(** If they overlap it may not be: the remote is told we are interested, after we stopped
    being so, and nothing more is sent. *)
Definition cx_overlap : list kaction := [KFlag FInterest; KGo 1 KOk; KFlag FNotInterest] ++ cx_go 2 3 ++ cx_go 1 2.
Theorem C54_told_refuted :
  exists l s ev, krun_of l s ev /\ settled_flags s /\ (forall f, tally (failed (ftype f)) ev = 0) /\ flag_told FInterest FNotInterest false ev = true /\ we_want ev = false.
Proof.
  cxrun cx_overlap. split; [|split; [intros []; reflexivity|split; reflexivity]].
  intros th I. vm_compute in I. repeat (destruct I as [<-|I]; [split; discriminate|]). destruct I.
Qed.
Print Assumptions C54_told_refuted.

(** ** C56 *)
(** A request is dropped only if a cancel for the same block was handled since the last
    request for it that was dropped; without one its block is looked up, and the answer
    sent, before the next message is handled. *)
Theorem C56_dropped_cancelled :
  forall l s e1 r e2, krun_of l s (e1 ++ KSuppressed r :: e2) ->
  cancel_waits r e1 = true /\ exists q ea eb, e1 = ea ++ KHandled q :: eb /\ is_type REQUEST q = true /\ named q = r /\ quiet eb.
Proof. exact dropped_cancelled. Qed.
Print Assumptions C56_dropped_cancelled.
Theorem C56_looked_up :
  forall l s e1 r e2, krun_of l s (e1 ++ KLooked r :: e2) ->
  cancel_waits r e1 = false /\ exists q ea eb, e1 = ea ++ KHandled q :: eb /\ is_type REQUEST q = true /\ named q = r /\ we_choke ea = false /\ quiet eb.
Proof. exact looked_not_cancelled. Qed.
Print Assumptions C56_looked_up.
Theorem C56_requests_served_partial :
  forall l s e1 q e2 m e3, krun_of l s (e1 ++ KHandled q :: e2 ++ KHandled m :: e3) -> tally any_handled e2 = 0 -> is_type REQUEST q = true -> done_request q e1 e2.
Proof. exact requests_served. Qed.
Print Assumptions C56_requests_served_partial.
(** But the cancel of a request that has been served drops the next one for the block. *)
Definition cx_cancel : message := {| m_type := CANCEL; m_index := 3; m_begin := 0; m_length := 4; m_bitfield := []; m_piece := [] |}.
Definition cx_stale_cancel : list kaction :=
  cx_flag 1 FUnchoke ++ cx_hear (request_for cx_block) ++ cx_serve ++ cx_hear cx_cancel ++ cx_hear (request_for cx_block) ++ [KGo 0 KOk].
Theorem C56_stale_cancel_refuted :
  exists l s ev e1 e2 e3, krun_of l s ev /\
  ev = e1 ++ KSent (mk_piece 3 0 cx_data) :: e2 ++ KHandled cx_cancel :: e3 /\ tally (handled CANCEL) e1 = 0 /\
  In (KHandled (request_for cx_block)) e1 /\ In (KHandled (request_for cx_block)) e3 /\ In (KSuppressed cx_block) e3.
Proof.
  cxrunw cx_stale_cancel ltac:(exists [KChange FUnchoke; KSent (mk_plain UNCHOKE); KRecv (request_for cx_block); KHandled (request_for cx_block); KLooked cx_block], [KRecv cx_cancel], [KRecv (request_for cx_block); KHandled (request_for cx_block); KSuppressed cx_block]).
  repeat split; cbn; tauto.
Qed.
Print Assumptions C56_stale_cancel_refuted.
Example C56_case : exists l s ev e1 e2 e3, krun_of l s (e1 ++ KHandled (request_for cx_block) :: e2 ++ KHandled cx_cancel :: e3) /\ ev = e3 /\ tally any_handled e2 = 0 /\ cancel_waits cx_block e1 = false.
Proof.
  exists cx_stale_cancel. eexists. exists [KRecv (request_for cx_block); KHandled (request_for cx_block); KSuppressed cx_block],
    [KChange FUnchoke; KSent (mk_plain UNCHOKE); KRecv (request_for cx_block)], [KLooked cx_block; KSent (mk_piece 3 0 cx_data); KRecv cx_cancel],
    [KRecv (request_for cx_block); KHandled (request_for cx_block); KSuppressed cx_block].
  split; [unfold krun_of; vm_compute; reflexivity|]. repeat split.
Qed.

(** ** C57 *)
(** Nothing panics: no future is delivered twice. *)
Theorem C57_no_panic : forall l s ev, krun_of l s ev -> k_crashed s = false.
Proof. intros l s ev R. exact (proj1 (proj2 (base_run l s ev R))). Qed.
Print Assumptions C57_no_panic.
(** A call is refused at once, or entered and returns at most once. *)
Theorem C57_once :
  forall l s ev t, krun_of l s ev ->
  tally (ev_pending t) ev <= 1 /\ tally (ev_returned t) ev <= tally (ev_pending t) ev /\ tally (ev_refused t) ev + tally (ev_pending t) ev <= 1.
Proof. exact call_once. Qed.
Print Assumptions C57_once.
(** It is refused at once only while the remote chokes us, and entered only for a block that
    requestPiece was called for, and if the remote did not choke us at some moment since. *)
Theorem C57_refused :
  forall l s e1 t r e2, krun_of l s (e1 ++ KRefused t r :: e2) -> they_choke e1 = true.
Proof. exact refused_choked. Qed.
Print Assumptions C57_refused.
Theorem C57_entered :
  forall l s e1 t r e2, krun_of l s (e1 ++ KPending t r :: e2) ->
  exists ea u bl eb ec, e1 = ea ++ KPulled u bl :: eb ++ ec /\ In r bl /\ they_choke (ea ++ KPulled u bl :: eb) = false.
Proof. exact pending_free. Qed.
Print Assumptions C57_entered.
Example C57_refused_case : exists l s ev, krun_of l s ev /\ In (KRefused 2 cx_block) ev /\ they_choke ev = true.
Proof. cxrun ([KPull [cx_block]; KGo 1 KOk] ++ cx_go 2 1). split; [right; now left|reflexivity]. Qed.
(** It returns nil only if the first message received since that answers it is its PIECE;
    ErrChoked only if that is a CHOKE or the remote choked us; an error of the write or
    of the deadline only after that. *)
Theorem C57_outcome :
  forall l s ev t r o e3, krun_of l s (ev ++ KReturned t r o :: e3) ->
  exists e1 e2, ev = e1 ++ KPending t r :: e2 /\ outcome r (e1 ++ [KPending t r]) e2 o.
Proof. exact returned_outcome. Qed.
Print Assumptions C57_outcome.
(** It can always return, at the latest with its deadline... *)
Theorem C57_returns :
  forall l s e1 t r e2, krun_of l s (e1 ++ KPending t r :: e2) -> tally (ev_returned t) e2 = 0 -> exists o, may_return true s t r o.
Proof. exact call_may_return. Qed.
Print Assumptions C57_returns.
(** ... and, when calls of requestPiece follow one another, without the deadline as soon
    as an answer has been received. *)
Theorem C57_answered_partial :
  forall l s e1 t r e2 v, krun_of l s (e1 ++ KPending t r :: e2) -> one_at_a_time (e1 ++ KPending t r :: e2) -> tally (ev_returned t) e2 = 0 -> first_answer r e2 = Some v ->
  exists o, may_return false s t r o.
Proof.
  intros l s e1 t r e2 v R O N A. destruct (pending_thread _ _ _ _ _ _ R N) as (q & Q & U). apply (call_answered l s e1 t r e2 v R N); [|exact A]. exact (no_other l s _ R O t r q Q U e1 e2 eq_refl).
Qed.
Print Assumptions C57_answered_partial.
(** Then there are never more than 16 requests at a time. *)
Theorem C57_at_most_16 : forall l s ev, krun_of l s ev -> one_at_a_time ev -> outstanding ev <= 16.
Proof. exact outstanding_16. Qed.
Print Assumptions C57_at_most_16.
Definition cx_answered : list kaction :=
  cx_hear (mk_plain UNCHOKE) ++ [KPull [cx_block; (3, 4, 4)]] ++ cx_go 1 2 ++ cx_go 2 4 ++ cx_go 3 4 ++ [KGo 0 (KMsg (mk_piece 3 0 cx_data)); KGo 0 KOk].
Example C57_case :
  exists l s e1 e2, krun_of l s (e1 ++ KPending 2 cx_block :: e2) /\ one_at_a_time (e1 ++ KPending 2 cx_block :: e2) /\ tally (ev_returned 2) e2 = 0 /\ first_answer cx_block e2 = Some None /\
    outstanding (e1 ++ KPending 2 cx_block :: e2) = 2 /\ may_return false s 2 cx_block None.
Proof.
  exists cx_answered. eexists. exists [KRecv (mk_plain UNCHOKE); KHandled (mk_plain UNCHOKE); KPulled 1 [cx_block; (3, 4, 4)]],
    [KSent (request_for cx_block); KPending 3 (3, 4, 4); KSent (request_for (3, 4, 4)); KRecv (mk_piece 3 0 cx_data)].
  split; [unfold krun_of; vm_compute; reflexivity|]. split; [|split; [reflexivity|split; [reflexivity|split; [reflexivity|]]]].
  - split.
    + intros e1 t l e2 H. assert (In (KPulled t l) (e1 ++ KPulled t l :: e2)) as I by (rewrite in_app_iff; right; now left). rewrite <- H in I. cbn in I.
      repeat (destruct I as [I|I]; [try discriminate I|]); [injection I as <- <-|destruct I]. constructor; [cbn; intros [W|[]]; discriminate W|constructor; [intros []|constructor]].
    + intros e1 t l e2 t' l' e3 H. exfalso. apply (f_equal (tally (fun e => match e with KPulled _ _ => true | _ => false end))) in H. rewrite !tally_app, !tally_cons, !tally_app, !tally_cons in H.
      cbn [b2z] in H. repeat match type of H with context [tally ?p ?e] => lazymatch goal with X : 0 <= tally p e |- _ => fail | _ => pose proof (tally_ge0 p e) end end. vm_compute (tally _ (_ :: _)) in H. vm_compute (tally _ []) in H. lia.
  - exists (cx_go 2 2). eexists. eexists. split; [unfold kgoes_on; vm_compute; reflexivity|]. split; [now left|]. split; [intros a I; exists 2%nat; left; vm_compute in I; intuition congruence|].
    intros e [<-|[]]. now right.
Qed.
(** If calls overlap, the end of one makes the other deaf: its piece is received, and it
    waits for the deadline. *)
Definition cx_deaf : list kaction :=
  cx_hear (mk_plain UNCHOKE) ++ [KPull [cx_block]; KPull [cx_block]; KGo 1 KOk; KGo 2 KOk] ++ cx_go 3 4 ++ cx_go 4 4 ++ [KGo 3 KErr; KGo 3 KOk] ++ cx_hear (mk_piece 3 0 cx_data).
Theorem C57_overlap_refuted :
  exists l s e1 e2, krun_of l s (e1 ++ KPending 4 cx_block :: e2) /\ tally (ev_returned 4) e2 = 0 /\ first_answer cx_block e2 = Some None /\ forall o, ~ may_return false s 4 cx_block o.
Proof.
  assert (exists s, krun_of cx_deaf s ([KRecv (mk_plain UNCHOKE); KHandled (mk_plain UNCHOKE); KPulled 1 [cx_block]; KPulled 2 [cx_block]; KPending 3 cx_block; KSent (request_for cx_block)] ++ KPending 4 cx_block ::
    [KSent (request_for cx_block); KReturned 3 cx_block (Some ECtx); KRecv (mk_piece 3 0 cx_data); KHandled (mk_piece 3 0 cx_data)]) /\
    nth_error (k_threads s) 4 = Some (TAsk cx_block (QWait 0)) /\ nth_error (k_futs s) 0 = Some None /\ k_inflight s = []) as (s & R & T & F & I).
  { eexists. split; [unfold krun_of; vm_compute; reflexivity|]. repeat split. }
  exists cx_deaf, s. eexists. eexists. split; [exact R|]. split; [reflexivity|]. split; [reflexivity|]. intros o. apply (stuck_waits s 4 cx_block 0 o).
  split; [exact (base_run _ _ _ R)|]. split; [exact T|]. split; [exact F|]. rewrite I. discriminate.
Qed.
Print Assumptions C57_overlap_refuted.
