(** C43, C93, C94: what the byte counters say. *)
From Verif Require Import GoBase PeerWire Bitfield Metainfo MetainfoSpec Fs Storage StorageSpec StorageSysSpec StorageWaitSpec StorageCountSpec StorageSys StorageCountProofs
  Node NodeSpec NodeCount NodeCountSpec NodeCountProofs Announce UrlSpec Tracker TrackerSpec.
From Verif Require PropStorage PropNode PropServer PropAnnounce.

(** ** C43 *)
(** What Storage.Downloaded() is at any moment (no file operation failed): the bytes found when the
    program started, plus the sizes of the pieces that failed their check since.  Missing: the bytes verified
    since, which is what it should count instead (C43_downloaded_counts_verified_bytes_refuted). *)
Theorem C43_downloaded_value_partial :
  forall sha1 cfg env, config_ok cfg -> forall f tick ls d t es w ts es1 ls2 w2 ts2 es2, untouched cfg f -> execs sha1 cfg env (Dead f tick) ls = Some (Dead d t, es) ->
  (i_files (c_info cfg) = [] \/ content cfg d = None) -> exec sha1 cfg env (Dead d t) LStart = Some (Running w ts, es1) ->
  Forall same_run ls2 -> execs sha1 cfg env (Running w ts) ls2 = Some (Running w2 ts2, es2) -> ~ Exists io_error es2 ->
  t_downloaded (w_mem w2) = stored_bytes cfg d + failed_bytes (c_info cfg) es2.
Proof. exact downloaded_exact. Qed.
Print Assumptions C43_downloaded_value_partial.
(** No event is an I/O error. *)
Ltac no_io := let H := fresh in let X := fresh in intros H; repeat (inversion H as [? ? X|? ? X]; [exact X|clear H; rename X into H]); inversion H.
(** One piece was there, the other one fails. *)
Definition ex_boot (ls : list label) : option (proc * list event) := PropStorage.ex_run PropStorage.ex_one (LStart :: ls).
Example C43_value_case : exists d t es w ts w2 ts2 es2, ex_boot (PropStorage.ex_put 0 0 (bs "ab") ++ [LCrash]) = Some (Dead d t, es) /\
  exec PropStorage.ex_id (PropStorage.ex_cfg PropStorage.ex_one) PropStorage.ex_env (Dead d t) LStart = Some (Running w ts, []) /\
  Forall same_run (PropStorage.ex_put 0 1 (bs "x")) /\
  execs PropStorage.ex_id (PropStorage.ex_cfg PropStorage.ex_one) PropStorage.ex_env (Running w ts) (PropStorage.ex_put 0 1 (bs "x")) = Some (Running w2 ts2, es2) /\ ~ Exists io_error es2 /\
  untouched (PropStorage.ex_cfg PropStorage.ex_one) PropStorage.ex_fs /\ stored_bytes (PropStorage.ex_cfg PropStorage.ex_one) d = 2 /\ t_downloaded (w_mem w2) = 3.
Proof.
  do 8 eexists. split; [vm_compute; reflexivity|]. split; [vm_compute; reflexivity|]. split; [repeat constructor|]. split; [vm_compute; reflexivity|]. split; [no_io|]. split; [apply PropStorage.ex_ok; now left|]. split; vm_compute; reflexivity.
Qed.

(** ** C93 *)
(** The bytes PutBlock accepted since the program started are at least the ones that came to the
    disk since: nothing is stored that was not accepted. *)
Theorem C93_stored_bytes_were_accepted :
  forall sha1 cfg env, config_ok cfg -> forall f tick ls d t es w ts es1 ls2 w2 ts2 es2, untouched cfg f -> execs sha1 cfg env (Dead f tick) ls = Some (Dead d t, es) ->
  exec sha1 cfg env (Dead d t) LStart = Some (Running w ts, es1) -> Forall same_run ls2 -> execs sha1 cfg env (Running w ts) ls2 = Some (Running w2 ts2, es2) ->
  ~ Exists io_error es2 -> stored_bytes cfg (w_fs w2) - stored_bytes cfg d <= accepted es2.
Proof. exact accepted_covers_new. Qed.
Print Assumptions C93_stored_bytes_were_accepted.
(** And unless pieces were reset of which blocks had been accepted, they are at most the ones that were
    missing: no byte is accepted twice. *)
Theorem C93_no_byte_accepted_twice :
  forall sha1 cfg env, config_ok cfg -> forall f tick ls d t es w ts es1 ls2 w2 ts2 es2, untouched cfg f -> execs sha1 cfg env (Dead f tick) ls = Some (Dead d t, es) ->
  exec sha1 cfg env (Dead d t) LStart = Some (Running w ts, es1) -> Forall same_run ls2 -> execs sha1 cfg env (Running w ts) ls2 = Some (Running w2 ts2, es2) ->
  no_waste es2 -> accepted es2 <= total_size (c_info cfg) - stored_bytes cfg d.
Proof. exact accepted_at_most. Qed.
Print Assumptions C93_no_byte_accepted_twice.
(** When the download is complete, they are exactly the ones that were missing. *)
Theorem C93_accepted_at_the_end :
  forall sha1 cfg env, config_ok cfg -> forall f tick ls d t es w ts es1 ls2 w2 ts2 es2, untouched cfg f -> execs sha1 cfg env (Dead f tick) ls = Some (Dead d t, es) ->
  exec sha1 cfg env (Dead d t) LStart = Some (Running w ts, es1) -> Forall same_run ls2 -> execs sha1 cfg env (Running w ts) ls2 = Some (Running w2 ts2, es2) ->
  forall c, ~ Exists io_error es2 -> no_waste es2 -> content cfg (w_fs w2) = Some c -> accepted es2 = total_size (c_info cfg) - stored_bytes cfg d.
Proof. exact accepted_exact. Qed.
Print Assumptions C93_accepted_at_the_end.
(** One piece was there, the other one is reset, comes, and comes again. *)
Definition ex_rest : list label := [LCall (CReset 1); LStep 0] ++ PropStorage.ex_put 1 1 (bs "c") ++ [LCall (CPut 1 0 (bs "c")); LStep 2].
Example C93_case : exists d t es w ts w2 ts2 es2, ex_boot (PropStorage.ex_put 0 0 (bs "ab") ++ [LCrash]) = Some (Dead d t, es) /\
  exec PropStorage.ex_id (PropStorage.ex_cfg PropStorage.ex_one) PropStorage.ex_env (Dead d t) LStart = Some (Running w ts, []) /\
  Forall same_run ex_rest /\
  execs PropStorage.ex_id (PropStorage.ex_cfg PropStorage.ex_one) PropStorage.ex_env (Running w ts) ex_rest = Some (Running w2 ts2, es2) /\ ~ Exists io_error es2 /\ no_waste es2 /\
  untouched (PropStorage.ex_cfg PropStorage.ex_one) PropStorage.ex_fs /\ stored_bytes (PropStorage.ex_cfg PropStorage.ex_one) d = 2 /\ accepted es2 = 1 /\
  content (PropStorage.ex_cfg PropStorage.ex_one) (w_fs w2) = Some (bs "abc").
Proof.
  do 8 eexists. split; [vm_compute; reflexivity|]. split; [vm_compute; reflexivity|]. split; [repeat constructor|]. split; [vm_compute; reflexivity|]. split; [no_io|]. split.
  { intros e1 k e2 b x E. repeat (destruct e1 as [|? e1]; [try discriminate E; injection E as <- <-; intros []|cbn [app] in E; injection E as <- E]). destruct e1; discriminate E. }
  split; [apply PropStorage.ex_ok; now left|]. repeat split; vm_compute; reflexivity.
Qed.

(** ** C94 *)
(** Uploaded() and Downloaded() of the server, which the announcements carry: the bytes of the blocks sent in
    PIECE messages and the bytes of the blocks received and accepted, as int64. *)
Theorem C94_counters_are_the_bytes :
  forall sha1 cfg env hash id, config_ok cfg -> forall f l b n k ev, count_run sha1 cfg env hash id f l b n k ev ->
  k_up k = wrap_s 64 (sent_bytes ev) /\ k_down k = wrap_s 64 (accepted_bytes ev) /\ node_run sha1 cfg env hash id f l n ev.
Proof. exact counters. Qed.
Print Assumptions C94_counters_are_the_bytes.
(** What was missing at the start bounds them, and the pieces stored since are counted. *)
Theorem C94_downloaded_between :
  forall sha1 cfg env hash id, config_ok cfg -> forall f l b n k ev, count_run sha1 cfg env hash id f l b n k ev -> crashed n = false ->
  (~ Exists io_error (sto_events ev) -> stored_bytes cfg (disk n) - b <= accepted_bytes ev) /\
  (no_waste (sto_events ev) -> accepted_bytes ev <= total_size (c_info cfg) - b /\ k_down k = accepted_bytes ev).
Proof. exact down_bounds. Qed.
Print Assumptions C94_downloaded_between.
(** Piece 0 is asked for, comes, and a byte of it is sent to another peer. *)
Definition ex_counted (l : list naction) : option (node * NodeCount.counters * list nevent) :=
  match execs PropStorage.ex_id PropNode.ex_cfg PropStorage.ex_env (Dead PropStorage.ex_fs 0) [LStart] with
  | Some (Running w [], _) => cruns PropStorage.ex_id PropNode.ex_cfg PropStorage.ex_env PropServer.ex_hash PropServer.ex_self PropServer.ex_none (nstart (Running w [])) {| k_up := 0; k_down := 0 |} l
  | _ => None
  end.
Lemma ex_counts l n k ev : ex_counted l = Some (n, k, ev) -> count_run PropStorage.ex_id PropNode.ex_cfg PropStorage.ex_env PropServer.ex_hash PropServer.ex_self PropStorage.ex_fs l 0 n k ev.
Proof.
  unfold ex_counted. intros H. split; [apply PropStorage.ex_ok; now left|].
  remember (execs PropStorage.ex_id PropNode.ex_cfg PropStorage.ex_env (Dead PropStorage.ex_fs 0) [LStart]) as x eqn:E.
  destruct x as [[[w [|]|] es]|]; try discriminate H.
  exists O, [LStart], w, es, PropServer.ex_none. split; [now symmetry|]. split; [reflexivity|]. split; [|exact H].
  vm_compute in E. injection E as -> _. vm_compute. reflexivity.
Qed.
Example C94_case : exists n k ev,
  count_run PropStorage.ex_id PropNode.ex_cfg PropStorage.ex_env PropServer.ex_hash PropServer.ex_self PropStorage.ex_fs PropNode.ex_served 0 n k ev /\ crashed n = false /\
  ~ Exists io_error (sto_events ev) /\ no_waste (sto_events ev) /\ k_up k = 1 /\ k_down k = 2 /\ stored_bytes PropNode.ex_cfg (disk n) = 2 /\ In (NServed 1 (mk_piece 0 1 (bs "b"))) ev.
Proof.
  do 3 eexists. split; [apply ex_counts; vm_compute; reflexivity|]. split; [vm_compute; reflexivity|]. split; [vm_compute; no_io|]. split.
  { intros e1 k e2 b x E. vm_compute in E. repeat (destruct e1 as [|? e1]; [try discriminate E; injection E as <- <-; intros []|cbn [app] in E; injection E as <- E]). destruct e1; discriminate E. }
  split; [vm_compute; reflexivity|]. split; [vm_compute; reflexivity|]. split; [vm_compute; reflexivity|]. PropNode.among.
Qed.
