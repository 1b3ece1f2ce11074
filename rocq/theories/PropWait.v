(** Theorems about Wait on a piece and on the torrent. *)
From Verif Require Import GoBase Metainfo MetainfoSpec Fs Storage StorageSys StorageSpec StorageSysSpec StorageWaitSpec PropStorage StorageWaitProofs.

(** ** C80 *)
(** Whoever waits for a piece returns once the piece is on the disk, with nil or, if the
    piece was reset in between, with the error saying so. *)
Theorem C80_piece_waiter_returns_when_stored :
  forall sha1 cfg env, config_ok cfg -> forall f tick ls w ts es j k id, untouched cfg f -> execs sha1 cfg env (Dead f tick) ls = Some (Running w ts, es) ->
  nth_error ts j = Some {| th_call := CWait k; th_pc := Waiting id |} -> on_disk cfg (w_fs w) k <> None ->
  returns_next sha1 cfg env (Running w ts) j (CWait k) RNil \/ returns_next sha1 cfg env (Running w ts) j (CWait k) (RErr EReset).
Proof. exact stored_waiter. Qed.
Print Assumptions C80_piece_waiter_returns_when_stored.
(** ... and once a ResetPiece of the piece or a PutBlock failing on it has returned since. *)
Theorem C80_piece_waiter_returns_when_ended :
  forall sha1 cfg env, config_ok cfg -> forall f tick ls w ts es j k id ls2 w2 ts2 es2 e, untouched cfg f -> execs sha1 cfg env (Dead f tick) ls = Some (Running w ts, es) ->
  nth_error ts j = Some {| th_call := CWait k; th_pc := Waiting id |} ->
  Forall same_run ls2 -> execs sha1 cfg env (Running w ts) ls2 = Some (Running w2 ts2, es2) -> In e es2 -> ends k e ->
  (exists r, nth_error ts2 j = Some {| th_call := CWait k; th_pc := Done r |}) \/ exists r, returns_next sha1 cfg env (Running w2 ts2) j (CWait k) r.
Proof. exact ended_waiter. Qed.
Print Assumptions C80_piece_waiter_returns_when_ended.
(** False for the torrent: if the last PutBlock fails to remove the piece directory, the
    content is in place and Wait on the torrent does not return for as long as the process
    runs. *)
Definition ex_fail_at (n t : nat) : choice := {| ch_fail := Nat.eqb t n; ch_part := 0; ch_keep := fun _ => true; ch_name := bs "tmp"; ch_size := 7 |}.
Definition ex_stuck : list label := LStart :: ex_put 0 0 (bs "ab") ++ ex_put 1 1 (bs "c") ++ [LCall CWaitAll; LStep 2].
Theorem C80_torrent_waiter_returns_refuted :
  exists w ts es, execs ex_id (ex_cfg ex_one) (ex_fail_at 19) (Dead ex_fs 0) ex_stuck = Some (Running w ts, es) /\
  es = [Ret (CPut 0 0 (bs "ab")) RNil; Ret (CPut 1 0 (bs "c")) (RErr EIO)] /\ content (ex_cfg ex_one) (w_fs w) = Some (bs "abc") /\
  forall ls2 p2 es2 r, Forall same_run ls2 -> execs ex_id (ex_cfg ex_one) (ex_fail_at 19) (Running w ts) ls2 = Some (p2, es2) -> ~ In (Ret CWaitAll r) es2.
Proof.
  destruct (ex_ok ex_one (or_introl eq_refl)) as [O U].
  destruct (execs ex_id (ex_cfg ex_one) (ex_fail_at 19) (Dead ex_fs 0) ex_stuck) as [[[w ts|] es]|] eqn:E; [|vm_compute in E; discriminate E..].
  exists w, ts, es. split; [reflexivity|]. pose proof E as E0. vm_compute in E0. injection E0 as Ew Et Ee.
  split; [now rewrite <- Ee|]. split; [rewrite <- Ew; reflexivity|]. intros ls2 p2 es2 r S E2.
  eapply (vain_forever ex_id (ex_cfg ex_one) (ex_fail_at 19) O); [exact U|exact E| | |exact S|exact E2]; rewrite <- Ew; [discriminate|reflexivity].
Qed.
Print Assumptions C80_torrent_waiter_returns_refuted.
(** What does hold: it returns, with nil, if no PutBlock has returned an I/O error since the
    process was started. *)
Theorem C80_torrent_waiter_returns_partial :
  forall sha1 cfg env, config_ok cfg -> forall f tick ls d t es w ts es1 ls2 w2 ts2 es2 j id, untouched cfg f ->
  execs sha1 cfg env (Dead f tick) ls = Some (Dead d t, es) -> exec sha1 cfg env (Dead d t) LStart = Some (Running w ts, es1) ->
  Forall same_run ls2 -> execs sha1 cfg env (Running w ts) ls2 = Some (Running w2 ts2, es2) -> ~ Exists io_error es2 ->
  nth_error ts2 j = Some {| th_call := CWaitAll; th_pc := Waiting id |} -> content cfg (w_fs w2) <> None ->
  returns_next sha1 cfg env (Running w2 ts2) j CWaitAll RNil.
Proof. exact torrent_waiter. Qed.
Print Assumptions C80_torrent_waiter_returns_partial.
(** Three calls wait: for the torrent, for piece 0 (twice; a reset comes between).  All blocks
    are put; then all three return. *)
Example C80_case : exists w ts es, ex_run ex_two ([LStart; LCall CWaitAll; LStep 0; LCall (CWait 0); LStep 1; LCall (CReset 0); LStep 2; LCall (CWait 0); LStep 3] ++ ex_put 4 0 (bs "ab") ++ ex_put 5 1 (bs "c")) = Some (Running w ts, es) /\
  map th_pc ts = [Waiting 0; Waiting 1; Done RNil; Waiting 3; Done RNil; Done RNil] /\ ~ Exists io_error es /\
  content (ex_cfg ex_two) (w_fs w) = Some (bs "abc") /\
  exists p, execs ex_id (ex_cfg ex_two) ex_env (Running w ts) [LStep 0; LStep 1; LStep 3] = Some (p, [Ret CWaitAll RNil; Ret (CWait 0) (RErr EReset); Ret (CWait 0) RNil]).
Proof.
  do 3 eexists. split; [vm_compute; reflexivity|]. split; [reflexivity|]. split.
  { intros X. repeat (apply Exists_cons in X as [[]|X]). inversion X. }
  split; [vm_compute; reflexivity|]. eexists. vm_compute. reflexivity.
Qed.
