(** C133: a PutBlock that failed for an I/O error, and what can be done about it. *)
From Verif Require Import GoBase Bitfield BitfieldSpec Metainfo MetainfoSpec Fs Storage StorageSys StorageSpec StorageSysSpec PropStorage StorageRetrySpec StorageRetryProofs.

(** As [ex_env], but the os call number [a] fails. *)
Definition ex_fail (a t : nat) : choice := {| ch_fail := Nat.eqb t a; ch_part := 0; ch_keep := fun _ => false; ch_name := bs "tmp"; ch_size := 7 |}.
Definition ex_both : list label := LStart :: ex_put 0 0 (bs "ab") ++ ex_put 1 1 (bs "c").

(** ** False: after an I/O error no block of the piece is accepted again, and ResetPiece on
    it does not return (it crashes the process), for as long as the process runs. *)
Theorem C133_failed_write_is_final :
  forall sha1 cfg env, config_ok cfg -> forall f tick ls w ts es j p1 es1 k b d ls2 p2 es2, untouched cfg f ->
  execs sha1 cfg env (Dead f tick) ls = Some (Running w ts, es) ->
  exec sha1 cfg env (Running w ts) (LStep j) = Some (p1, es1) -> In (Ret (CPut k b d) (RErr EIO)) es1 ->
  Forall same_run ls2 -> execs sha1 cfg env p1 ls2 = Some (p2, es2) -> Forall (refused k) es2.
Proof. exact refused_after_io. Qed.
Print Assumptions C133_failed_write_is_final.
(** If it was the assembly of the torrent that failed, all pieces are advertised but
    Torrent.Wait does not return ... *)
Theorem C133_failed_assembly_is_not_reported :
  forall sha1 cfg env, config_ok cfg -> forall f tick ls w ts es j w1 ts1 es1 k b d, untouched cfg f ->
  execs sha1 cfg env (Dead f tick) ls = Some (Running w ts, es) ->
  exec sha1 cfg env (Running w ts) (LStep j) = Some (Running w1 ts1, es1) -> In (Ret (CPut k b d) (RErr EIO)) es1 -> torrent_waits w1.
Proof. exact io_leaves. Qed.
Print Assumptions C133_failed_assembly_is_not_reported.
(** ... and never will: nothing that is called changes the disk, no PutBlock succeeds, and
    neither ResetPiece nor Torrent.Wait returns, for as long as the process runs. *)
Theorem C133_failed_assembly_is_final :
  forall sha1 cfg env, config_ok cfg -> forall f tick ls w ts es ls2 p2 es2, untouched cfg f ->
  execs sha1 cfg env (Dead f tick) ls = Some (Running w ts, es) -> all_stored cfg w -> torrent_waits w ->
  Forall same_run ls2 -> execs sha1 cfg env (Running w ts) ls2 = Some (p2, es2) -> disk_of p2 = w_fs w /\ Forall no_way_on es2.
Proof. exact never_assembled. Qed.
Print Assumptions C133_failed_assembly_is_final.

Lemma ex_all w : advertised w = [z2b 192] -> all_stored (ex_cfg ex_one) w.
Proof. intros E k K. rewrite E. cbn in K. assert (k = 0 \/ k = 1) as [->| ->] by lia; (split; [lia|]; eexists; split; reflexivity). Qed.
(** One failing call, everything else going well: while the second piece is written (11); while
    the torrent is assembled (17).  The block is refused when it is put again, and in the
    second case the file does not appear. *)
Theorem C133_failed_put_can_be_repeated_refuted :
  (config_ok (ex_cfg ex_one) /\ untouched (ex_cfg ex_one) ex_fs) /\
  (exists w ts, execs ex_id (ex_cfg ex_one) (ex_fail 11) (Dead ex_fs 0) ex_both =
      Some (Running w ts, [Ret (CPut 0 0 (bs "ab")) RNil; Ret (CPut 1 0 (bs "c")) (RErr EIO)]) /\ advertised w = [z2b 128] /\
    (exists p, execs ex_id (ex_cfg ex_one) (ex_fail 11) (Running w ts) [LCall (CPut 1 0 (bs "c")); LStep 2; LStep 2] = Some (p, [Ret (CPut 1 0 (bs "c")) (RErr EBlockExists)])) /\
    (exists d t, execs ex_id (ex_cfg ex_one) (ex_fail 11) (Running w ts) [LCall (CReset 1); LStep 2] = Some (Dead d t, []))) /\
  (exists w ts, execs ex_id (ex_cfg ex_one) (ex_fail 17) (Dead ex_fs 0) ex_both =
      Some (Running w ts, [Ret (CPut 0 0 (bs "ab")) RNil; Ret (CPut 1 0 (bs "c")) (RErr EIO)]) /\ all_stored (ex_cfg ex_one) w /\ torrent_waits w /\
    content (ex_cfg ex_one) (w_fs w) = None /\
    (exists p, execs ex_id (ex_cfg ex_one) (ex_fail 17) (Running w ts) [LCall (CPut 1 0 (bs "c")); LStep 2; LStep 2] = Some (p, [Ret (CPut 1 0 (bs "c")) (RErr EBlockExists)])) /\
    (exists w' ts', execs ex_id (ex_cfg ex_one) (ex_fail 17) (Running w ts) [LCrash; LStart] = Some (Running w' ts', []) /\ content (ex_cfg ex_one) (w_fs w') = Some (bs "abc"))).
Proof.
  split; [apply ex_ok; now left|]. split.
  - eexists. eexists. split; [vm_compute; reflexivity|]. split; [vm_compute; reflexivity|]. split; [eexists; vm_compute; reflexivity|eexists; eexists; vm_compute; reflexivity].
  - eexists. eexists. split; [vm_compute; reflexivity|]. split; [apply ex_all; vm_compute; reflexivity|]. split; [vm_compute; reflexivity|]. split; [vm_compute; reflexivity|].
    split; [eexists; vm_compute; reflexivity|eexists; eexists; split; vm_compute; reflexivity].
Qed.
Print Assumptions C133_failed_put_can_be_repeated_refuted.

(** ** What does hold: if all pieces are advertised, a restart whose Load succeeds leaves the
    verified content in the target, and Torrent.Wait returns. *)
Theorem C133_restart_assembles_partial :
  forall sha1 cfg env, config_ok cfg -> forall f tick ls w ts es w' ts' es', untouched cfg f ->
  execs sha1 cfg env (Dead f tick) ls = Some (Running w ts, es) -> all_stored cfg w ->
  execs sha1 cfg env (Running w ts) [LCrash; LStart] = Some (Running w' ts', es') ->
  all_stored cfg w' /\ ~ torrent_waits w' /\ exists c, content cfg (w_fs w') = Some c /\ whole sha1 cfg c.
Proof. exact restart_assembles. Qed.
Print Assumptions C133_restart_assembles_partial.
