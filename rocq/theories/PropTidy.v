(** C119, C120: what storage leaves on the disk.

    Executions are those of PropStorage.v.  Temporary files are made in WorkDir/temp,
    pieces are kept in WorkDir/<info hash> ([pieces_dir]) until the torrent is complete. *)
From Verif Require Import GoBase Metainfo Fs Storage StorageSys StorageSpec StorageSysSpec StorageTidyProofs PropStorage.

(** ** C119 *)
(** If the os calls work and the process is killed, if at all, only between the steps of
    its calls (LCrash; LCrashIn and LStartCrash kill it within one), then nothing new is
    left in WorkDir/temp, and once the torrent is in place its piece files are gone.
    Missing: kills at any moment, for which it is false (below). *)
Theorem C119_no_leftovers_partial :
  forall sha1 cfg env, config_ok cfg -> (forall t, ch_fail (env t) = false) ->
  forall f tick ls p es, untouched cfg f -> execs sha1 cfg env (Dead f tick) ls = Some (p, es) ->
  (forall t j, ~ In (LCrashIn t j) ls) -> (forall j, ~ In (LStartCrash j) ls) ->
  (forall q, under_path (c_work cfg ++ [bs "temp"]) q = true -> q <> c_work cfg ++ [bs "temp"] -> lookup q f = None -> lookup q (disk_of p) = None) /\
  (content cfg (disk_of p) <> None -> forall q, under_path (pieces_dir cfg) q = true -> lookup q (disk_of p) = None).
Proof. exact no_leftovers. Qed.
(** A download with a kill and a restart on the way; afterwards the torrent is in place. *)
Example C119_case : forall i, i = ex_one \/ i = ex_two -> config_ok (ex_cfg i) /\ untouched (ex_cfg i) ex_fs /\ (forall t, ch_fail (ex_env t) = false) /\
  (forall t j, ~ In (LCrashIn t j) ex_life) /\ (forall j, ~ In (LStartCrash j) ex_life) /\
  exists p es, ex_run i ex_life = Some (p, es) /\ content (ex_cfg i) (disk_of p) = Some (bs "abc").
Proof.
  intros i Hi. destruct (ex_ok i Hi) as [C U]. split; [exact C|]. split; [exact U|]. split; [reflexivity|].
  split; [intros t j H; vm_compute in H; intuition discriminate|]. split; [intros j H; vm_compute in H; intuition discriminate|].
  destruct Hi as [->| ->]; (eexists; eexists; split; [vm_compute; reflexivity|vm_compute; reflexivity]).
Qed.

(** What is in WorkDir/temp at some moment is never removed: whatever calls, failures,
    kills and restarts follow, each file and directory there keeps what it has. *)
Theorem C119_leftovers_stay :
  forall sha1 cfg env, config_ok cfg -> forall f tick ls p es ls' p' es' y r, untouched cfg f -> execs sha1 cfg env (Dead f tick) ls = Some (p, es) ->
  execs sha1 cfg env p ls' = Some (p', es') -> lookup (c_work cfg ++ [bs "temp"; y]) (disk_of p) <> None ->
  lookup (c_work cfg ++ bs "temp" :: y :: r) (disk_of p') = lookup (c_work cfg ++ bs "temp" :: y :: r) (disk_of p).
Proof. exact leftovers_stay. Qed.
Definition ex_last : list label := LStart :: ex_put 0 0 (bs "ab") ++ [LCall (CPut 1 0 (bs "c")); LStep 1; LStep 1].
(** A kill that leaves a temporary file; a restart and calls after it. *)
Example C119_stay_case : config_ok (ex_cfg ex_one) /\ untouched (ex_cfg ex_one) ex_fs /\
  exists p es p' es', ex_run ex_one (ex_last ++ [LCrashIn 1 16]) = Some (p, es) /\ lookup [bs "w"; bs "temp"; bs "tmp"] (disk_of p) = Some (NFile (bs "c")) /\
  execs ex_id (ex_cfg ex_one) ex_env p ([LStart; LCall (CGet 0 0 2); LStep 0; LStep 0; LCrash; LStart]) = Some (p', es').
Proof.
  destruct (ex_ok ex_one) as [C U]; [now left|]. split; [exact C|]. split; [exact U|].
  do 4 eexists. split; [vm_compute; reflexivity|]. split; vm_compute; reflexivity.
Qed.

(** A kill in the middle of PutBlock leaves a temporary file (first), and one a moment
    later leaves the piece files of a complete torrent (second), although no os call
    fails.  By C119_leftovers_stay and C120 both stay for good. *)
Theorem C119_killed_leaves_files_refuted :
  exists sha1 cfg env, config_ok cfg /\ (forall t, ch_fail (env t) = false) /\
  exists f tick, untouched cfg f /\
  (exists ls d t es b, execs sha1 cfg env (Dead f tick) ls = Some (Dead d t, es) /\
     lookup (c_work cfg ++ [bs "temp"; bs "tmp"]) f = None /\ lookup (c_work cfg ++ [bs "temp"; bs "tmp"]) d = Some (NFile b)) /\
  (exists ls d t es b, execs sha1 cfg env (Dead f tick) ls = Some (Dead d t, es) /\
     content cfg d <> None /\ lookup (piece_file cfg 0) d = Some (NFile b)).
Proof.
  exists ex_id, (ex_cfg ex_one), ex_env. destruct (ex_ok ex_one) as [C U]; [now left|]. split; [exact C|]. split; [reflexivity|].
  exists ex_fs, 0%nat. split; [exact U|]. split.
  - exists (ex_last ++ [LCrashIn 1 5]). do 4 eexists. split; [vm_compute; reflexivity|]. split; vm_compute; reflexivity.
  - exists (ex_last ++ [LCrashIn 1 4]). do 4 eexists. split; [vm_compute; reflexivity|]. split; [vm_compute; discriminate|vm_compute; reflexivity].
Qed.

(** ** C120 *)
(** Once the torrent is in place nothing on the disk changes any more, whatever calls,
    failures, kills and restarts follow. *)
Theorem C120_complete_is_left_alone :
  forall sha1 cfg env, config_ok cfg -> forall f tick ls p es ls' p' es', untouched cfg f -> execs sha1 cfg env (Dead f tick) ls = Some (p, es) ->
  content cfg (disk_of p) <> None -> execs sha1 cfg env p ls' = Some (p', es') -> forall q, lookup q (disk_of p') = lookup q (disk_of p).
Proof. exact complete_left_alone. Qed.
(** Every kind of call, and a restart, after the torrent is in place. *)
Example C120_case : forall i, i = ex_one \/ i = ex_two -> config_ok (ex_cfg i) /\ untouched (ex_cfg i) ex_fs /\
  exists p es p' es', ex_run i ex_life = Some (p, es) /\ content (ex_cfg i) (disk_of p) <> None /\
  execs ex_id (ex_cfg i) ex_env p [LCrash; LStart; LCall (CPut 1 0 (bs "c")); LStep 0; LCall (CGet 0 0 2); LStep 1; LCall (CWait 1); LStep 2; LStep 2; LCrash; LStart] = Some (p', es').
Proof. intros i Hi. destruct (ex_ok i Hi) as [C U]. split; [exact C|]. split; [exact U|].
  destruct Hi as [->| ->]; (do 4 eexists; split; [vm_compute; reflexivity|]; split; [vm_compute; discriminate|vm_compute; reflexivity]).
Qed.

Print Assumptions C119_no_leftovers_partial.
Print Assumptions C119_leftovers_stay.
Print Assumptions C119_killed_leaves_files_refuted.
Print Assumptions C120_complete_is_left_alone.
