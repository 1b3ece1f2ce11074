(** C138: a read is whole or an error.

    [execs], [exec]: runs of the program and their steps (StorageSys.v), here from any state
    [p], so on any disk and after any history; [Ret (CGet k b n) r]: the call GetBlock(k, b, n)
    returned [r].  [disk_of]: StorageSysSpec.v; [target], [in_piece]: StorageSpec.v. *)
From Verif Require Import GoBase BencDecode Metainfo MetainfoSpec Fs FsProofs Storage StorageSys StorageSpec StorageSysSpec StorageReadProofs.
From Verif Require PropStorage.

(** ** C138 *)
(** What GetBlock returns without an error has the length asked for. *)
Theorem C138_right_length :
  forall sha1 cfg env ls p p' es k begin length d, execs sha1 cfg env p ls = Some (p', es) -> In (Ret (CGet k begin length) (RBlock d)) es -> zlen d = length.
Proof. exact read_length. Qed.
Print Assumptions C138_right_length.
(** A step of GetBlock leaves the disk and the state of the Storage as they are, and takes the
    process down only for a length that cannot be allocated, or an index out of range while
    the torrent is not complete. *)
Theorem C138_reading_changes_nothing :
  forall sha1 cfg env w ts j th k begin length p' es, nth_error ts j = Some th -> th_call th = CGet k begin length ->
  exec sha1 cfg env (Running w ts) (LStep j) = Some (p', es) ->
  disk_of p' = w_fs w /\ (forall w' ts', p' = Running w' ts' -> w_mem w' = w_mem w) /\
  ((exists f t, p' = Dead f t) -> make_ok length = false \/ (t_coalesced (w_mem w) = false /\ ~ 0 <= k < zlen (t_pieces (w_mem w)))).
Proof.
  intros sha1 cfg env w ts j th k begin length p' es Hj Hc E. destruct (get_step sha1 cfg env w ts j th k begin length p' es Hj Hc E) as (A & B & _ & D). exact (conj A (conj B D)).
Qed.
Print Assumptions C138_reading_changes_nothing.
(** From a complete torrent of one file come the bytes at the place asked for, all of them
    there, whatever the file at TargetDir/Name holds by now. *)
Theorem C138_right_place_partial :
  forall sha1 cfg env, config_ok cfg -> forall w ts l p' es k begin length d, exec sha1 cfg env (Running w ts) l = Some (p', es) ->
  In (Ret (CGet k begin length) (RBlock d)) es -> t_coalesced (w_mem w) = true -> i_files (c_info cfg) = [] -> in_piece cfg k begin length -> 0 < length ->
  exists b, lookup (target cfg) (w_fs w) = Some (NFile b) /\
    k * i_piece_length (c_info cfg) + begin + length <= zlen b /\ d = slice b (k * i_piece_length (c_info cfg) + begin) length.
Proof. exact read_place. Qed.
Print Assumptions C138_right_place_partial.

(** With more files it is false: of a file that was cut short the missing bytes are made up
    for with bytes of the next one.  The torrent's files are n/x of one byte and n/y/z of two;
    n/x is empty here, and n/y/z begins with the bytes that are handed out as 0 and 1. *)
Definition ex_cut (z : bytes) : fs := PropStorage.ex_fs ++
  [([bs "t"; bs "n"], NDir); ([bs "t"; bs "n"; bs "x"], NFile []); ([bs "t"; bs "n"; bs "y"], NDir); ([bs "t"; bs "n"; bs "y"; bs "z"], NFile z)].
Definition ex_read (i : info) (f : fs) (k b n : Z) : option (proc * list event) :=
  execs PropStorage.ex_id (PropStorage.ex_cfg i) PropStorage.ex_env (Dead f 0) [LStart; LCall (CGet k b n); LStep 0].
Theorem C138_cut_file_refuted : exists p, config_ok (PropStorage.ex_cfg PropStorage.ex_two) /\ in_piece (PropStorage.ex_cfg PropStorage.ex_two) 0 0 2 /\
  ex_read PropStorage.ex_two (ex_cut (bs "bc")) 0 0 2 = Some (p, [Ret (CGet 0 0 2) (RBlock (bs "bc"))]).
Proof. eexists. split; [apply PropStorage.ex_ok; auto|]. split; [vm_compute; repeat split; discriminate|]. vm_compute. reflexivity. Qed.
Print Assumptions C138_cut_file_refuted.
(** One file: a cut file is an error, one with other contents is read at the right place. *)
Example C138_case_single : exists p p',
  ex_read PropStorage.ex_one (PropStorage.ex_fs ++ [([bs "t"; bs "n"], NFile (bs "a"))]) 0 0 2 = Some (p, [Ret (CGet 0 0 2) (RErr EIO)]) /\
  ex_read PropStorage.ex_one (PropStorage.ex_fs ++ [([bs "t"; bs "n"], NFile (bs "xyz"))]) 1 0 1 = Some (p', [Ret (CGet 1 0 1) (RBlock (bs "z"))]).
Proof. eexists. eexists. split; vm_compute; reflexivity. Qed.
(** More files: too few bytes in all are an error. *)
Example C138_case_multi : exists p, ex_read PropStorage.ex_two (ex_cut (bs "b")) 0 0 2 = Some (p, [Ret (CGet 0 0 2) (RErr EShortRead)]).
Proof. eexists. vm_compute. reflexivity. Qed.
(** A panic: no such piece. *)
Example C138_case_panic : exists f t, ex_read PropStorage.ex_two PropStorage.ex_fs 2 0 1 = Some (Dead f t, []).
Proof. eexists. eexists. vm_compute. reflexivity. Qed.
