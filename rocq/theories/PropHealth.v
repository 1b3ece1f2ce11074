(** Theorems about a disk that works. *)
From Verif Require Import GoBase Metainfo MetainfoSpec Fs Storage StorageSys StorageSpec StorageSysSpec StorageWaitSpec StorageHealthSpec PropStorage StorageHealthSysProofs StorageHonestProofs.

(** A working disk: every temporary name is new. *)
Definition ex_disk (t : nat) : choice := {| ch_fail := false; ch_part := 0; ch_keep := fun _ => false; ch_name := repeat "x"%byte (S t); ch_size := 7 |}.
Definition ex_live (i : info) (ls : list label) : option (proc * list event) := execs ex_id (ex_cfg i) ex_disk (Dead ex_fs 0) ls.
Lemma ex_healthy i : i = ex_one \/ i = ex_two -> works ex_disk /\ roomy (ex_cfg i) ex_disk ex_fs /\ files_fit (ex_cfg i).
Proof.
  intros H. split; [|split].
  - split.
    + intros t. split; [reflexivity|]. unfold plain_name. cbn [ex_disk ch_name]. replace (existsb _ _) with false; [destruct t; reflexivity|].
      symmetry. generalize (S t). induction n as [|n IH]; [reflexivity|exact IH].
    + intros t t' E. apply (f_equal (@List.length byte)) in E. cbn [ex_disk ch_name] in E. rewrite !repeat_length in E. lia.
  - split; [destruct H as [->| ->]; reflexivity|]. split.
    + intros q b _ L. destruct q as [|x q]; [discriminate L|]. destruct H as [->| ->]; cbn in L; repeat match type of L with (if ?c then _ else _) = _ => destruct c; [discriminate L|] end; discriminate L.
    + intros t q L. destruct q as [|a [|b [|c q]]]; cbn in L; rewrite ?Bool.andb_false_r in L; try discriminate L. destruct H as [->| ->]; cbn; rewrite ?Bool.andb_false_r; reflexivity.
  - intros a b x y A B U. destruct H as [->| ->].
    + destruct a; discriminate A.
    + destruct a as [|[|[|]]], b as [|[|[|]]]; try discriminate A; try discriminate B; try reflexivity; injection A as <-; injection B as <-; discriminate U.
Qed.

(** ** C83 *)
(** No call of a process reports an input/output error or missing data, whatever was called
    before, in whatever order the goroutines ran, and however often the process was killed
    and restarted; except a GetBlock that asks for bytes outside the piece. *)
Theorem C83_no_error_of_its_own :
  forall sha1 cfg env, config_ok cfg -> works env -> files_fit cfg ->
  forall f tick ls p es c e, untouched cfg f -> roomy cfg env f -> execs sha1 cfg env (Dead f tick) ls = Some (p, es) ->
  In (Ret c (RErr e)) es -> disk_error e -> exists k begin len, c = CGet k begin len /\ ~ in_piece cfg k begin len.
Proof. exact works_no_error. Qed.
Print Assumptions C83_no_error_of_its_own.
(** And however the process ended, it can be started again. *)
Theorem C83_can_be_started_again :
  forall sha1 cfg env, config_ok cfg -> works env -> files_fit cfg ->
  forall f tick ls d t es, untouched cfg f -> roomy cfg env f -> execs sha1 cfg env (Dead f tick) ls = Some (Dead d t, es) ->
  exists w, exec sha1 cfg env (Dead d t) LStart = Some (Running w [], []).
Proof. exact works_starts. Qed.
Print Assumptions C83_can_be_started_again.
(** A wrong piece, a ResetPiece that panics (C40), a restart, a read past the end, the right pieces, a kill in the middle of writing
    the files of the complete torrent, and a restart. *)
Example C83_case : exists d t es w, ex_live ex_two (LStart :: ex_put 0 0 (bs "xy") ++ [LCall (CReset 0); LStep 1; LStart] ++ ex_put 0 0 (bs "ab") ++ [LCall (CGet 0 1 2); LStep 1; LStep 1; LCall (CPut 1 0 (bs "c")); LStep 2; LStep 2; LCrashIn 2 9]) = Some (Dead d t, es) /\
  map (fun e => match e with Ret _ r => r end) es = [RErr (EChecksum 0 (bs "xy") (bs "ab")); RNil; RErr EIO] /\
  content (ex_cfg ex_two) d = None /\ exec ex_id (ex_cfg ex_two) ex_disk (Dead d t) LStart = Some (Running w [], []) /\ content (ex_cfg ex_two) (w_fs w) = Some (bs "abc").
Proof. do 4 eexists. split; [vm_compute; reflexivity|]. split; [reflexivity|]. split; [vm_compute; reflexivity|]. split; [vm_compute; reflexivity|]. vm_compute. reflexivity. Qed.

(** ** C84 *)
(** While only blocks of the torrent's content [c] are put, every PutBlock succeeds or finds
    its block already there. *)
Theorem C84_right_blocks_are_accepted :
  forall sha1 cfg env, config_ok cfg -> works env -> files_fit cfg -> forall c, whole sha1 cfg c ->
  forall f tick ls p es k begin data r, untouched cfg f -> roomy cfg env f -> right_puts cfg c ls ->
  execs sha1 cfg env (Dead f tick) ls = Some (p, es) -> In (Ret (CPut k begin data) r) es -> r = RNil \/ r = RErr EBlockExists.
Proof. exact right_accepted. Qed.
Print Assumptions C84_right_blocks_are_accepted.
(** Once all blocks of a piece have been put since the process was started, in any order and
    by any number of goroutines, the piece is stored. *)
Theorem C84_right_blocks_make_the_piece :
  forall sha1 cfg env, config_ok cfg -> works env -> files_fit cfg -> forall c, whole sha1 cfg c ->
  forall f tick ls d t es w ts es1 ls2 w2 ts2 es2, untouched cfg f -> roomy cfg env f -> right_puts cfg c ls2 ->
  execs sha1 cfg env (Dead f tick) ls = Some (Dead d t, es) -> exec sha1 cfg env (Dead d t) LStart = Some (Running w ts, es1) ->
  Forall same_run ls2 -> execs sha1 cfg env (Running w ts) ls2 = Some (Running w2 ts2, es2) ->
  forall k, 0 <= k < num_pieces (c_info cfg) -> (forall begin len, tile (piece_size (c_info cfg) k) begin len -> was_put k begin es2) ->
  on_disk cfg (w_fs w2) k <> None.
Proof. exact right_piece. Qed.
Print Assumptions C84_right_blocks_make_the_piece.
(** Once this holds of every piece that was not stored when the process was started, the
    torrent's content is in place with the right hashes, and whoever waits for it returns. *)
Theorem C84_right_blocks_make_the_torrent :
  forall sha1 cfg env, config_ok cfg -> works env -> files_fit cfg -> forall c, whole sha1 cfg c ->
  forall f tick ls d t es w ts es1 ls2 w2 ts2 es2, untouched cfg f -> roomy cfg env f -> right_puts cfg c ls2 ->
  execs sha1 cfg env (Dead f tick) ls = Some (Dead d t, es) -> exec sha1 cfg env (Dead d t) LStart = Some (Running w ts, es1) ->
  Forall same_run ls2 -> execs sha1 cfg env (Running w ts) ls2 = Some (Running w2 ts2, es2) ->
  (forall k, 0 <= k < num_pieces (c_info cfg) -> on_disk cfg d k <> None \/ forall begin len, tile (piece_size (c_info cfg) k) begin len -> was_put k begin es2) ->
  (exists c', content cfg (w_fs w2) = Some c' /\ whole sha1 cfg c') /\
  forall j id, nth_error ts2 j = Some {| th_call := CWaitAll; th_pc := Waiting id |} -> returns_next sha1 cfg env (Running w2 ts2) j CWaitAll RNil.
Proof. exact right_torrent. Qed.
Print Assumptions C84_right_blocks_make_the_torrent.
(** Two goroutines put piece 0, two put piece 1, after a run that stored nothing. *)
Definition ex_race : list label :=
  [LCall CWaitAll; LStep 0; LCall (CPut 0 0 (bs "ab")); LCall (CPut 0 0 (bs "ab")); LStep 2; LStep 1; LStep 1; LCall (CPut 1 0 (bs "c")); LStep 3; LStep 3; LStep 1; LStep 2; LStep 3; LCall (CPut 1 0 (bs "c")); LStep 4].
Example C84_case : whole ex_id (ex_cfg ex_two) (bs "abc") /\ right_puts (ex_cfg ex_two) (bs "abc") ex_race /\ Forall same_run ex_race /\
  exists d t es w ts es1 w2 ts2 es2, ex_live ex_two [LStart; LCall (CPut 0 0 (bs "ab")); LStep 0; LStep 0; LCrash] = Some (Dead d t, es) /\
  exec ex_id (ex_cfg ex_two) ex_disk (Dead d t) LStart = Some (Running w ts, es1) /\
  execs ex_id (ex_cfg ex_two) ex_disk (Running w ts) ex_race = Some (Running w2 ts2, es2) /\
  es2 = [Ret (CPut 0 0 (bs "ab")) RNil; Ret (CPut 0 0 (bs "ab")) (RErr EBlockExists); Ret (CPut 1 0 (bs "c")) RNil; Ret (CPut 1 0 (bs "c")) (RErr EBlockExists)] /\
  on_disk (ex_cfg ex_two) d 0 = None /\ on_disk (ex_cfg ex_two) d 1 = None /\ was_put 0 0 es2 /\ was_put 1 0 es2 /\
  content (ex_cfg ex_two) (w_fs w2) = Some (bs "abc") /\ map th_pc ts2 = [Waiting 0; Done RNil; Done (RErr EBlockExists); Done RNil; Done (RErr EBlockExists)].
Proof.
  split; [|split; [|split]].
  - split; [reflexivity|]. intros k K. change (num_pieces (c_info (ex_cfg ex_two))) with 2 in K. assert (k = 0 \/ k = 1) as [->| ->] by lia; split; reflexivity.
  - intros k b d H. repeat (destruct H as [H|H]; [try discriminate H; injection H as <- <- <-; (split; [cbn; lia|]; split; [split; [cbn; lia|]; split; [apply Z.divide_0_r|reflexivity]|reflexivity])|]). destruct H.
  - repeat constructor.
  - do 9 eexists. split; [vm_compute; reflexivity|]. split; [vm_compute; reflexivity|]. split; [vm_compute; reflexivity|]. split; [reflexivity|].
    split; [vm_compute; reflexivity|]. split; [vm_compute; reflexivity|]. split; [eexists [], _, _, _; split; [reflexivity|cbn; intuition discriminate]|]. split; [eexists [_; _], _, _, _; split; [reflexivity|cbn; intuition discriminate]|].
    split; vm_compute; reflexivity.
Qed.
