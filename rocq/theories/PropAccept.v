(** Theorems about accepted blocks. *)
From Verif Require Import GoBase Metainfo MetainfoSpec Fs Storage StorageSys StorageSpec StorageSysSpec StorageWaitSpec StorageAcceptSpec PropStorage StorageAcceptProofs.

(** ** C81 *)
(** If every block of a piece has been accepted since the process was started, and none of
    them was given up by a later ResetPiece, the piece is stored. *)
Theorem C81_all_blocks_accepted_piece_stored :
  forall sha1 cfg env, config_ok cfg -> forall f tick ls d t es w ts es1 ls2 w2 ts2 es2, untouched cfg f ->
  execs sha1 cfg env (Dead f tick) ls = Some (Dead d t, es) -> exec sha1 cfg env (Dead d t) LStart = Some (Running w ts, es1) ->
  Forall same_run ls2 -> execs sha1 cfg env (Running w ts) ls2 = Some (Running w2 ts2, es2) ->
  forall k, 0 <= k < num_pieces (c_info cfg) -> (forall begin len, tile (piece_size (c_info cfg) k) begin len -> has_block k begin es2) ->
  on_disk cfg (w_fs w2) k <> None.
Proof. exact all_blocks_piece. Qed.
Print Assumptions C81_all_blocks_accepted_piece_stored.
(** If every piece either was stored when the process was started or has had all its blocks
    accepted since, the torrent's content is in place, it has the right hash throughout, and
    whoever waits for the torrent returns with nil. *)
Theorem C81_all_blocks_accepted_torrent_complete :
  forall sha1 cfg env, config_ok cfg -> forall f tick ls d t es w ts es1 ls2 w2 ts2 es2, untouched cfg f ->
  execs sha1 cfg env (Dead f tick) ls = Some (Dead d t, es) -> exec sha1 cfg env (Dead d t) LStart = Some (Running w ts, es1) ->
  Forall same_run ls2 -> execs sha1 cfg env (Running w ts) ls2 = Some (Running w2 ts2, es2) ->
  (forall k, 0 <= k < num_pieces (c_info cfg) -> on_disk cfg d k <> None \/ forall begin len, tile (piece_size (c_info cfg) k) begin len -> has_block k begin es2) ->
  (exists c, content cfg (w_fs w2) = Some c /\ whole sha1 cfg c) /\
  forall j id, nth_error ts2 j = Some {| th_call := CWaitAll; th_pc := Waiting id |} -> returns_next sha1 cfg env (Running w2 ts2) j CWaitAll RNil.
Proof. exact all_blocks_torrent. Qed.
Print Assumptions C81_all_blocks_accepted_torrent_complete.
(** One piece is put and the process killed; after the restart a call waits for the torrent,
    piece 1 is put with a wrong length (refused), reset, and put again. *)
Definition ex_again : list label := [LCall CWaitAll; LStep 0] ++ [LCall (CPut 1 0 (bs "cc")); LStep 1; LCall (CReset 1); LStep 2] ++ ex_put 3 1 (bs "c").
Example C81_case : exists d t es w ts es1 w2 ts2 es2, ex_run ex_two ([LStart] ++ ex_put 0 0 (bs "ab") ++ [LCrash]) = Some (Dead d t, es) /\
  exec ex_id (ex_cfg ex_two) ex_env (Dead d t) LStart = Some (Running w ts, es1) /\
  execs ex_id (ex_cfg ex_two) ex_env (Running w ts) ex_again = Some (Running w2 ts2, es2) /\ Forall same_run ex_again /\
  es2 = [Ret (CPut 1 0 (bs "cc")) (RErr EBlockLength); Ret (CReset 1) RNil; Ret (CPut 1 0 (bs "c")) RNil] /\
  on_disk (ex_cfg ex_two) d 0 <> None /\ on_disk (ex_cfg ex_two) d 1 = None /\ has_block 1 0 es2 /\
  content (ex_cfg ex_two) (w_fs w2) = Some (bs "abc") /\ map th_pc ts2 = [Waiting 0; Done (RErr EBlockLength); Done RNil; Done RNil].
Proof.
  do 9 eexists. split; [vm_compute; reflexivity|]. split; [vm_compute; reflexivity|]. split; [vm_compute; reflexivity|].
  split; [repeat constructor|]. split; [reflexivity|]. split; [vm_compute; discriminate|]. split; [vm_compute; reflexivity|].
  split; [eexists [_; _], _, []; split; [reflexivity|easy]|]. split; vm_compute; reflexivity.
Qed.
