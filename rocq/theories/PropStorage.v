(** C36-C47, C64-C66: storage and futures.

    An execution starts with the process not running and any file system without traces of
    the torrent; [execs (Dead f tick) ls = Some (p, es)] says that the labels [ls] (calls,
    steps of their goroutines, crashes within steps, restarts) lead to [p], the calls
    returning [es] on the way.  [env] decides every os call's failure and every temporary
    name. *)
From Verif Require Import GoBase Bitfield BitfieldSpec BencDecode Metainfo MetainfoSpec Fs Storage StorageSys StorageSpec StorageSysSpec Requests StorageClaimProofs Future FutureProofs.

(** ** A single-file torrent "abc" in pieces of 2 bytes, a two-file torrent with the same
    bytes; as hash function, the identity. *)
Definition ex_hash : bytes := repeat "0"%byte 20.
Definition ex_id (b : bytes) : bytes := b.
Definition ex_one : info := {|
  i_sha1 := ex_hash; i_piece_length := 2; i_pieces := [bs "ab"; bs "c"]; i_private := 0; i_name := bs "n"; i_length := 3; i_md5 := []; i_files := [] |}.
Definition ex_two : info := {|
  i_sha1 := ex_hash; i_piece_length := 2; i_pieces := [bs "ab"; bs "c"]; i_private := 0; i_name := bs "n"; i_length := 0; i_md5 := [];
  i_files := [{| f_length := 1; f_md5 := []; f_path := [bs "x"] |}; {| f_length := 2; f_md5 := []; f_path := [bs "y"; bs "z"] |}] |}.
Definition ex_evil : info := {|
  i_sha1 := ex_hash; i_piece_length := 2; i_pieces := [bs "ab"; bs "c"]; i_private := 0; i_name := bs "n"; i_length := 0; i_md5 := [];
  i_files := [{| f_length := 3; f_md5 := []; f_path := [bs ".."; bs ".."; bs ".."; bs "etc"] |}] |}.
Definition ex_cfg (i : info) : config := {| c_target := [bs "t"]; c_work := [bs "w"]; c_info := i |}.
Definition ex_fs : fs := [([bs "t"], NDir); ([bs "w"], NDir)].
(** All os calls succeed. *)
Definition ex_env (_ : nat) : choice := {| ch_fail := false; ch_part := 0; ch_keep := fun _ => false; ch_name := bs "tmp"; ch_size := 7 |}.
(** The j-th call and all its steps: a stored block, a read of a stored piece. *)
Definition ex_put (j : nat) (k : Z) (d : bytes) : list label := LCall (CPut k 0 d) :: repeat (LStep j) 3.
Definition ex_run (i : info) (ls : list label) : option (proc * list event) := execs ex_id (ex_cfg i) ex_env (Dead ex_fs 0) ls.
(** Store piece 0, read it, lose the process, store piece 1, read again and wait. *)
Definition ex_life : list label :=
  LStart :: ex_put 0 0 (bs "ab") ++ [LCall (CGet 0 1 1); LStep 1; LStep 1; LCrash; LStart] ++
  ex_put 0 1 (bs "c") ++ [LCall (CGet 0 1 1); LStep 1; LCall CWaitAll; LStep 2; LStep 2; LCall (CWait 1); LStep 3; LStep 3].
Lemma ex_ok i : i = ex_one \/ i = ex_two -> config_ok (ex_cfg i) /\ untouched (ex_cfg i) ex_fs.
Proof.
  intros H. split.
  - assert (W : well_formed i).
    { assert (forall i, 0 < i_piece_length i < 2 ^ 63 -> Forall (fun f => 0 <= f_length f) (i_files i) -> 0 <= total_size i < 2 ^ 63 ->
        (zlen (i_pieces i) - 1) * i_piece_length i < total_size i <= zlen (i_pieces i) * i_piece_length i -> well_formed i) as W by (unfold well_formed; tauto).
      destruct H as [->| ->]; apply W; try (cbn; lia); repeat constructor; cbn; try lia; discriminate. }
    unfold config_ok. split; [exact W|].
    destruct H as [->| ->]; (split; [vm_compute; reflexivity|]; split; [reflexivity|]; split; [vm_compute; reflexivity|];
      split; [repeat constructor; cbn; discriminate|]; split; [|split; vm_compute; reflexivity]).
    + constructor.
    + constructor; [intros [Q|[]]; discriminate|]. constructor; [intros []|constructor].
  - split; [|split; [|split]].
    + constructor; [intros [Q|[]]; discriminate|]. constructor; [intros []|constructor].
    + destruct H as [->| ->]; vm_compute; reflexivity.
    + left. destruct H as [->| ->]; vm_compute; reflexivity.
    + intros name. destruct H as [->| ->]; cbn; rewrite ?Bool.andb_false_r; reflexivity.
Qed.
Definition result_of (r : option (proc * list event)) : list result := match r with Some (_, es) => map (fun e => match e with Ret _ r => r end) es | None => [] end.
Definition proc_of (r : option (proc * list event)) : proc := match r with Some (p, _) => p | None => Dead [] 0 end.
Lemma ex_life_runs i : i = ex_one \/ i = ex_two -> exists w ts es, ex_run i ex_life = Some (Running w ts, es) /\
  map (fun e => match e with Ret _ r => r end) es = [RNil; RBlock (bs "b"); RNil; RBlock (bs "b"); RNil; RNil].
Proof. intros [->| ->]; (eexists; eexists; eexists; split; [vm_compute; reflexivity|vm_compute; reflexivity]). Qed.

(** ** C36 *)
Theorem C36_stored_pieces_are_verified :
  forall sha1 cfg env, config_ok cfg -> forall f tick ls p es k b, untouched cfg f -> execs sha1 cfg env (Dead f tick) ls = Some (p, es) ->
  0 <= k < num_pieces (c_info cfg) -> on_disk cfg (disk_of p) k = Some b -> verified sha1 cfg k b.
Proof. exact stored_verified. Qed.
Print Assumptions C36_stored_pieces_are_verified.
Theorem C36_served_blocks_are_verified :
  forall sha1 cfg env, config_ok cfg -> forall f tick ls p es k b len d, untouched cfg f -> execs sha1 cfg env (Dead f tick) ls = Some (p, es) ->
  In (Ret (CGet k b len) (RBlock d)) es ->
  zlen d = len /\
  (d = [] \/ (exists c s, whole sha1 cfg c /\ 0 <= s /\ s + len <= zlen c /\ d = slice c s len) \/
   (exists c, 0 <= k < num_pieces (c_info cfg) /\ verified sha1 cfg k c /\ 0 <= b /\ b + len <= zlen c /\ d = slice c b len)).
Proof. exact served_verified. Qed.
Print Assumptions C36_served_blocks_are_verified.
(** Wrong data is put first: it is refused, not served; after a restart the piece is downloaded
    again and served. *)
Example C36_case : (config_ok (ex_cfg ex_one) /\ untouched (ex_cfg ex_one) ex_fs) /\
  exists p es, ex_run ex_one (LStart :: ex_put 0 0 (bs "xy") ++ [LCall (CGet 0 0 2); LStep 1; LStep 1; LCrash; LStart] ++ ex_put 0 0 (bs "ab") ++ [LCall (CGet 0 0 2); LStep 1; LStep 1]) = Some (p, es) /\
  es = [Ret (CPut 0 0 (bs "xy")) (RErr (EChecksum 0 (bs "xy") (bs "ab"))); Ret (CGet 0 0 2) (RErr EIncompletePiece); Ret (CPut 0 0 (bs "ab")) RNil; Ret (CGet 0 0 2) (RBlock (bs "ab"))] /\
  on_disk (ex_cfg ex_one) (disk_of p) 0 = Some (bs "ab").
Proof. split; [apply ex_ok; auto|]. eexists. eexists. split; [vm_compute; reflexivity|]. split; vm_compute; reflexivity. Qed.

(** ** C37 *)
Theorem C37_block_is_the_requested_range :
  forall sha1 cfg env, config_ok cfg -> forall f tick ls p es k b len d, untouched cfg f -> execs sha1 cfg env (Dead f tick) ls = Some (p, es) ->
  In (Ret (CGet k b len) (RBlock d)) es -> in_piece cfg k b len ->
  exists c, on_disk cfg (disk_of p) k = Some c /\ verified sha1 cfg k c /\ d = slice c b len.
Proof. exact served_range. Qed.
Print Assumptions C37_block_is_the_requested_range.
(** Before and after the files are assembled: two reads that overlap in time or not, in the
    same process or across restarts, return the same bytes. *)
Theorem C37_same_bytes_always :
  forall sha1 cfg env, config_ok cfg -> forall f tick ls p es k b len d d', untouched cfg f -> execs sha1 cfg env (Dead f tick) ls = Some (p, es) ->
  In (Ret (CGet k b len) (RBlock d)) es -> In (Ret (CGet k b len) (RBlock d')) es -> in_piece cfg k b len -> d = d'.
Proof. exact served_same. Qed.
Print Assumptions C37_same_bytes_always.
(** A stored piece is readable: only an I/O error of the file system can prevent it.
    (make_ok: Go can allocate the buffer.) *)
Theorem C37_complete_piece_is_readable :
  forall sha1 cfg env, config_ok cfg -> forall f tick ls w ts es j t k b len p' es', untouched cfg f ->
  execs sha1 cfg env (Dead f tick) ls = Some (Running w ts, es) ->
  nth_error ts j = Some t -> th_call t = CGet k b len -> in_piece cfg k b len -> make_ok len = true -> on_disk cfg (w_fs w) k <> None ->
  exec sha1 cfg env (Running w ts) (LStep j) = Some (p', es') ->
  (exists w' ts', p' = Running w' ts') /\ forall e, In (Ret (CGet k b len) (RErr e)) es' -> e = EIO.
Proof. exact get_available. Qed.
Print Assumptions C37_complete_piece_is_readable.
(** Read from the piece file and, after a restart and the end of the download, from the
    single file or across the two files. *)
Example C37_case : forall i, i = ex_one \/ i = ex_two -> (config_ok (ex_cfg i) /\ untouched (ex_cfg i) ex_fs) /\ in_piece (ex_cfg i) 0 1 1 /\ make_ok 1 = true /\
  exists p es, ex_run i ex_life = Some (p, es) /\ filter (fun e => match e with Ret (CGet _ _ _) _ => true | _ => false end) es = [Ret (CGet 0 1 1) (RBlock (bs "b")); Ret (CGet 0 1 1) (RBlock (bs "b"))].
Proof.
  intros i H. split; [now apply ex_ok|]. split; [destruct H as [->| ->]; vm_compute; repeat split; discriminate|]. split; [reflexivity|].
  destruct H as [->| ->]; (eexists; eexists; split; [vm_compute; reflexivity|vm_compute; reflexivity]).
Qed.

(** ** C38 *)
(** Whatever the target holds is the whole torrent, laid out as the metainfo says; and it is
    in place when Torrent.Wait has returned, or PutBlock has returned nil with all pieces on
    disk. *)
Theorem C38_target_is_the_torrent :
  forall sha1 cfg env, config_ok cfg -> forall f tick ls p es, untouched cfg f -> execs sha1 cfg env (Dead f tick) ls = Some (p, es) ->
  (lookup (target cfg) (disk_of p) = None \/ content cfg (disk_of p) <> None) /\
  forall c, content cfg (disk_of p) = Some c ->
  whole sha1 cfg c /\
  match i_files (c_info cfg) with
  | [] => lookup (target cfg) (disk_of p) = Some (NFile c)
  | files => forall j x, nth_error files j = Some x -> lookup (target cfg ++ f_path x) (disk_of p) = Some (NFile (slice c (file_start files j) (f_length x)))
  end.
Proof. exact target_is_torrent. Qed.
Print Assumptions C38_target_is_the_torrent.
Theorem C38_wait_means_in_place :
  forall sha1 cfg env, config_ok cfg -> forall f tick ls p es r, untouched cfg f -> execs sha1 cfg env (Dead f tick) ls = Some (p, es) ->
  In (Ret CWaitAll r) es -> r = RNil /\ exists c, content cfg (disk_of p) = Some c /\ whole sha1 cfg c.
Proof. exact wait_all_content. Qed.
Print Assumptions C38_wait_means_in_place.
Theorem C38_last_block_means_in_place :
  forall sha1 cfg env, config_ok cfg -> forall f tick ls p es l p' es' k b d, untouched cfg f -> execs sha1 cfg env (Dead f tick) ls = Some (p, es) ->
  exec sha1 cfg env p l = Some (p', es') -> In (Ret (CPut k b d) RNil) es' -> (forall j, 0 <= j < num_pieces (c_info cfg) -> on_disk cfg (disk_of p') j <> None) ->
  exists c, content cfg (disk_of p') = Some c /\ whole sha1 cfg c.
Proof. exact put_content. Qed.
Print Assumptions C38_last_block_means_in_place.
Example C38_case_one : exists p es, ex_run ex_one ex_life = Some (p, es) /\ In (Ret CWaitAll RNil) es /\ disk_of p = [([bs "t"; bs "n"], NFile (bs "abc")); ([bs "w"; bs "temp"], NDir); ([bs "t"], NDir); ([bs "w"], NDir)].
Proof. eexists. eexists. split; [vm_compute; reflexivity|]. split; [vm_compute; tauto|vm_compute; reflexivity]. Qed.
Example C38_case_two : exists p es, ex_run ex_two ex_life = Some (p, es) /\ In (Ret CWaitAll RNil) es /\
  lookup [bs "t"; bs "n"; bs "x"] (disk_of p) = Some (NFile (bs "a")) /\ lookup [bs "t"; bs "n"; bs "y"; bs "z"] (disk_of p) = Some (NFile (bs "bc")).
Proof. eexists. eexists. split; [vm_compute; reflexivity|]. split; [vm_compute; tauto|split; vm_compute; reflexivity]. Qed.

(** ** C39 *)
(** Every state the process can be killed in is a state [p] here: between steps by LCrash,
    within a step, after any of its file system operations, by LCrashIn, within Load by
    LStartCrash. *)
Theorem C39_disk_is_consistent_at_every_crash_point :
  forall sha1 cfg env, config_ok cfg -> forall f tick ls p es, untouched cfg f -> execs sha1 cfg env (Dead f tick) ls = Some (p, es) -> disk_ok sha1 cfg (disk_of p).
Proof. exact disk_always_ok. Qed.
Print Assumptions C39_disk_is_consistent_at_every_crash_point.
(** Load after a crash never panics, fails only for an I/O error, and finds exactly the
    pieces on disk; if these are all, the target is in place afterwards. *)
Theorem C39_load_recovers :
  forall sha1 cfg env, config_ok cfg -> forall f tick ls d t es, untouched cfg f -> execs sha1 cfg env (Dead f tick) ls = Some (Dead d t, es) ->
  match load cfg env (booted cfg d t) with
  | (w, Ok _) => (forall k, member (advertised w) k <-> 0 <= k < num_pieces (c_info cfg) /\ on_disk cfg d k <> None) /\
                 ((forall k, 0 <= k < num_pieces (c_info cfg) -> on_disk cfg d k <> None) -> exists c, content cfg (w_fs w) = Some c /\ whole sha1 cfg c)
  | (w, Err e) => e = EIO
  | (w, Panic) => False
  end.
Proof. exact load_recovers. Qed.
Print Assumptions C39_load_recovers.
(** Killed between the rename of the finished target and the end of the clean-up. *)
Example C39_case : exists d t es w,
  ex_run ex_two (LStart :: ex_put 0 0 (bs "ab") ++ [LCall (CPut 1 0 (bs "c")); LStep 1; LStep 1; LCrashIn 1 4]) = Some (Dead d t, es) /\
  lookup [bs "t"; bs "n"] d = Some NDir /\ lookup (piece_file (ex_cfg ex_two) 1) d = Some (NFile (bs "c")) /\
  load (ex_cfg ex_two) ex_env (booted (ex_cfg ex_two) d t) = (w, Ok tt) /\ advertised w = [z2b 192].
Proof. eexists. eexists. eexists. eexists. split; [vm_compute; reflexivity|]. split; [vm_compute; reflexivity|]. split; [vm_compute; reflexivity|]. split; vm_compute; reflexivity. Qed.

(** ** C40 *)
(** False: after a checksum error no block of the piece is accepted again, and ResetPiece on
    it does not return (it crashes the process), for as long as the process runs. *)
Theorem C40_failed_piece_refuses_everything :
  forall sha1 cfg env, config_ok cfg -> forall f tick ls w ts es j p1 es1 k b d x got want ls2 p2 es2, untouched cfg f ->
  execs sha1 cfg env (Dead f tick) ls = Some (Running w ts, es) ->
  exec sha1 cfg env (Running w ts) (LStep j) = Some (p1, es1) -> In (Ret (CPut k b d) (RErr (EChecksum x got want))) es1 ->
  Forall same_run ls2 -> execs sha1 cfg env p1 ls2 = Some (p2, es2) -> Forall (refused k) es2.
Proof. exact never_again. Qed.
Print Assumptions C40_failed_piece_refuses_everything.
Theorem C40_piece_can_be_downloaded_again_refuted :
  exists w ts es, ex_run ex_one (LStart :: ex_put 0 0 (bs "xy")) = Some (Running w ts, es) /\
  es = [Ret (CPut 0 0 (bs "xy")) (RErr (EChecksum 0 (bs "xy") (bs "ab")))] /\
  (exists d t, execs ex_id (ex_cfg ex_one) ex_env (Running w ts) [LCall (CReset 0); LStep 1] = Some (Dead d t, [])) /\
  (exists p, execs ex_id (ex_cfg ex_one) ex_env (Running w ts) [LCall (CPut 0 0 (bs "ab")); LStep 1; LStep 1] = Some (p, [Ret (CPut 0 0 (bs "ab")) (RErr EBlockExists)])).
Proof.
  eexists. eexists. eexists. split; [vm_compute; reflexivity|]. split; [vm_compute; reflexivity|].
  split; [eexists; eexists; vm_compute; reflexivity|eexists; vm_compute; reflexivity].
Qed.
Print Assumptions C40_piece_can_be_downloaded_again_refuted.
(** What does hold: as long as the piece has neither failed nor been completed, whatever
    blocks were put, ResetPiece succeeds and putting the right blocks in any order then
    completes the piece, unless an I/O error occurs in the last call. *)
Theorem C40_piece_can_be_downloaded_again_partial :
  forall sha1 cfg env, config_ok cfg -> forall f tick ls w ts es k b blocks, untouched cfg f -> execs sha1 cfg env (Dead f tick) ls = Some (Running w ts, es) ->
  idle ts -> 0 <= k < num_pieces (c_info cfg) -> ~ settled w k -> verified sha1 cfg k b ->
  NoDup blocks -> (forall x y, In (x, y) blocks <-> tile (piece_size (c_info cfg) k) x y) ->
  exists r p', one_by_one sha1 cfg env (Running w ts)
      (CReset k :: map (fun xy => CPut k (fst xy) (slice b (fst xy) (snd xy))) blocks)
      (RNil :: repeat RNil (List.length blocks - 1) ++ [r]) p' /\
    ((r = RNil /\ on_disk cfg (disk_of p') k = Some b) \/ r = RErr EIO).
Proof. exact reset_download. Qed.
Print Assumptions C40_piece_can_be_downloaded_again_partial.

(** A piece of two blocks: a wrong second block, then a reset, then the right blocks, the
    second one first. *)
Definition ex_blocks : info := {|
  i_sha1 := ex_hash; i_piece_length := 20000; i_pieces := [bs "good"]; i_private := 0; i_name := bs "n"; i_length := 20000; i_md5 := []; i_files := [] |}.
Definition ex_as (b : bytes) : bytes := if forallb (beqb "a"%byte) b then bs "good" else bs "bad".
Definition ex_many (c : byte) (k : Z) : bytes := repeat c (Z.to_nat k).
Example C40_case :
  result_of (execs ex_as (ex_cfg ex_blocks) ex_env (Dead ex_fs 0)
    (LStart :: [LCall (CPut 0 16384 (ex_many "x"%byte 3616)); LStep 0; LStep 0; LStep 0; LCall (CReset 0); LStep 1;
     LCall (CPut 0 16384 (ex_many "a"%byte 3616)); LStep 2; LStep 2; LStep 2; LCall (CPut 0 0 (ex_many "a"%byte 16384)); LStep 3; LStep 3; LStep 3; LCall (CGet 0 16383 2); LStep 4]))
  = [RNil; RNil; RNil; RNil; RBlock (bs "aa")].
Proof. vm_compute. reflexivity. Qed.

(** ** C41 *)
Theorem C41_requests_tile_the_piece :
  forall cfg, config_ok cfg -> forall k, 0 <= k < num_pieces (c_info cfg) -> get_piece_length (c_info cfg) k <= 2 ^ 63 - 16384 ->
  exists blocks, piece_requests (get_piece_length (c_info cfg) k) = Some blocks /\ NoDup blocks /\
    (forall x y, In (x, y) blocks <-> tile (piece_size (c_info cfg) k) x y) /\
    (forall data, zlen data = piece_size (c_info cfg) k -> concat (map (fun xy => slice data (fst xy) (snd xy)) blocks) = data) /\
    (forall x y, In (x, y) blocks -> check_block_size (c_info cfg) k x y = None).
Proof. exact requests_tile. Qed.
Print Assumptions C41_requests_tile_the_piece.
Example C41_case : piece_requests 40000 = Some [(0, 16384); (16384, 16384); (32768, 7232)] /\ piece_requests 32768 = Some [(0, 16384); (16384, 16384)].
Proof. split; vm_compute; reflexivity. Qed.

(** ** C42 *)
(** False: remote data crashes the process: an empty block at the end of a piece whose
    length is a multiple of 16384 (the offset is aligned, the length as expected), a block
    at a negative offset, a piece number out of range. *)
Definition ex_big : info := {|
  i_sha1 := ex_hash; i_piece_length := 16384; i_pieces := [repeat "a"%byte 20]; i_private := 0; i_name := bs "n"; i_length := 16384; i_md5 := []; i_files := [] |}.
Theorem C42_put_block_never_panics_refuted :
  forall c, c = CPut 0 16384 [] \/ c = CPut 5 16384 [] \/ c = CPut 0 (-16384) (repeat "a"%byte (Z.to_nat 16384)) ->
  exists d t, ex_run ex_big [LStart; LCall c; LStep 0; LStep 0] = Some (Dead d t, []).
Proof. intros c [->|[->| ->]]; (eexists; eexists; vm_compute; reflexivity). Qed.
Print Assumptions C42_put_block_never_panics_refuted.
(** What does hold: PutBlock for an existing piece and an offset inside it never panics;
    if any PutBlock returns nil, its block is one of the tiling. *)
Theorem C42_put_block_results_partial :
  forall sha1 cfg env, config_ok cfg -> forall f tick ls w ts es j t k b d p' es', untouched cfg f -> execs sha1 cfg env (Dead f tick) ls = Some (Running w ts, es) ->
  nth_error ts j = Some t -> th_call t = CPut k b d -> exec sha1 cfg env (Running w ts) (LStep j) = Some (p', es') ->
  (0 <= k < num_pieces (c_info cfg) -> 0 <= b < piece_size (c_info cfg) k -> exists w' ts', p' = Running w' ts') /\
  forall r, In (Ret (CPut k b d) r) es' ->
    match r with
    | RNil => 0 <= k < num_pieces (c_info cfg) /\ tile (piece_size (c_info cfg) k) b (zlen d)
    | RErr (EChecksum x got want) => x = k /\ got <> want /\ want = piece_hash (c_info cfg) k
    | RErr e => In e [EIO; EBlockExists; EMisaligned; EBlockLength]
    | RBlock _ => False
    end.
Proof. exact put_block_results. Qed.
Print Assumptions C42_put_block_results_partial.
Example C42_case : result_of (ex_run ex_one ([LStart; LCall (CPut 0 1 (bs "a")); LStep 0; LCall (CPut 0 0 (bs "abc")); LStep 1] ++ ex_put 2 0 (bs "ab") ++ [LCall (CPut 0 0 (bs "ab")); LStep 3; LStep 3])) =
  [RErr EMisaligned; RErr EBlockLength; RNil; RErr EBlockExists].
Proof. vm_compute. reflexivity. Qed.

(** ** C43 *)
(** False: verified pieces are not counted, pieces that fail verification are. *)
Theorem C43_downloaded_counts_verified_bytes_refuted :
  (exists w ts es, ex_run ex_one (LStart :: ex_put 0 0 (bs "ab")) = Some (Running w ts, es) /\ stored_bytes (ex_cfg ex_one) (w_fs w) = 2 /\ t_downloaded (w_mem w) = 0) /\
  (exists w ts es, ex_run ex_one (LStart :: ex_put 0 0 (bs "xy")) = Some (Running w ts, es) /\ stored_bytes (ex_cfg ex_one) (w_fs w) = 0 /\ t_downloaded (w_mem w) = 2).
Proof. split; (eexists; eexists; eexists; split; [vm_compute; reflexivity|]; split; vm_compute; reflexivity). Qed.
Print Assumptions C43_downloaded_counts_verified_bytes_refuted.
(** What does hold: when Load returns, Downloaded is the size of the pieces found (except
    for a finished torrent of several files, where it is the size of the directory entry). *)
Theorem C43_downloaded_after_load_partial :
  forall sha1 cfg env, config_ok cfg -> forall f tick ls d t es w ts es', untouched cfg f -> execs sha1 cfg env (Dead f tick) ls = Some (Dead d t, es) ->
  (i_files (c_info cfg) = [] \/ content cfg d = None) ->
  exec sha1 cfg env (Dead d t) LStart = Some (Running w ts, es') -> t_downloaded (w_mem w) = stored_bytes cfg d.
Proof. exact downloaded_after_load. Qed.
Print Assumptions C43_downloaded_after_load_partial.
Example C43_case : exists d t es w ts, ex_run ex_two (LStart :: ex_put 0 0 (bs "ab") ++ [LCrash]) = Some (Dead d t, es) /\ content (ex_cfg ex_two) d = None /\
  exec ex_id (ex_cfg ex_two) ex_env (Dead d t) LStart = Some (Running w ts, []) /\ t_downloaded (w_mem w) = 2.
Proof. do 5 eexists. split; [vm_compute; reflexivity|]. split; [vm_compute; reflexivity|]. split; vm_compute; reflexivity. Qed.

(** ** C44 *)
(** False: a GetBlock and a PutBlock of the same piece can wait for each other; from then on
    neither ever moves again, whatever else happens in the process. *)
Theorem C44_never_deadlock_refuted :
  exists w ts es, ex_run ex_one [LStart; LCall (CPut 0 0 (bs "ab")); LStep 0; LCall (CGet 0 0 2); LStep 1; LStep 0] = Some (Running w ts, es) /\
  held_up 0 ts /\ exec ex_id (ex_cfg ex_one) ex_env (Running w ts) (LStep 0) = None /\ exec ex_id (ex_cfg ex_one) ex_env (Running w ts) (LStep 1) = None.
Proof.
  eexists. eexists. eexists. split; [vm_compute; reflexivity|]. split; [|split; vm_compute; reflexivity].
  split; [exists 1%nat|exists 0%nat]; (eexists; split; [reflexivity|split; reflexivity]).
Qed.
Print Assumptions C44_never_deadlock_refuted.
Theorem C44_deadlock_is_forever :
  forall sha1 cfg env, config_ok cfg -> forall w ts a b t u k x y x' d ls p es,
  nth_error ts a = Some t -> th_pc t = GetPiece -> th_call t = CGet k x y ->
  nth_error ts b = Some u -> th_pc u = PutMid -> th_call u = CPut k x' d -> Forall same_run ls -> execs sha1 cfg env (Running w ts) ls = Some (p, es) ->
  (exists w' ts', p = Running w' ts' /\ nth_error ts' a = Some t /\ nth_error ts' b = Some u) \/ (exists f tick, p = Dead f tick).
Proof. exact held_forever. Qed.
Print Assumptions C44_deadlock_is_forever.
(** What does hold: that is the only deadlock.  Unless some GetBlock and PutBlock hold each
    other up, as long as a call has not returned (other than a Wait for something that has
    not happened), some goroutine can take a step. *)
Theorem C44_only_deadlock_partial :
  forall sha1 cfg env, config_ok cfg -> forall f tick ls w ts es a t, untouched cfg f -> execs sha1 cfg env (Dead f tick) ls = Some (Running w ts, es) ->
  nth_error ts a = Some t -> unfinished w t -> (forall k, ~ held_up k ts) ->
  exists b p es', exec sha1 cfg env (Running w ts) (LStep b) = Some (p, es').
Proof. exact only_deadlock. Qed.
Print Assumptions C44_only_deadlock_partial.

(** ** C45 *)
(** False: a file path with ".." elements leaves the directories (there is no check of
    names anywhere between the metainfo and os.Create). *)
Theorem C45_files_stay_inside_refuted :
  exists p es q, ex_run ex_evil (LStart :: ex_put 0 0 (bs "ab") ++ ex_put 1 1 (bs "c")) = Some (p, es) /\ outside (ex_cfg ex_evil) q /\
  under_path (c_target (ex_cfg ex_evil)) q = false /\ lookup q ex_fs = None /\ lookup q (disk_of p) = Some (NFile (bs "abc")).
Proof. eexists. eexists. exists [bs "etc"]. split; [vm_compute; reflexivity|]. split; [|repeat split]; vm_compute; repeat split. Qed.
Print Assumptions C45_files_stay_inside_refuted.
(** What does hold: with a plain name and plain file paths, nothing outside TargetDir/Name,
    WorkDir/<hash> and WorkDir/temp is created, changed or removed, at any moment (but for
    WorkDir and the directories leading to it, which are created). *)
Theorem C45_files_stay_inside_partial :
  forall sha1 cfg env, config_ok cfg -> forall f tick ls p es q, untouched cfg f -> execs sha1 cfg env (Dead f tick) ls = Some (p, es) ->
  outside cfg q -> lookup q (disk_of p) = lookup q f.
Proof. exact confined. Qed.
Print Assumptions C45_files_stay_inside_partial.

(** ** C46 *)
Theorem C46_bitfield_is_the_complete_pieces :
  forall sha1 cfg env, config_ok cfg -> forall f tick ls w ts es, untouched cfg f -> execs sha1 cfg env (Dead f tick) ls = Some (Running w ts, es) ->
  forall k, member (advertised w) k <-> 0 <= k < num_pieces (c_info cfg) /\ exists b, on_disk cfg (w_fs w) k = Some b /\ verified sha1 cfg k b.
Proof. exact bitfield_is_disk. Qed.
Print Assumptions C46_bitfield_is_the_complete_pieces.
(** Never cleared, not even across restarts. *)
Theorem C46_bits_are_never_cleared :
  forall sha1 cfg env, config_ok cfg -> forall f tick ls w ts es ls' w' ts' es', untouched cfg f -> execs sha1 cfg env (Dead f tick) ls = Some (Running w ts, es) ->
  execs sha1 cfg env (Running w ts) ls' = Some (Running w' ts', es') -> forall k, member (advertised w) k -> member (advertised w') k.
Proof. exact bitfield_grows. Qed.
Print Assumptions C46_bits_are_never_cleared.
Example C46_case : exists w ts es, ex_run ex_two (LStart :: ex_put 0 1 (bs "c") ++ [LCrash; LStart]) = Some (Running w ts, es) /\ advertised w = [z2b 64].
Proof. do 3 eexists. split; vm_compute; reflexivity. Qed.

(** ** C47 *)
(** For any calls: a Wait that has returned did so after a Deliver returned, with a
    delivered value; at most one Deliver returns, others panic; and once a Deliver has
    returned no Wait is blocked. *)
Theorem C47_futures_any_calls :
  forall A (zero : A) cs sched s, fruns (fresh zero cs) sched = Some s ->
  (forall t x, nth_error (fs_threads s) t = Some (FWait, FReturned x) -> exists u v, nth_error (fs_threads s) u = Some (FDeliver v, FReturned None)) /\
  (forall t x, nth_error (fs_threads s) t = Some (FWait, FReturned x) -> exists v, x = Some v /\ In (FDeliver v) cs) /\
  (forall t u v w, nth_error (fs_threads s) t = Some (FDeliver v, FReturned None) -> nth_error (fs_threads s) u = Some (FDeliver w, FReturned None) -> t = u) /\
  (forall t v p, nth_error (fs_threads s) t = Some (FDeliver v, p) -> fstep s t = None -> p = FReturned None \/ p = FPanicked) /\
  (forall t p, nth_error (fs_threads s) t = Some (FWait, p) ->
     (fstep s t = None <-> (p = FStart /\ forall u v, nth_error (fs_threads s) u <> Some (FDeliver v, FReturned None)) \/ exists x, p = FReturned x)).
Proof. exact futures_any. Qed.
Print Assumptions C47_futures_any_calls.
(** False with a second Deliver: it overwrites the value before it panics, so two waiters can
    be given different values. *)
Theorem C47_every_waiter_gets_the_value_refuted :
  exists sched s, fruns (fresh 0 [FDeliver 1; FDeliver 2; FWait; FWait]) sched = Some s /\
  map snd (fs_threads s) = [FReturned None; FPanicked; FReturned (Some 1); FReturned (Some 2)].
Proof. exists [0; 0; 2; 2; 1; 3; 3; 1]%nat. eexists. split; vm_compute; reflexivity. Qed.
Print Assumptions C47_every_waiter_gets_the_value_refuted.
Theorem C47_every_waiter_gets_the_value_partial :
  forall A (zero : A) cs sched s v, fruns (fresh zero cs) sched = Some s -> filter (is_deliver A) cs = [FDeliver v] ->
  (forall t x, nth_error (fs_threads s) t = Some (FWait, FReturned x) -> x = Some v) /\
  (forall t c, nth_error (fs_threads s) t <> Some (c, FPanicked)).
Proof. exact futures_one. Qed.
Print Assumptions C47_every_waiter_gets_the_value_partial.
Example C47_case : exists s, fruns (fresh 0 [FWait; FDeliver 7; FWait]) [1; 1; 0; 2; 2; 0]%nat = Some s /\ map snd (fs_threads s) = [FReturned (Some 7); FReturned None; FReturned (Some 7)].
Proof. eexists. split; vm_compute; reflexivity. Qed.

(** ** C64 *)
Theorem C64_piece_wait_nil_means_stored :
  forall sha1 cfg env, config_ok cfg -> forall f tick ls p es k, untouched cfg f -> execs sha1 cfg env (Dead f tick) ls = Some (p, es) ->
  In (Ret (CWait k) RNil) es -> 0 <= k < num_pieces (c_info cfg) /\ exists b, on_disk cfg (disk_of p) k = Some b /\ verified sha1 cfg k b.
Proof. exact piece_wait_nil. Qed.
Print Assumptions C64_piece_wait_nil_means_stored.
Example C64_case : exists p es, ex_run ex_two ex_life = Some (p, es) /\ In (Ret (CWait 1) RNil) es.
Proof. eexists. eexists. split; [vm_compute; reflexivity|vm_compute; tauto]. Qed.

(** ** C65 *)
Theorem C65_stored_data_is_never_lost_or_changed :
  forall sha1 cfg env, config_ok cfg -> forall f tick ls p es ls' p' es', untouched cfg f -> execs sha1 cfg env (Dead f tick) ls = Some (p, es) ->
  execs sha1 cfg env p ls' = Some (p', es') ->
  (forall k b, 0 <= k < num_pieces (c_info cfg) -> on_disk cfg (disk_of p) k = Some b -> on_disk cfg (disk_of p') k = Some b) /\
  (forall c, content cfg (disk_of p) = Some c -> content cfg (disk_of p') = Some c).
Proof. exact durable. Qed.
Print Assumptions C65_stored_data_is_never_lost_or_changed.
Example C65_case : exists p es, ex_run ex_two (LStart :: ex_put 0 0 (bs "ab") ++ [LCrash]) = Some (p, es) /\ on_disk (ex_cfg ex_two) (disk_of p) 0 = Some (bs "ab") /\
  exists p' es', execs ex_id (ex_cfg ex_two) ex_env p (LStart :: ex_put 0 1 (bs "c") ++ [LCrash]) = Some (p', es') /\ content (ex_cfg ex_two) (disk_of p') = Some (bs "abc") /\
  lookup (piece_file (ex_cfg ex_two) 0) (disk_of p') = None.
Proof. eexists. eexists. split; [vm_compute; reflexivity|]. split; [vm_compute; reflexivity|]. eexists. eexists. split; [vm_compute; reflexivity|]. split; vm_compute; reflexivity. Qed.
