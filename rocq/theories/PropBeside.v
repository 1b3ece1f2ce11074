(** C136: two torrents in the same directories.

    [share_run] (StorageShare.v): two Storages on one disk, each with its calls, crashes and
    restarts, in any order.  [neighbours]: StorageShareSpec.v; [on_disk], [content],
    [verified], [whole]: StorageSpec.v. *)
From Verif Require Import GoBase Bitfield BitfieldSpec BencDecode Metainfo MetainfoSpec Fs Storage StorageSys StorageSpec StorageSysSpec StorageShare StorageShareProofs.
From Verif Require PropStorage.
From Verif Require Import StorageShareSpec.

(** ** C136 *)
(** With different names and hashes, neither damages what the other has: under TargetDir/Name
    is the torrent or nothing, and every piece on disk is verified. *)
Theorem C136_both_stay_right_partial :
  forall sha1 cfg env, (forall x, config_ok (cfg x)) -> neighbours (cfg One) (cfg Two) -> forall f, (forall x, untouched (cfg x) f) ->
  forall ls s es x, share_run sha1 cfg env (share_start f) ls = Some (s, es) ->
  (lookup (target (cfg x)) (sh_disk s) = None \/ exists c, content (cfg x) (sh_disk s) = Some c /\ whole sha1 (cfg x) c) /\
  forall k b, 0 <= k < num_pieces (c_info (cfg x)) -> on_disk (cfg x) (sh_disk s) k = Some b -> verified sha1 (cfg x) k b.
Proof. exact shared_stored. Qed.
Print Assumptions C136_both_stay_right_partial.
(** Nothing that one of them has stored is lost or changed by the other. *)
Theorem C136_nothing_is_lost_partial :
  forall sha1 cfg env, (forall x, config_ok (cfg x)) -> neighbours (cfg One) (cfg Two) -> forall f, (forall x, untouched (cfg x) f) ->
  forall ls s es ls' s' es' x, share_run sha1 cfg env (share_start f) ls = Some (s, es) -> share_run sha1 cfg env s ls' = Some (s', es') ->
  (forall k b, 0 <= k < num_pieces (c_info (cfg x)) -> on_disk (cfg x) (sh_disk s) k = Some b -> on_disk (cfg x) (sh_disk s') k = Some b) /\
  (forall b, content (cfg x) (sh_disk s) = Some b -> content (cfg x) (sh_disk s') = Some b).
Proof. exact shared_kept. Qed.
Print Assumptions C136_nothing_is_lost_partial.
(** Each serves bytes of its own torrent, verified, and the ones asked for. *)
Theorem C136_serves_its_own_partial :
  forall sha1 cfg env, (forall x, config_ok (cfg x)) -> neighbours (cfg One) (cfg Two) -> forall f, (forall x, untouched (cfg x) f) ->
  forall ls s es x k b len d, share_run sha1 cfg env (share_start f) ls = Some (s, es) -> In (x, Ret (CGet k b len) (RBlock d)) es ->
  zlen d = len /\
  (d = [] \/ (exists c s, whole sha1 (cfg x) c /\ 0 <= s /\ s + len <= zlen c /\ d = slice c s len) \/
   (exists c, 0 <= k < num_pieces (c_info (cfg x)) /\ verified sha1 (cfg x) k c /\ 0 <= b /\ b + len <= zlen c /\ d = slice c b len)) /\
  (in_piece (cfg x) k b len -> exists c, verified sha1 (cfg x) k c /\ d = slice c b len).
Proof. exact shared_served. Qed.
Print Assumptions C136_serves_its_own_partial.
(** When Wait has returned nil, its own torrent (or piece) is in place. *)
Theorem C136_wait_means_its_own_partial :
  forall sha1 cfg env, (forall x, config_ok (cfg x)) -> neighbours (cfg One) (cfg Two) -> forall f, (forall x, untouched (cfg x) f) ->
  forall ls s es x, share_run sha1 cfg env (share_start f) ls = Some (s, es) ->
  (forall r, In (x, Ret CWaitAll r) es -> r = RNil /\ exists c, content (cfg x) (sh_disk s) = Some c /\ whole sha1 (cfg x) c) /\
  (forall k, In (x, Ret (CWait k) RNil) es -> exists b, on_disk (cfg x) (sh_disk s) k = Some b /\ verified sha1 (cfg x) k b).
Proof. exact shared_wait. Qed.
Print Assumptions C136_wait_means_its_own_partial.

(** The torrent "abc", and a torrent "xyz" with another hash and this name. *)
Definition ex_second (name : bytes) : info := {|
  i_sha1 := repeat "1"%byte 20; i_piece_length := 2; i_pieces := [bs "xy"; bs "z"]; i_private := 0; i_name := name; i_length := 3; i_md5 := []; i_files := [] |}.
Definition ex_both (name : bytes) (x : which) : config := PropStorage.ex_cfg (match x with One => PropStorage.ex_one | Two => ex_second name end).
Definition ex_share (name : bytes) (ls : list (which * label)) : option (shared * list (which * event)) :=
  share_run PropStorage.ex_id (ex_both name) (fun _ => PropStorage.ex_env) (share_start PropStorage.ex_fs) ls.
Definition by_one : list label -> list (which * label) := map (pair One).
Definition by_two : list label -> list (which * label) := map (pair Two).
Lemma ex_second_ok name : name = bs "m" \/ name = bs "n" -> config_ok (PropStorage.ex_cfg (ex_second name)) /\ untouched (PropStorage.ex_cfg (ex_second name)) PropStorage.ex_fs.
Proof.
  intros H. split.
  - assert (W : well_formed (ex_second name)).
    { assert (forall i, 0 < i_piece_length i < 2 ^ 63 -> Forall (fun f => 0 <= f_length f) (i_files i) -> 0 <= total_size i < 2 ^ 63 ->
        (zlen (i_pieces i) - 1) * i_piece_length i < total_size i <= zlen (i_pieces i) * i_piece_length i -> well_formed i) as W by (unfold well_formed; tauto).
      apply W; try (cbn; lia). constructor. }
    unfold config_ok. split; [exact W|]. split; [vm_compute; reflexivity|]. split; [reflexivity|]. split; [destruct H as [->| ->]; vm_compute; reflexivity|].
    split; [constructor|]. split; [constructor|]. destruct H as [->| ->]; split; vm_compute; reflexivity.
  - split; [|split; [|split]].
    + constructor; [intros [Q|[]]; discriminate|]. constructor; [intros []|constructor].
    + destruct H as [->| ->]; vm_compute; reflexivity.
    + left. destruct H as [->| ->]; vm_compute; reflexivity.
    + intros nm. destruct H as [->| ->]; cbn; rewrite ?Bool.andb_false_r; reflexivity.
Qed.
(** Both are downloaded at a time; the first process is lost and restarted in between.  Both
    complete, and the second serves its own bytes. *)
Example C136_case :
  (forall x, config_ok (ex_both (bs "m") x) /\ untouched (ex_both (bs "m") x) PropStorage.ex_fs) /\ neighbours (ex_both (bs "m") One) (ex_both (bs "m") Two) /\
  exists s es, ex_share (bs "m") (by_one (LStart :: PropStorage.ex_put 0 0 (bs "ab")) ++ by_two (LStart :: PropStorage.ex_put 0 1 (bs "z")) ++ by_one [LCrash; LStart] ++
      by_two (PropStorage.ex_put 1 0 (bs "xy")) ++ by_one (PropStorage.ex_put 0 1 (bs "c")) ++ by_two [LCall (CGet 0 0 2); LStep 2; LCall CWaitAll; LStep 3; LStep 3]) = Some (s, es) /\
    content (ex_both (bs "m") One) (sh_disk s) = Some (bs "abc") /\ content (ex_both (bs "m") Two) (sh_disk s) = Some (bs "xyz") /\
    In (Two, Ret (CGet 0 0 2) (RBlock (bs "xy"))) es /\ In (Two, Ret CWaitAll RNil) es.
Proof.
  split; [intros [|]; [apply PropStorage.ex_ok; now left|apply ex_second_ok; now left]|]. split; [repeat split; discriminate|].
  eexists _, _. split; [vm_compute; reflexivity|]. split; [vm_compute; reflexivity|]. split; [vm_compute; reflexivity|]. cbn [In]. auto 10.
Qed.
(** Different hashes are not enough.  If a torrent of the same name has completed before, the
    second one is taken to be complete when it is started: Wait returns nil and the other
    torrent's bytes are served as its own. *)
Theorem C136_same_name_refuted :
  (forall x, config_ok (ex_both (bs "n") x) /\ untouched (ex_both (bs "n") x) PropStorage.ex_fs) /\
  i_sha1 (c_info (ex_both (bs "n") One)) <> i_sha1 (c_info (ex_both (bs "n") Two)) /\
  exists s es, ex_share (bs "n") (by_one (LStart :: PropStorage.ex_put 0 0 (bs "ab") ++ PropStorage.ex_put 1 1 (bs "c")) ++
      by_two [LStart; LCall CWaitAll; LStep 0; LStep 0; LCall (CGet 0 0 2); LStep 1]) = Some (s, es) /\
    In (Two, Ret CWaitAll RNil) es /\ In (Two, Ret (CGet 0 0 2) (RBlock (bs "ab"))) es /\ ~ verified PropStorage.ex_id (ex_both (bs "n") Two) 0 (bs "ab").
Proof.
  split; [intros [|]; [apply PropStorage.ex_ok; now left|apply ex_second_ok; now right]|]. split; [discriminate|].
  eexists _, _. split; [vm_compute; reflexivity|]. cbn [In]. split; [auto 10|]. split; [auto 10|]. intros [_ H]. vm_compute in H. discriminate.
Qed.
Print Assumptions C136_same_name_refuted.
