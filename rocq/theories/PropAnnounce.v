(** C67: what an announce tells the tracker. *)
From Verif Require Import GoBase BencTypes BencSpec BencRoundSpec Metainfo MetainfoSpec Fs Storage StorageSys StorageSpec StorageSysSpec StorageClaimProofs PropStorage
  UrlSpec NetIP Tracker TrackerSpec TrackerProofs Announce.

(** ** C67 *)
(** "left" is to be the size of the torrent minus the bytes of the stored pieces.  False
    for every torrent of several files: such a client starts by telling that nothing is
    left (as a seed would), and a negative amount when it is restarted. *)
Theorem C67_left_refuted :
  (exists w ts es, ex_run ex_two [LStart] = Some (Running w ts, es) /\ total_size ex_two = 3 /\ stored_bytes (ex_cfg ex_two) (w_fs w) = 0 /\
     forall pid port up down ev, r_left (announce_request ex_two (w_mem w) pid port up down ev) = 0) /\
  (exists w ts es, ex_run ex_two (LStart :: ex_put 0 0 (bs "ab") ++ [LCrash; LStart]) = Some (Running w ts, es) /\ stored_bytes (ex_cfg ex_two) (w_fs w) = 2 /\
     forall pid port up down ev, r_left (announce_request ex_two (w_mem w) pid port up down ev) = -2).
Proof. split; (do 3 eexists; split; [vm_compute; reflexivity|repeat split; vm_compute; reflexivity]). Qed.
Print Assumptions C67_left_refuted.
(** For a single file it is right whenever the server has just started.  Missing: later
    announces, because Downloaded is not kept up to date (C43). *)
Theorem C67_left_after_start_partial :
  forall sha1 cfg env, config_ok cfg -> forall f tick ls d t es w ts es' pid port up down ev, untouched cfg f ->
  execs sha1 cfg env (Dead f tick) ls = Some (Dead d t, es) -> i_files (c_info cfg) = [] ->
  exec sha1 cfg env (Dead d t) LStart = Some (Running w ts, es') ->
  r_left (announce_request (c_info cfg) (w_mem w) pid port up down ev) = total_size (c_info cfg) - stored_bytes cfg d.
Proof.
  intros sha1 cfg env ok f tick ls d t es w ts es' pid port up down ev U E F X. cbn [announce_request r_left].
  rewrite (downloaded_after_load sha1 cfg env ok f tick ls d t es w ts es' U E (or_introl F) X). unfold total_size. rewrite F. reflexivity.
Qed.
Print Assumptions C67_left_after_start_partial.
Example C67_left_case : exists d t es w ts, ex_run ex_one (LStart :: ex_put 0 0 (bs "ab") ++ [LCrash]) = Some (Dead d t, es) /\
  exec ex_id (ex_cfg ex_one) ex_env (Dead d t) LStart = Some (Running w ts, []) /\
  r_left (announce_request ex_one (w_mem w) [] 6881 0 0 []) = 1.
Proof. do 5 eexists. split; [vm_compute; reflexivity|]. split; vm_compute; reflexivity. Qed.
(** Everything else arrives as it is: the query that is sent means, to any reader of
    queries, exactly these parameters. *)
Theorem C67_query_says :
  forall i m pid port up down ev, zlen (i_sha1 i) = 20 -> zlen pid = 20 -> Forall (int_fits W64) [port; up; down; i_length i - t_downloaded m] ->
  exists r, request_means (announce_query i m pid port up down ev) r /\
    r_info_hash r = i_sha1 i /\ r_peer_id r = pid /\ r_port r = port /\ r_uploaded r = up /\ r_downloaded r = down /\
    r_left r = i_length i - t_downloaded m /\ r_event r = ev /\ r_compact r = true /\ r_ip r = [].
Proof.
  intros i m pid port up down ev H1 H2 F. exists (announce_request i m pid port up down ev). split; [|repeat split].
  apply request_decode_means, request_round. split; [exact H1|]. split; [exact H2|exact F].
Qed.
Print Assumptions C67_query_says.
Example C67_query_case :
  announce_query ex_one (new_mem ex_one) (bs "bbbbbbbbbbbbbbbbbbbb") 6881 5 7 (bs "started") =
  bs "compact=1&downloaded=7&event=started&info_hash=00000000000000000000&left=3&peer_id=bbbbbbbbbbbbbbbbbbbb&port=6881&uploaded=5".
Proof. vm_compute. reflexivity. Qed.
