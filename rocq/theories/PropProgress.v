(** C102, and C69 in part: nothing that goroutines wait for is lost for good.

    Writes to a connection end, with an error or without, when the remote or the network
    lets them; here it is shown that nothing else has to happen first. *)
From Verif Require Import GoBase GoMap Bitfield BitfieldSpec PeerWire Metainfo MetainfoSpec Fs Storage StorageSpec StorageSysSpec Node NodeSpec P2PConn P2PConnSpec Client ClientSpec ProgressSpec ClientFreeThms.
From Verif Require P2PServerSpec PropServer PropStorage PropNode PropClient.
Import P2PServer StorageSys.

Definition ex_prefix (n : nat) : list uaction := firstn n (PropClient.ex_drive PropClient.ex_served).
Ltac run n := exists (ex_prefix n); eexists; eexists; split; [apply PropClient.ex_runs; vm_compute; reflexivity|].
(** ** C102 *)
(** Whoever holds the lock of a connection can release it with its next step, whatever the
    other goroutines do; the others are not disturbed. *)
Theorem C102_connection_lock :
  forall sha1 cfg env hash id, config_ok cfg -> i_piece_length (c_info cfg) <= 2 ^ 63 - 16384 -> forall f l c ev p K k, client_run sha1 cfg env hash id f l c ev ->
  s_crashed (srv c) = false -> nth_error (u_conns c) p = Some K -> k_mu K = Some k ->
  exists a c' e K', client_run sha1 cfg env hash id f (l ++ [a]) c' (ev ++ e) /\ s_crashed (srv c') = false /\ nth_error (u_conns c') p = Some K' /\ k_mu K' = None /\
    forall x y, x <> k -> nth_error (k_threads K) x = Some y -> nth_error (k_threads K') x = Some y.
Proof. exact connection_lock. Qed.
Print Assumptions C102_connection_lock.
(** Every call of Send, Unchoke and NotInterest can return, within five steps. *)
Theorem C102_calls_return :
  forall sha1 cfg env hash id, config_ok cfg -> i_piece_length (c_info cfg) <= 2 ^ 63 - 16384 -> forall f l c ev t th p, client_run sha1 cfg env hash id f l c ev ->
  s_crashed (srv c) = false -> thread_of c t = Some th -> on_call th = Some p ->
  exists l' c' ev' th', (List.length l' <= 5)%nat /\ client_run sha1 cfg env hash id f (l ++ l') c' (ev ++ ev') /\ s_crashed (srv c') = false /\ thread_of c' t = Some th' /\ on_call th' = None.
Proof. exact calls_return. Qed.
Print Assumptions C102_calls_return.
(** Every requestPiece that has begun to ask for its blocks can stop waiting for them. *)
Theorem C102_requests_end :
  forall sha1 cfg env hash id, config_ok cfg -> i_piece_length (c_info cfg) <= 2 ^ 63 - 16384 -> forall f l c ev p k bl, client_run sha1 cfg env hash id f l c ev ->
  s_crashed (srv c) = false -> In (UK p (KPulled k bl)) ev ->
  exists l' c' ev', client_run sha1 cfg env hash id f (l ++ l') c' (ev ++ ev') /\ s_crashed (srv c') = false /\ In (UK p (KPullEnd k)) (ev ++ ev').
Proof. exact wait_ends. Qed.
Print Assumptions C102_requests_end.
Example C102_case : config_ok PropNode.ex_cfg /\ i_piece_length (c_info PropNode.ex_cfg) <= 2 ^ 63 - 16384 /\
  (exists l c ev, PropClient.ex_run_of l c ev /\ s_crashed (srv c) = false /\ exists K th, nth_error (u_conns c) 0 = Some K /\ k_mu K = Some 1%nat /\ thread_of c 0 = Some th /\ on_call th = Some 0%nat) /\
  exists l c ev, PropClient.ex_run_of l c ev /\ s_crashed (srv c) = false /\ In (UK 0 (KPulled 2 [(0, 0, 2)])) ev /\ ~ In (UK 0 (KPullEnd 2)) ev /\ exists K, nth_error (u_conns c) 0 = Some K /\ k_mu K = Some 3%nat.
Proof.
  split; [exact PropNode.ex_ok|]. split; [exact PropClient.ex_fits|]. split.
  - run 6%nat. split; [reflexivity|]. do 2 eexists. repeat (split; [vm_compute; reflexivity|]). reflexivity.
  - run 42%nat. split; [reflexivity|]. split; [PropNode.among|]. split; [|eexists; split; vm_compute; reflexivity]. PropNode.absent.
Qed.

(** ** C69 *)
(** Once the writes that are going on end, the lock of the server can be released, unless a
    connection was refused (C52) or the server is being stopped. *)
Theorem C69_server_lock_partial :
  forall sha1 cfg env hash id, config_ok cfg -> i_piece_length (c_info cfg) <= 2 ^ 63 - 16384 -> forall f l c ev t, client_run sha1 cfg env hash id f l c ev ->
  s_crashed (srv c) = false -> s_mu (srv c) = Some t ->
  (exists l' c' ev', client_run sha1 cfg env hash id f (l ++ l') c' (ev ++ ev') /\ s_crashed (srv c') = false /\ s_mu (srv c') = None) \/
  (exists p, In (UN (NEv (EvRefused p))) ev) \/ s_cancelled (srv c) = true.
Proof. exact server_lock. Qed.
Print Assumptions C69_server_lock_partial.
Example C69_server_lock_case : exists l c ev, PropClient.ex_run_of l c ev /\ s_crashed (srv c) = false /\ s_mu (srv c) = Some 0%nat /\ s_cancelled (srv c) = false /\ forall p, ~ In (UN (NEv (EvRefused p))) ev.
Proof. run 6%nat. split; [reflexivity|]. split; [vm_compute; reflexivity|]. split; [reflexivity|]. intros p I. vm_compute in I. repeat destruct I as [I|I]; try contradiction; discriminate I. Qed.
