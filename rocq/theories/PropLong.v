(** C122, C123: what builds up over a long life; [run_of] and [goes_on] are as in
    PropServer.v, [krun_of] as in PropConn.v and [client_run] as in PropClient.v. *)
From Verif Require Import GoBase Bitfield BitfieldSpec GoMap PeerWire PeerWireSpec Metainfo Fs Storage StorageSys StorageSpec Strconv NetIP Tracker P2PPeer P2PServer P2PServerSpec P2PAddrSpec P2PLostProofs
  P2PConn P2PConnSpec P2PConnProofs P2PMemProofs Client ClientSpec ClientProofs ClientThms ClientWantProofs.
From Verif Require PropServer PropNode PropClient.
Import PropServer.

(** ** C122 *)
(** A peer that is named for the first time is put into the queue, if there is room and no
    peer has been blocked. *)
Theorem C122_new_peers_are_queued_partial :
  forall hash id n have l s ev tp a, run_of hash id n have l s ev -> P2PAddrSpec.named tp a -> ~ In (EvQueued a) ev -> (forall p, ~ In (EvBlocked p) ev) ->
  s_crashed s = false -> s_mu s = None -> zlen (s_queue s) < 50 -> exists s', goes_on hash id n s [AAdd tp] s' [EvQueued a] /\ s_queue s' = s_queue s ++ [tp].
Proof. exact first_time_queued. Qed.
Print Assumptions C122_new_peers_are_queued_partial.
Example C122_new_case : exists l s ev, ex_run_of l s ev /\ ~ In (EvQueued (ex_addr 2000)) ev /\ P2PAddrSpec.named (ex_at 2000) (ex_addr 2000) /\ (forall p, ~ In (EvBlocked p) ev) /\
  s_crashed s = false /\ s_mu s = None /\ zlen (s_queue s) < 50.
Proof.
  run ex_dialled. split; [absent|]. split; [eexists; split; vm_compute; reflexivity|]. split; [|repeat split; vm_compute; reflexivity].
  intros p. absent.
Qed.
(** But never again: an address that was queued once is not queued in any later history,
    whatever became of it, and one that was dialled is not dialled again.  In the first
    history below the dial fails, in the second the connection is lost; both times the
    server then has no connection, no peer is blocked, and there is room in the queue. *)
Definition ex_failed : list action := [AAdd (ex_at 1000); ADialTake; ADialSpawn; AGo 0 COk; AGo 0 CErr; AGo 0 COk].
Definition ex_lost : list action := [AAdd (ex_at 1000); ADialTake; ADialSpawn; AGo 0 COk; AGo 0 COk] ++ ex_connect 0 ex_a ++ [AGo 0 COk; AGo 0 CErr; AGo 0 COk; AGo 0 COk].
Theorem C122_lost_peers_are_never_tried_again_refuted :
  (forall hash id n have l s ev a l' s' ev', run_of hash id n have l s ev -> goes_on hash id n s l' s' ev' ->
   (In (EvQueued a) ev -> ~ In (EvQueued a) ev') /\ (In (EvDial a) ev -> ~ In (EvQueued a) ev' /\ ~ In (EvDial a) ev')) /\
  forall l, l = ex_failed \/ l = ex_lost -> exists s ev, ex_run_of l s ev /\ In (EvDial (ex_addr 1000)) ev /\ (forall p, ~ In (EvBlocked p) ev) /\ (l = ex_lost -> In (EvDisconnected 0) ev) /\
    s_threads s = [TDone] /\ g_active (s_reg s) = [] /\ s_queue s = [] /\ s_mu s = None /\ s_crashed s = false /\ s_cancelled s = false /\
    exists s', goes_on ex_hash ex_self 2 s [AAdd (ex_at 1000)] s' [] /\ s_queue s' = [].
Proof.
  split; [exact never_redialled|]. intros l [->| ->]; do 2 eexists; (split; [apply ex_runs; vm_compute; reflexivity|]); (split; [among|]); (split; [intros p; absent|]);
    (split; [first [discriminate|intros _; among]|]); repeat (split; [vm_compute; reflexivity|]); eexists; (split; [exists ex_none; split; vm_compute; reflexivity|reflexivity]).
Qed.
Print Assumptions C122_lost_peers_are_never_tried_again_refuted.

(** ** C123 *)
(** The table of requests under way has at most 16 entries, that of cancelled requests at
    most one for every CANCEL of the peer.  Missing: a bound that does not depend on what
    the peer sends; there is none (below). *)
Theorem C123_requests_remembered_partial :
  forall sha1 cfg env hash id, config_ok cfg -> i_piece_length (c_info cfg) <= 2 ^ 63 - 16384 -> forall f l c ev p K, client_run sha1 cfg env hash id f l c ev -> nth_error (u_conns c) p = Some K ->
  zlen (k_inflight K) <= 16 /\ zlen (k_cancelled K) <= tally (handled CANCEL) (conn_events p ev).
Proof.
  intros sha1 cfg env hash id ok fits f l c ev p K R N. destruct (proj2 (client_conns _ _ _ _ _ _ _ _ _ R) _ _ N) as (l' & KR). split.
  - pose proof (inflight_outstanding _ _ _ KR). pose proof (sixteen _ _ _ _ _ ok fits _ _ _ _ p R). lia.
  - exact (cancels_bound _ _ _ KR).
Qed.
Print Assumptions C123_requests_remembered_partial.
Example C123_case : config_ok PropNode.ex_cfg /\ i_piece_length (c_info PropNode.ex_cfg) <= 2 ^ 63 - 16384 /\
  exists l c ev K, PropClient.ex_run_of l c ev /\ nth_error (u_conns c) 0 = Some K /\ zlen (k_inflight K) = 1.
Proof.
  split; [exact PropNode.ex_ok|]. split; [exact PropClient.ex_fits|].
  exists (PropClient.ex_drive PropClient.ex_asked). do 3 eexists. split; [apply PropClient.ex_runs; vm_compute; reflexivity|]. split; vm_compute; reflexivity.
Qed.
(** CANCEL messages for blocks that were never requested are all remembered, for as long as
    the connection lasts: the peer sends n messages of 17 bytes, gets nothing, and n
    entries are kept. *)
Theorem C123_cancels_are_kept_refuted :
  forall n, Z.of_nat n <= 2 ^ 32 -> exists l s ev, krun_of l s ev /\ zlen (k_cancelled s) = Z.of_nat n /\
  tally (fun e => match e with KRecv _ => true | _ => false end) ev = Z.of_nat n /\
  (forall m, In (KRecv m) ev -> exists i, fits (MCancel i 0 16384) /\ m = go_msg (MCancel i 0 16384)) /\ forall m, ~ In (KSent m) ev.
Proof. exact cancels_unbounded. Qed.
Print Assumptions C123_cancels_are_kept_refuted.
