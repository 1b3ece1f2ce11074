(** C135: the built-in tracker forgets the peers that left.

    [timed], [last_announce] and [a_minute] are in PexSpec.v, [alive] and [forgotten] in
    PexIdSpec.v, [holds], [holds_torrent] and [holds_count] in PexMemSpec.v. *)
From Verif Require Import GoBase Strconv BencTypes BencEncode PeerWire NetIP Tracker TrackerSpec TrackerProofs Pex PexSpec PexIdSpec PexMemSpec PexMemProofs.
From Verif Require PropPex.
From Coq Require Import Permutation.

(** ** C135 *)
(** Whatever is announced, the tracker holds the torrents it was made with, each once, and no other. *)
Theorem C135_torrents_fixed :
  forall err_text order hashes hist, let s := px_run err_text order (new_http hashes) hist in
  NoDup (map fst s) /\ forall h, holds_torrent s h <-> In h hashes.
Proof. exact torrents. Qed.
Print Assumptions C135_torrents_fixed.
(** Right after a sweep of a torrent it holds exactly the addresses that are alive: whose last
    announce was not "stopped" and is at most a minute old. *)
Theorem C135_sweep_leaves_the_live :
  forall err_text order, (forall m, Permutation m (order m)) ->
  forall hashes t0 hist clk T h a, timed t0 (hist ++ [EvSweep h clk]) T -> In h hashes ->
  (holds (px_run err_text order (new_http hashes) (hist ++ [EvSweep h clk])) h a <-> alive hist h a (clk a)).
Proof. exact after_sweep. Qed.
Print Assumptions C135_sweep_leaves_the_live.
(** At any time it holds exactly the addresses it has not forgotten: those that announced, and
    that every sweep since their last announce found alive. *)
Theorem C135_holds_until_forgotten :
  forall err_text order, (forall m, Permutation m (order m)) ->
  forall hashes t0 hist T h a, timed t0 hist T -> In h hashes ->
  (holds (px_run err_text order (new_http hashes) hist) h a <-> ~ forgotten hist h a).
Proof. exact holds_iff. Qed.
Print Assumptions C135_holds_until_forgotten.
(** So its memory for a torrent is bounded by the addresses alive at any earlier sweep and the
    events since; what was announced before does not count. *)
Theorem C135_memory_bounded :
  forall err_text order, (forall m, Permutation m (order m)) ->
  forall hashes t0 hist clk post T h live n, timed t0 (hist ++ EvSweep h clk :: post) T -> In h hashes ->
  (forall a, alive hist h a (clk a) -> In a live) ->
  holds_count (px_run err_text order (new_http hashes) (hist ++ EvSweep h clk :: post)) h n -> (n <= length live + length post)%nat.
Proof. exact bounded. Qed.
Print Assumptions C135_memory_bounded.
(** Three peers announced; one has been silent for long, one has stopped.  Before the sweep
    all are held, after it the third alone. *)
Definition ex_before : list px_event_t := Eval cbv [PropPex.ex_hist removelast] in removelast PropPex.ex_hist.
Example C135_case :
  PropPex.ex_hist = ex_before ++ [EvSweep PropPex.ex_hash (fun _ => 2 * minute + 2)] /\
  timed 0 PropPex.ex_hist (3 * minute) /\
  holds_count (PropPex.ex_run ex_before) PropPex.ex_hash 3 /\
  holds_count (PropPex.ex_run PropPex.ex_hist) PropPex.ex_hash 1 /\
  holds (PropPex.ex_run ex_before) PropPex.ex_hash (bs "10.0.0.2:2") /\ holds (PropPex.ex_run PropPex.ex_hist) PropPex.ex_hash (bs "10.0.0.3:3").
Proof.
  split; [reflexivity|]. split.
  { unfold PropPex.ex_hist, PropPex.ex_req, minute. apply (tm_request _ _ _ _ _ 0); [lia|lia|]. apply (tm_request _ _ _ _ _ 5); [lia|lia|].
    apply (tm_request _ _ _ _ _ 120000000000); [lia|lia|]. apply (tm_request _ _ _ _ _ 120000000001); [lia|lia|]. apply (tm_sweep _ _ _ 120000000002); [lia|lia|]. apply tm_nil. lia. }
  split; [eexists; split; [vm_compute; left; reflexivity|reflexivity]|]. split; [eexists; split; [vm_compute; left; reflexivity|reflexivity]|].
  split; eexists _, _; (split; [vm_compute; left; reflexivity|]); cbn [In]; [right; left; reflexivity|left; reflexivity].
Qed.
