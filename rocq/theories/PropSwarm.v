(** C82: drip clients and drip's tracker together. *)
From Verif Require Import GoBase Strconv BencTypes BencEncode BencDecode BencSpec BencRoundSpec NetIP Metainfo Storage Tracker TrackerSpec TrackerProofs Multitracker Announce Pex PexSpec SwarmSpec SwarmProofs.
From Coq Require Import Permutation.

(** ** C82 *)
(** After any history of announces by IPv4 clients (for any torrents) and sweeps, the
    announce of a client is answered, and from the answer the client learns exactly the
    addresses of the other clients of this torrent that announced within the last minute and
    did not stop, each once; its announce period becomes 30 seconds.  (2^45: no history that
    fits into memory is longer.) *)
Theorem C82_clients_find_each_other :
  forall err_text order, (forall m, Permutation m (order m)) ->
  forall hashes t0 hist me T h c ev now clk,
  timed t0 (hist ++ [me]) T -> In h hashes -> visit h c ev now clk me -> Forall swarm_event hist -> zlen hist < 2 ^ 45 ->
  exists q l v, me = EvRequest q (Some (cl_host c)) now clk /\
    let rep := snd (serve err_text order q (Some (cl_host c)) now clk (px_run err_text order (new_http hashes) hist)) in
    status rep = 200 /\ tracker_get (Some (body rep)) = Ok v /\ v = response_val (answer {| ps_compact := true; ps_list := l |}) /\
    start_on_body (Some (body rep)) = Ok 30000000000 /\ announce_on_body (Some (body rep)) = Ok tt /\ NoDup l /\
    forall p, In p l <-> p_id p = [] /\ (p_ip p, p_port p) <> (cl_host c, cl_port c) /\
      exists t ev', last_visit (hist ++ [me]) h (p_ip p) (p_port p) t ev' /\ ev' <> leaving /\ clk (addr_text (p_ip p) (p_port p)) - t <= a_minute.
Proof. exact swarm_spec. Qed.
Print Assumptions C82_clients_find_each_other.
(** Two clients start, one stops; a third starts. *)
Definition ex_info (h : bytes) : info := {| i_sha1 := h; i_piece_length := 2; i_pieces := [bs "ab"; bs "c"]; i_private := 0; i_name := bs "n"; i_length := 3; i_md5 := []; i_files := [] |}.
Definition ex_hash : bytes := bs "aaaaaaaaaaaaaaaaaaaa".
Definition ex_client (host : bytes) (port : Z) : client := {| cl_host := host; cl_port := port; cl_id := bs "bbbbbbbbbbbbbbbbbbbb" |}.
Definition ex_visit (host : bytes) (port : Z) (ev : bytes) (t : Z) : px_event_t :=
  EvRequest (announce_query (ex_info ex_hash) (new_mem (ex_info ex_hash)) (bs "bbbbbbbbbbbbbbbbbbbb") port 0 0 ev) (Some host) t (fun _ => t).
Definition ex_hist : list px_event_t := [ex_visit (bs "10.0.0.1") 6881 (bs "started") 1; ex_visit (bs "10.0.0.2") 6882 (bs "started") 2; ex_visit (bs "10.0.0.2") 6882 (bs "stopped") 3].
Lemma ex_visit_ok a b c d host port ev t : dotted a b c d host -> 1 <= port <= 65535 -> visit ex_hash (ex_client host port) ev t (fun _ => t) (ex_visit host port ev t).
Proof.
  intros D P. split; [split; [eauto|split; [exact P|reflexivity]]|]. split; [reflexivity|]. exists (ex_info ex_hash), (new_mem (ex_info ex_hash)), 0, 0. split; [reflexivity|].
  split; [repeat constructor; vm_compute; discriminate|reflexivity].
Qed.
Example C82_case :
  timed 0 (ex_hist ++ [ex_visit (bs "10.0.0.3") 6883 (bs "started") 4]) 4 /\ Forall swarm_event ex_hist /\
  visit ex_hash (ex_client (bs "10.0.0.3") 6883) (bs "started") 4 (fun _ => 4) (ex_visit (bs "10.0.0.3") 6883 (bs "started") 4) /\
  match ex_visit (bs "10.0.0.3") 6883 (bs "started") 4 with
  | EvRequest q r now clk => tracker_get (Some (body (snd (serve (fun _ => []) (fun m => m) q r now clk (px_run (fun _ => []) (fun m => m) (new_http [ex_hash]) ex_hist)))))
  | _ => Panic end = Ok (response_val (answer {| ps_compact := true; ps_list := [{| p_id := []; p_ip := bs "10.0.0.1"; p_port := 6881 |}] |})).
Proof.
  assert (V : forall x port ev t, 1 <= port <= 65535 -> visit ex_hash (ex_client (bs "10.0.0." ++ format_Z (b2z x)) port) ev t (fun _ => t) (ex_visit (bs "10.0.0." ++ format_Z (b2z x)) port ev t)).
  { intros x port ev t P. apply (ex_visit_ok "010" "000" "000" x); [|exact P]. apply dotted_show. reflexivity. }
  split. { unfold ex_hist, ex_visit. cbn [app]. repeat (eapply tm_request; [|intros _; split; apply Z.le_refl|]; [lia|]). apply tm_nil. lia. }
  split. { repeat constructor; cbn [swarm_event ex_visit]; do 5 eexists; [apply (V "001"%byte)|apply (V "002"%byte)|apply (V "002"%byte)]; lia. }
  split; [apply (V "003"%byte); lia|]. vm_compute. reflexivity.
Qed.
