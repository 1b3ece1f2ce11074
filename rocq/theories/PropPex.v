(** C32-C34, C62, C63: the built-in tracker. *)
From Verif Require Import GoBase Strconv BencTypes BencFields BencEncode BencDecode BencSpec BencRoundSpec GoBaseProofs NetIP Tracker TrackerSpec NetIPProofs TrackerProofs Pex PexSpec PexProofs.
From Coq Require Import Permutation.

Definition ex_hash : bytes := bs "aaaaaaaaaaaaaaaaaaaa".
Definition ex_query (ip port rest : bytes) : bytes := bs "info_hash=aaaaaaaaaaaaaaaaaaaa&peer_id=bbbbbbbbbbbbbbbbbbbb&ip=" ++ ip ++ bs "&port=" ++ port ++ rest.
Definition ex_req (q : bytes) (t : Z) : px_event_t := EvRequest q None t (fun _ => t).
Definition ex_run (l : list px_event_t) : px_state := px_run (fun _ => []) (fun m => m) (new_http [ex_hash]) l.
Definition ex_serve (q : bytes) (t : Z) (s : px_state) : reply := snd (serve (fun _ => []) (fun m => m) q None t (fun _ => t) s).
(** A way to establish [announces] by computation. *)
Lemma announces_by q remote r ip txt : request_decode new_request q = Some r -> (match r_ip r with [] => remote | i => Some i end) = Some txt ->
  parse_ip txt = Some ip -> r_port r <> 0 ->
  announces q remote (r_info_hash r) (addr_text (show_ip ip) (r_port r)) {| p_id := r_peer_id r; p_ip := txt; p_port := r_port r |} (r_event r) (r_compact r).
Proof.
  intros D T P N. exists r, ip. cbn. rewrite <- request_decode_means. repeat (split; [first [assumption|reflexivity|idtac]|]); try reflexivity; try assumption.
  destruct (r_ip r) as [|c l]; [left; auto|right; split; [discriminate|congruence]].
Qed.

Ltac announce := match goal with |- announces ?q ?rem _ _ _ _ _ =>
  let r := eval vm_compute in (request_decode new_request q) in
  match r with Some ?r => let t := eval vm_compute in (match r_ip r with [] => rem | i => Some i end) in
    match t with Some ?t => let ip := eval vm_compute in (parse_ip t) in
      match ip with Some ?ip => refine (announces_by q rem r ip t _ _ _ _); [vm_compute; reflexivity|vm_compute; reflexivity|vm_compute; reflexivity|discriminate] end end end end.

(** ** C32 *)
(** Every announce to a served torrent, after any history of announces and sweeps with a
    clock that does not run backwards, answers with a list of peers: at most one per
    address, each of which announced itself to this torrent, and exactly the addresses
    other than the requester's whose last announce was not "stopped" and is at most a
    minute old when the handler looks at it.  [order] is any iteration order of Go's map.
    Missing: addresses announced in a non-standard text (see the refutation). *)
Theorem C32_live_peers_partial :
  forall err_text order, (forall m, Permutation m (order m)) ->
  forall hashes t0 hist q remote now clk T h a p ev c,
  timed t0 (hist ++ [EvRequest q remote now clk]) T -> In h hashes -> announces q remote h a p ev c ->
  let all := hist ++ [EvRequest q remote now clk] in
  (forall e, In e all -> standard_event e) ->
  exists l, snd (serve err_text order q remote now clk (px_run err_text order (new_http hashes) hist)) =
      match marshal_response (answer {| ps_compact := c; ps_list := l |}) with
      | EOk data => {| status := 200; body := data |} | _ => {| status := 500; body := [] |} end /\
    (exists addrs, Forall2 has_addr l addrs /\ NoDup addrs) /\
    (forall p', In p' l -> exists e a' ev' t', In e all /\ announce_event e h a' p' ev' t') /\
    (forall a', (exists p', In p' l /\ has_addr p' a') <->
       a' <> a /\ exists t ev, last_announce all h a' t ev /\ ev <> leaving /\ clk a' - t <= a_minute).
Proof. exact listing_spec. Qed.
Print Assumptions C32_live_peers_partial.
(** A requester that gives its address in another form is listed to itself. *)
Theorem C32_self_listed_refuted :
  announces (ex_query (bs "::ffff:1.2.3.4") (bs "6881") (bs "&compact=1")) None ex_hash (bs "1.2.3.4:6881")
    {| p_id := bs "bbbbbbbbbbbbbbbbbbbb"; p_ip := bs "::ffff:1.2.3.4"; p_port := 6881 |} [] true /\
  ex_serve (ex_query (bs "::ffff:1.2.3.4") (bs "6881") (bs "&compact=1")) 0 (new_http [ex_hash]) =
    {| status := 200; body := bs "d8:intervali30e5:peers6:" ++ [x01; x02; x03; x04; x1a; xe1] ++ bs "e" |}.
Proof.
  split; [|vm_compute; reflexivity].
  announce.
Qed.
Print Assumptions C32_self_listed_refuted.
(** A history with a departed peer, an expired peer and a live one. *)
Definition ex_hist : list px_event_t :=
  [ex_req (ex_query (bs "10.0.0.1") (bs "1") []) 0;
   ex_req (ex_query (bs "10.0.0.2") (bs "2") []) 5;
   ex_req (ex_query (bs "10.0.0.3") (bs "3") []) (2 * minute);
   ex_req (ex_query (bs "10.0.0.2") (bs "2") (bs "&event=stopped")) (2 * minute + 1);
   EvSweep ex_hash (fun _ => 2 * minute + 2)].
Example C32_case :
  timed 0 (ex_hist ++ [EvRequest (ex_query (bs "10.0.0.9") (bs "9") (bs "&compact=1")) None (3 * minute) (fun _ => 3 * minute)]) (3 * minute) /\
  standard_event (ex_req (ex_query (bs "10.0.0.1") (bs "1") []) 0) /\
  ex_serve (ex_query (bs "10.0.0.9") (bs "9") (bs "&compact=1")) (3 * minute) (ex_run ex_hist) =
    {| status := 200; body := bs "d8:intervali30e5:peers6:" ++ [x0a; x00; x00; x03; x00; x03] ++ bs "e" |} /\
  ex_serve (ex_query (bs "10.0.0.9") (bs "9") (bs "&compact=1")) (3 * minute + 1) (ex_run ex_hist) =
    {| status := 200; body := bs "d8:intervali30e5:peers0:e" |}.
Proof.
  split.
  { unfold ex_hist, ex_req, minute. cbn [app]. apply (tm_request _ _ _ _ _ 0); [lia|lia|]. apply (tm_request _ _ _ _ _ 5); [lia|lia|].
    apply (tm_request _ _ _ _ _ 120000000000); [lia|lia|]. apply (tm_request _ _ _ _ _ 120000000001); [lia|lia|]. apply (tm_sweep _ _ _ 120000000002); [lia|lia|].
    apply (tm_request _ _ _ _ _ 180000000000); [lia|lia|]. apply tm_nil. lia. }
  split; [|split; vm_compute; reflexivity].
  intros h a p ev t (_ & c & r & ip & D & _ & I & P & _). exists ip. split; [exact P|].
  assert (r_ip r = bs "10.0.0.1") as E. { apply request_decode_means in D. revert D. vm_compute. intros [= <-]. reflexivity. }
  destruct I as [[I _]|[_ I]]; [rewrite E in I; discriminate|]. rewrite E in I. rewrite I in *. revert P. vm_compute. intros [= <-]. reflexivity.
Qed.

(** ** C33 *)
(** From any registry, the reply to a well-formed announce: the listed peers [l] are the
    live entries other than the requester.  A compact reply is 200 exactly when all of
    them are IPv4; a list reply is 200 if it is not empty; and then the client's decoder
    reads the body back as those peers.
    Missing: the empty list reply (see the refutation). *)
Theorem C33_decodable_partial :
  forall err_text order, (forall m, Permutation m (order m)) ->
  forall q remote now clk s s' rep h a p ev c m, announces q remote h a p ev c -> assoc h s = Some m ->
  serve err_text order q remote now clk s = (s', rep) ->
  exists m' l, assoc h s' = Some m' /\
    (forall p', In p' l <-> exists k x, In (k, x) m' /\ px_event x <> leaving /\ clk k - px_updated x <= a_minute /\ addr_text (p_ip p') (p_port p') <> a /\ p' = px_tp x) /\
    (c = true -> (status rep = 200 <-> Forall (fun p => exists ip q, parse_ip (p_ip p) = Some ip /\ to4 ip = Some q) l)) /\
    (c = false -> Forall peer_fits l -> l <> [] -> status rep = 200) /\
    (status rep = 200 -> 6 * zlen l <= 2 ^ 48 -> Forall peer_fits l -> c = true \/ l <> [] ->
       exists ps', unmarshal_response (body rep) = DOk (VPtr (response_val (answer ps'))) [] (zlen (body rep)) /\
         client_view {| ps_compact := c; ps_list := l |} ps').
Proof.
  intros et order Op q remote now clk s s' rep h a p ev c m An A Sv. destruct (reply_spec et order _ _ _ _ _ _ _ _ _ _ _ _ _ An A Sv) as (m' & l & A' & -> & R).
  exists m', (listing order clk a m'). split; [exact A'|]. split; [|exact R]. intros p'. rewrite (listing_in order Op). unfold dead. split.
  - intros (k & x & I & D & N & ->). apply orb_false_iff in D as [D1 D2]. apply bytes_eqb_neq in D1. apply Z.ltb_ge in D2. exists k, x. auto.
  - intros (k & x & I & D1 & D2 & N & ->). exists k, x. split; [exact I|]. split; [|auto]. apply orb_false_iff. split; [apply bytes_eqb_neq; exact D1|apply Z.ltb_ge; exact D2].
Qed.
Print Assumptions C33_decodable_partial.
(** The first peer of a torrent, announcing without compact=1, gets a 200 reply that no
    decoder accepts: the empty list is written as nothing at all. *)
Theorem C33_empty_list_refuted :
  ex_serve (ex_query (bs "1.2.3.4") (bs "6881") []) 0 (new_http [ex_hash]) = {| status := 200; body := bs "d8:intervali30e5:peerse" |} /\
  forall v n d, unmarshal_response (bs "d8:intervali30e5:peerse") <> DOk v n d.
Proof.
  split; [vm_compute; reflexivity|]. intros v n d.
  assert (exists a b, unmarshal_response (bs "d8:intervali30e5:peerse") = DErr a b) as (a & b & ->) by (vm_compute; eauto). discriminate.
Qed.
Print Assumptions C33_empty_list_refuted.
Example C33_case : announces (ex_query (bs "1.2.3.4") (bs "6881") []) None ex_hash (bs "1.2.3.4:6881") {| p_id := bs "bbbbbbbbbbbbbbbbbbbb"; p_ip := bs "1.2.3.4"; p_port := 6881 |} [] false /\
  exists m, assoc ex_hash (ex_run [ex_req (ex_query (bs "10.0.0.1") (bs "1") []) 0]) = Some m /\ m <> [] /\
  ex_serve (ex_query (bs "1.2.3.4") (bs "6881") []) 0 (ex_run [ex_req (ex_query (bs "10.0.0.1") (bs "1") []) 0]) =
    {| status := 200; body := bs "d8:intervali30e5:peersld2:ip8:10.0.0.17:peer id20:bbbbbbbbbbbbbbbbbbbb4:porti1eeee" |}.
Proof.
  split.
  - announce.
  - eexists. split; [vm_compute; reflexivity|]. split; [discriminate|vm_compute; reflexivity].
Qed.

(** ** C34 *)
(** After a history in which only IPv4 addresses announced to the torrent, a well-formed
    compact announce is answered with 200.
    Missing: histories with IPv6 announces (see the refutation). *)
Theorem C34_ipv4_history_partial :
  forall err_text order, (forall m, Permutation m (order m)) ->
  forall hashes t0 hist q remote now clk T h a p ev,
  let all := hist ++ [EvRequest q remote now clk] in
  timed t0 all T -> In h hashes -> announces q remote h a p ev true ->
  (forall e a' p' ev' t', In e all -> announce_event e h a' p' ev' t' -> exists ip x, parse_ip (p_ip p') = Some ip /\ to4 ip = Some x) ->
  status (snd (serve err_text order q remote now clk (px_run err_text order (new_http hashes) hist))) = 200.
Proof. exact ipv4_history_200. Qed.
Print Assumptions C34_ipv4_history_partial.
(** One live IPv6 peer makes every compact announce fail with 500. *)
Theorem C34_ipv6_refuted :
  ex_serve (ex_query (bs "1.2.3.4") (bs "6881") (bs "&compact=1")) 1 (ex_run [ex_req (ex_query (bs "2001:db8::1") (bs "1") []) 0]) = {| status := 500; body := [] |}.
Proof. vm_compute. reflexivity. Qed.
Print Assumptions C34_ipv6_refuted.
Example C34_case : exists ip x, parse_ip (bs "::ffff:9.8.7.6") = Some ip /\ to4 ip = Some x /\
  status (ex_serve (ex_query (bs "1.2.3.4") (bs "6881") (bs "&compact=1")) 1 (ex_run [ex_req (ex_query (bs "::ffff:9.8.7.6") (bs "1") []) 0])) = 200.
Proof. do 2 eexists. split; [vm_compute; reflexivity|]. split; vm_compute; reflexivity. Qed.

(** ** C62 *)
(** A request that is not a well-formed announce to a served torrent changes nothing and
    is answered with 400: with no body if the remote address cannot be split, otherwise
    with a failure message that the client's decoder reads back. *)
Theorem C62_rejected :
  forall err_text order q remote now clk s, (forall h a p ev c, announces q remote h a p ev c -> assoc h s = None) ->
  fst (serve err_text order q remote now clk s) = s /\
  exists msg, snd (serve err_text order q remote now clk s) = fail msg \/ snd (serve err_text order q remote now clk s) = {| status := 400; body := [] |}.
Proof. exact malformed_rejected. Qed.
Print Assumptions C62_rejected.
Theorem C62_failure_readable :
  forall msg, len_fits msg -> exists b, fail msg = {| status := 400; body := b |} /\
  unmarshal_response b = DOk (VPtr (response_val (failure msg))) [] (zlen b).
Proof. exact failure_decodes. Qed.
Print Assumptions C62_failure_readable.
Example C62_case :
  let s := new_http [ex_hash] in
  ex_serve (ex_query (bs "1.2.3.4.5") (bs "1") []) 0 s = fail (bs "bad ip") /\ ex_serve (ex_query (bs "1.2.3.4") (bs "0") []) 0 s = fail (bs "bad port") /\
  ex_serve (bs "info_hash=b") 0 s = fail (bs "unknown info hash") /\ ex_serve (bs "port=x") 0 s = fail [] /\
  fail (bs "bad ip") = {| status := 400; body := bs "d14:failure reason6:bad ip8:intervali0ee" |}.
Proof. repeat split; vm_compute; reflexivity. Qed.

(** ** C63 *)
Theorem C63_torrents_independent :
  forall err_text order q remote now clk s h, (forall a p ev c, ~ announces q remote h a p ev c) ->
  assoc h (fst (serve err_text order q remote now clk s)) = assoc h s.
Proof. exact other_torrents. Qed.
Print Assumptions C63_torrents_independent.
Example C63_case : forall a p ev c, ~ announces (ex_query (bs "1.2.3.4") (bs "1") []) None (bs "cccccccccccccccccccc") a p ev c.
Proof. intros a p ev c (r & ip & D & E & _). apply request_decode_means in D. revert D. vm_compute. intros [= <-]. discriminate E. Qed.
