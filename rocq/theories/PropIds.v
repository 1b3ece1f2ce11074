(** C130: the IDs the built-in tracker gives.

    [timed], [announces], [announce_event], [has_addr] and [standard_event] are in PexSpec.v,
    [forgotten], [alive] and [remembered] in PexIdSpec.v. *)
From Verif Require Import GoBase Strconv BencTypes BencEncode PeerWire NetIP Tracker TrackerSpec TrackerProofs P2PPeer Pex PexSpec PexIdSpec PexIdProofs.
From Verif Require PropPex.
From Coq Require Import Permutation.

(** ** C130 *)
(** Whoever is listed is listed as it announced itself at some time since the tracker last
    forgot the address: [h1] is the history until then, [h2] the history since.
    Missing: as it announced itself last. *)
Theorem C130_listed_as_announced_since_partial :
  forall err_text order, (forall m, Permutation m (order m)) ->
  forall hashes t0 h1 h2 q remote now clk T h a p ev c,
  timed t0 ((h1 ++ h2) ++ [EvRequest q remote now clk]) T -> In h hashes -> announces q remote h a p ev c ->
  exists l, snd (serve err_text order q remote now clk (px_run err_text order (new_http hashes) (h1 ++ h2))) =
      match marshal_response (answer {| ps_compact := c; ps_list := l |}) with
      | EOk data => {| status := 200; body := data |} | _ => {| status := 500; body := [] |} end /\
    forall p' a', In p' l -> has_addr p' a' -> forgotten h1 h a' ->
    exists e ev' t', In e (h2 ++ [EvRequest q remote now clk]) /\ announce_event e h a' p' ev' t'.
Proof. exact listed_since. Qed.
Print Assumptions C130_listed_as_announced_since_partial.
(** And that is the first announce since then ([e0]), whatever the address announced later:
    a client that starts again at its address with another ID, after a stop that no sweep has
    seen or without one, and goes on announcing once a minute, is listed with the old ID for
    good. *)
Theorem C130_old_id_stays :
  forall err_text order, (forall m, Permutation m (order m)) ->
  forall hashes t0 h1 e0 h2 q remote now clk T h a p ev c a' p0 ev0 s0,
  timed t0 ((h1 ++ e0 :: h2) ++ [EvRequest q remote now clk]) T -> In h hashes ->
  (forall e, In e ((h1 ++ e0 :: h2) ++ [EvRequest q remote now clk]) -> standard_event e) ->
  announces q remote h a p ev c -> a' <> a ->
  forgotten h1 h a' -> announce_event e0 h a' p0 ev0 s0 -> remembered (h1 ++ [e0]) h2 h a' -> alive (h1 ++ e0 :: h2) h a' (clk a') ->
  exists l, snd (serve err_text order q remote now clk (px_run err_text order (new_http hashes) (h1 ++ e0 :: h2))) =
      match marshal_response (answer {| ps_compact := c; ps_list := l |}) with
      | EOk data => {| status := 200; body := data |} | _ => {| status := 500; body := [] |} end /\
    In p0 l.
Proof. exact old_id_stays. Qed.
Print Assumptions C130_old_id_stays.

(** ** What is false *)
Definition id_query (id ip port rest : bytes) : bytes := bs "info_hash=aaaaaaaaaaaaaaaaaaaa&peer_id=" ++ id ++ bs "&ip=" ++ ip ++ bs "&port=" ++ port ++ rest.
Definition old_id : bytes := bs "bbbbbbbbbbbbbbbbbbbb".
Definition new_id : bytes := bs "cccccccccccccccccccc".
Definition second : Z := 1000000000.
(** A client announces, stops after ten seconds and is started again ten seconds later; it
    goes on announcing twice a minute, and sweeps go on. *)
Definition restarted : list px_event_t :=
  [PropPex.ex_req (id_query old_id (bs "10.0.0.1") (bs "1") []) 0; PropPex.ex_req (id_query old_id (bs "10.0.0.1") (bs "1") (bs "&event=stopped")) (10 * second);
   PropPex.ex_req (id_query new_id (bs "10.0.0.1") (bs "1") (bs "&event=started")) (20 * second); PropPex.ex_req (id_query new_id (bs "10.0.0.1") (bs "1") []) (50 * second);
   EvSweep PropPex.ex_hash (fun _ => minute); PropPex.ex_req (id_query new_id (bs "10.0.0.1") (bs "1") []) (80 * second);
   PropPex.ex_req (id_query new_id (bs "10.0.0.1") (bs "1") []) (110 * second); EvSweep PropPex.ex_hash (fun _ => 2 * minute)].
Definition third_query : bytes := id_query (bs "dddddddddddddddddddd") (bs "10.0.0.9") (bs "9") [].
(** Its last announce gives the new ID; the list that another client gets has the old one, and
    with it the handshake fails: it expects the old ID and gets the new one. *)
Theorem C130_restarted_client_refuted :
  (exists pre e clk ev t, restarted = pre ++ [e; EvSweep PropPex.ex_hash clk] /\
     announce_event e PropPex.ex_hash (bs "10.0.0.1:1") {| p_id := new_id; p_ip := bs "10.0.0.1"; p_port := 1 |} ev t) /\
  PropPex.ex_serve third_query (121 * second) (PropPex.ex_run restarted) =
    {| status := 200; body := bs "d8:intervali30e5:peersld2:ip8:10.0.0.17:peer id20:bbbbbbbbbbbbbbbbbbbb4:porti1eeee" |} /\
  peer_handshake PropPex.ex_hash (bs "dddddddddddddddddddd") (copied_id old_id) true ["019"%byte :: bs "BitTorrent protocol" ++ repeat x00 8 ++ PropPex.ex_hash ++ new_id] = (old_id, Err HPeerId).
Proof.
  split; [|split; vm_compute; reflexivity]. exists (firstn 6 restarted). eexists _, _, _, _. split; [reflexivity|]. split; [reflexivity|]. eexists. PropPex.announce.
Qed.
Print Assumptions C130_restarted_client_refuted.

(** ** Non-vacuity *)
Lemma standard_by q remote now clk r ip : request_decode new_request q = Some r -> r_ip r <> [] -> parse_ip (r_ip r) = Some ip -> show_ip ip = r_ip r -> standard_event (EvRequest q remote now clk).
Proof.
  intros D N P S h a p ev t (_ & c & r' & ip' & D' & _ & I & P' & _). apply request_decode_means in D'. assert (r' = r) as -> by congruence. destruct I as [[I _]|[_ I]]; [contradiction|].
  exists ip'. split; [exact P'|]. rewrite I in *. congruence.
Qed.
Ltac standard := match goal with
  | |- standard_event (EvSweep _ _) => intros ? ? ? ? ? []
  | |- standard_event (EvRequest ?q ?rem ?n ?k) =>
    let r := eval vm_compute in (request_decode new_request q) in
    match r with Some ?r => let ip := eval vm_compute in (parse_ip (r_ip r)) in
      match ip with Some ?ip => refine (standard_by q rem n k r ip _ _ _ _); [vm_compute; reflexivity|discriminate|vm_compute; reflexivity|vm_compute; reflexivity] end end end.
(** All hypotheses of the two theorems hold of the restarted client, with nothing before its
    first announce. *)
Definition first_event : px_event_t := PropPex.ex_req (id_query old_id (bs "10.0.0.1") (bs "1") []) 0.
Definition third : px_event_t := EvRequest third_query None (121 * second) (fun _ => 121 * second).
Example C130_case : restarted = first_event :: tl restarted /\
  timed 0 (([] ++ first_event :: tl restarted) ++ [third]) (121 * second) /\ (forall e, In e (([] ++ first_event :: tl restarted) ++ [third]) -> standard_event e) /\
  (exists p, announces third_query None PropPex.ex_hash (bs "10.0.0.9:9") p [] false) /\ forgotten [] PropPex.ex_hash (bs "10.0.0.1:1") /\
  announce_event first_event PropPex.ex_hash (bs "10.0.0.1:1") {| p_id := old_id; p_ip := bs "10.0.0.1"; p_port := 1 |} [] 0 /\
  remembered ([] ++ [first_event]) (tl restarted) PropPex.ex_hash (bs "10.0.0.1:1") /\ alive ([] ++ first_event :: tl restarted) PropPex.ex_hash (bs "10.0.0.1:1") (121 * second).
Proof.
  split; [reflexivity|]. split.
  { unfold first_event, third, restarted, PropPex.ex_req, second, minute. cbn [tl app].
    apply (tm_request _ _ _ _ _ 0); [lia|lia|]. apply (tm_request _ _ _ _ _ 10000000000); [lia|lia|]. apply (tm_request _ _ _ _ _ 20000000000); [lia|lia|]. apply (tm_request _ _ _ _ _ 50000000000); [lia|lia|].
    apply (tm_sweep _ _ _ 60000000000); [lia|lia|]. apply (tm_request _ _ _ _ _ 80000000000); [lia|lia|]. apply (tm_request _ _ _ _ _ 110000000000); [lia|lia|].
    apply (tm_sweep _ _ _ 120000000000); [lia|lia|]. apply (tm_request _ _ _ _ _ 121000000000); [lia|lia|]. apply tm_nil. lia. }
  split. { unfold first_event, third, restarted, PropPex.ex_req. cbn [tl app]. intros e I. repeat (destruct I as [<-|I]; [standard|]). destruct I. }
  split; [eexists; PropPex.announce|]. split; [left; intros e p ev t []|]. split; [split; [reflexivity|]; eexists; PropPex.announce|]. split.
  - intros pre clk post H. unfold restarted in H. cbn [tl] in H.
    destruct pre as [|x1 pre]; [discriminate H|]. injection H as <- H. destruct pre as [|x2 pre]; [discriminate H|]. injection H as <- H. destruct pre as [|x3 pre]; [discriminate H|]. injection H as <- H.
    destruct pre as [|x4 pre]; [injection H as <- <-|].
    { exists (50 * second), []. split; [|split; [discriminate|vm_compute; discriminate]]. exists (firstn 3 restarted), (PropPex.ex_req (id_query new_id (bs "10.0.0.1") (bs "1") []) (50 * second)), []. eexists. split; [reflexivity|].
      split; [split; [reflexivity|]; eexists; PropPex.announce|]. intros e' []. }
    injection H as <- H. destruct pre as [|x5 pre]; [discriminate H|]. injection H as <- H. destruct pre as [|x6 pre]; [discriminate H|]. injection H as <- H.
    destruct pre as [|x7 pre]; [injection H as <- <-|].
    { exists (110 * second), []. split; [|split; [discriminate|vm_compute; discriminate]]. exists (firstn 6 restarted), (PropPex.ex_req (id_query new_id (bs "10.0.0.1") (bs "1") []) (110 * second)), []. eexists. split; [reflexivity|].
      split; [split; [reflexivity|]; eexists; PropPex.announce|]. intros e' []. }
    injection H as <- H. destruct pre; discriminate H.
  - exists (110 * second), []. split; [|split; [discriminate|vm_compute; discriminate]]. exists (firstn 6 restarted), (PropPex.ex_req (id_query new_id (bs "10.0.0.1") (bs "1") []) (110 * second)), [EvSweep PropPex.ex_hash (fun _ => 2 * minute)]. eexists. split; [reflexivity|].
    split; [split; [reflexivity|]; eexists; PropPex.announce|]. intros e' [<-|[]] p' ev' t' [].
Qed.
