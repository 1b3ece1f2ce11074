(** C29-C31, C35, C48, C61: tracker messages, magnet links and announcing. *)
From Verif Require Import GoBase Strconv BencTypes BencFields BencEncode BencDecode BencSpec BencRoundSpec BencPanicSpec GoBaseProofs BencSpecProofs BencEncodeProofs BencRoundProofs BencRoundTrip Url UrlSpec UrlProofs Magnet MagnetSpec MagnetProofs
  NetIP Tracker TrackerSpec NetIPProofs TrackerProofs Multitracker MultitrackerSpec MultitrackerProofs.
From Coq Require Import Permutation.

(** ** C29 *)
Definition ex_peer (i a : bytes) (p : Z) : peer := {| p_id := i; p_ip := a; p_port := p |}.
Theorem C29_compact_round_trip :
  forall l, Forall ipv4_peer l -> 6 * zlen l <= 2 ^ 48 ->
  exists ws, Forall2 compact_form l ws /\
    peers_marshal (Some (peers_val {| ps_compact := true; ps_list := l |})) = Ok (enc_str (concat ws)) /\
    forall c0 l0, peers_unmarshal (Some (peers_val {| ps_compact := c0; ps_list := l0 |})) (enc_str (concat ws)) =
      UOk (peers_val {| ps_compact := true; ps_list := map without_id l |}).
Proof. exact compact_round. Qed.
Print Assumptions C29_compact_round_trip.
Example C29_case : Forall ipv4_peer [ex_peer (bs "id") (bs "10.0.200.1") 6881; ex_peer [] (bs "255.1.2.3") 0].
Proof.
  repeat constructor; cbn; try lia; [exists x0a, x00, xc8, x01|exists xff, x01, x02, x03]; apply dotted_show; vm_compute; reflexivity.
Qed.
(** Any string whose length is not a multiple of 6 is rejected; any other string is a
    list of peers, and that list stands for exactly that string. *)
Theorem C29_compact_reject :
  forall s t rest c0 l0, lax (BStr s) t -> zlen s mod 6 <> 0 ->
  exists v, peers_unmarshal (Some (peers_val {| ps_compact := c0; ps_list := l0 |})) (t ++ rest) = UErr v.
Proof. exact compact_reject. Qed.
Print Assumptions C29_compact_reject.
Theorem C29_compact_accept :
  forall s t rest c0 l0, lax (BStr s) t -> zlen s mod 6 = 0 ->
  exists l ws, peers_unmarshal (Some (peers_val {| ps_compact := c0; ps_list := l0 |})) (t ++ rest) = UOk (peers_val {| ps_compact := true; ps_list := l |}) /\
    Forall2 compact_form l ws /\ Forall (fun p => p_id p = []) l /\ s = concat ws.
Proof. exact compact_accept. Qed.
Print Assumptions C29_compact_accept.
Example C29_reject_case : lax (BStr (bs "abcdefg")) (bs "7:abcdefg") /\ zlen (bs "abcdefg") mod 6 <> 0 /\
  lax (BStr (bs "abcdef")) (bs "6:abcdef") /\ zlen (bs "abcdef") mod 6 = 0.
Proof. split; [apply lax_enc_str; cbv; discriminate|]. split; [cbv; discriminate|]. split; [apply lax_enc_str; cbv; discriminate|reflexivity]. Qed.

(** ** C30 *)
Theorem C30_request_round_trip :
  forall r, request_fits r -> request_decode new_request (request_encode r) = Some r.
Proof. exact request_round. Qed.
Print Assumptions C30_request_round_trip.
Definition ex_request : request := {|
  r_info_hash := bs "&=%+ #;?" ++ [x00; x0a; x7f; x80; xff] ++ bs "abcdefg"; r_peer_id := repeat xff 20; r_ip := bs "1.2.3.4";
  r_port := 6881; r_uploaded := 9223372036854775807; r_downloaded := -1; r_left := 0; r_event := bs "started"; r_compact := true |}.
Example C30_case : request_fits ex_request /\
  firstn 90 (request_encode ex_request) = bs "compact=1&downloaded=-1&event=started&info_hash=%26%3D%25%2B+%23%3B%3F%00%0A%7F%80%FFabcde".
Proof. split; [|vm_compute; reflexivity]. split; [reflexivity|]. split; [reflexivity|]. repeat constructor; cbv; intuition discriminate. Qed.

(** Decode of any query: it succeeds exactly on well-formed queries whose numbers are
    64-bit integers, with the first value of each parameter. *)
Theorem C30_request_decode_meaning :
  forall q r, request_decode new_request q = Some r <-> request_means q r.
Proof. exact request_decode_means. Qed.
Print Assumptions C30_request_decode_meaning.
Example C30_meaning_cases :
  (exists r, request_decode new_request (bs "port=6881&&left=7&x&port=2&info_hash=%41+b") = Some r /\ r_port r = 6881 /\ r_left r = 7 /\
     r_info_hash r = bs "A b" ++ repeat x00 17) /\
  request_decode new_request (bs "port=6881&%4") = None /\ request_decode new_request (bs "port=6881&a;b=c") = None /\
  request_decode new_request (bs "port=9223372036854775808") = None.
Proof. split; [eexists; split; [vm_compute; reflexivity|split; [|split]; vm_compute; reflexivity]|split; [|split]; vm_compute; reflexivity]. Qed.

(** ** C31 *)
(** The peers decoder panics on a list with an entry that is not a dictionary holding
    "peer id", "ip" and "port" of the right kinds (e.g. on BEP 23's missing ids). *)
Theorem C31_peers_panic_refuted :
  forall old l out rest v, lax (BList l) out -> In v l -> ~ peer_shaped v -> peers_unmarshal (Some old) (out ++ rest) = UPanic.
Proof. exact peers_panic_conv. Qed.
Print Assumptions C31_peers_panic_refuted.
(** Five complete HTTP bodies that crash the client: a peers list of numbers, a peer
    without id, no peers, interval 0, and an interval that overflows. *)
Theorem C31_start_panic_refuted :
  Forall (fun b => start_on_body (Some b) = Panic)
    [bs "d8:intervali30e5:peersli1eee"; bs "d8:intervali30e5:peersld2:ip7:1.2.3.44:porti1eeee"; bs "d8:intervali30ee";
     bs "d8:intervali0e5:peers0:e"; bs "d8:intervali9223372037e5:peers0:e"].
Proof. repeat constructor. Qed.
Print Assumptions C31_start_panic_refuted.
(** Nothing else crashes it: apart from string lengths that cannot be allocated, a body
    on which Start panics contains a list with a misshapen entry, or is a document
    without peers, without interval, or with an interval that is not positive (as a
    64-bit number of nanoseconds). *)
Theorem C31_start_no_other_panic_partial :
  forall b, start_on_body (Some b) = Panic ->
  bad_length b \/ misshapen_list b \/
  exists ks kts ts rest, document b ks kts ts rest /\
    (~ In (bs "peers") ks \/ ~ In (bs "interval") ks \/
     exists z tx, In (bs "interval", "i"%byte :: tx ++ ["e"%byte]) (combine ks ts) /\ go_int z tx /\ ~ 0 < wrap_s 64 (z * 1000000000)).
Proof. exact start_panic. Qed.
Print Assumptions C31_start_no_other_panic_partial.
Theorem C31_peers_no_other_panic_partial :
  forall old data, peers_unmarshal (Some old) data = UPanic -> bad_length data \/
  exists l out rest v, data = out ++ rest /\ lax (BList l) out /\ In v l /\ ~ peer_shaped v.
Proof. exact peers_panic. Qed.
Print Assumptions C31_peers_no_other_panic_partial.
Theorem C31_response_no_other_panic_partial :
  forall b, unmarshal_response b = DPanic -> bad_length b \/ misshapen_list b.
Proof. exact response_panic. Qed.
Print Assumptions C31_response_no_other_panic_partial.
Example C31_case : lax (BList [BInt 1]) (bs "li1ee") /\ ~ peer_shaped (BInt 1) /\
  start_on_body (Some (bs "d8:intervali30e5:peers6:abcdefe")) = Ok 30000000000 /\
  start_on_body (Some (bs "d14:failure reason2:noe")) = Err tt /\ start_on_body (Some (bs "d8:intervali30e5:peers5:abcdee")) = Err tt.
Proof.
  split; [|split; [intros (m & i & a & p & E & _); discriminate|repeat split; vm_compute; reflexivity]].
  apply (bep3_lax (BList [BInt 1])); [|cbn; repeat split; reflexivity|cbn; repeat split].
  apply (bep3_list [BInt 1] [bs "i1e"]). repeat constructor. apply (enc_int_bep3 1).
Qed.

(** ** C35 *)
Theorem C35_magnet_fields :
  forall hier_ok q ps, Forall link_byte q -> query_means q ps ->
  (first_value (bs "xl") ps = [] -> parse_magnet hier_ok (bs "magnet:?" ++ q) = Some (magnet_of ps 0)) /\
  (forall z, go_int z (first_value (bs "xl") ps) -> parse_magnet hier_ok (bs "magnet:?" ++ q) = Some (magnet_of ps z)) /\
  (first_value (bs "xl") ps <> [] -> (forall z, ~ go_int z (first_value (bs "xl") ps)) -> parse_magnet hier_ok (bs "magnet:?" ++ q) = None).
Proof. exact magnet_spec. Qed.
Print Assumptions C35_magnet_fields.
(** Every query has a meaning, and a query built by escaping has the intended one. *)
Theorem C35_query_total : forall q, exists ps, query_means q ps.
Proof. exact query_means_total. Qed.
Print Assumptions C35_query_total.
Theorem C35_escaped_query : forall ps, ps <> [] -> query_means (pairs_text ps) ps.
Proof. exact pairs_text_means. Qed.
Print Assumptions C35_escaped_query.
Example C35_case :
  let q := bs "xt=urn:btih:aa&dn=a%20b&tr=http%3A%2F%2Ft&xl=10&tr=u&bad=%zz&xt=second" in
  Forall link_byte q /\ parse_magnet (fun _ _ => true) (bs "magnet:?" ++ q) = Some
    {| mg_topic := bs "urn:btih:aa"; mg_name := bs "a b"; mg_length := 10; mg_trackers := [bs "http://t"; bs "u"]; mg_web_seed := []; mg_peers := [] |}.
Proof. split; [|vm_compute; reflexivity]. apply Forall_forall. intros c H. vm_compute in H. repeat (destruct H as [<-|H]; [repeat split; cbv; discriminate|]). destruct H. Qed.

(** ** C48 *)
Theorem C48_failover :
  forall (T R E : Type) (ask : nat -> T -> R + E) tiers asked g tiers', mt_get ask tiers = (asked, g, tiers') ->
  (exists before x r, promoted tiers before x tiers' /\ asked = before ++ [x] /\ all_fail ask 0 before /\ ask (List.length before) x = inl r /\ g = GotRes r) \/
  (asked = concat tiers /\ all_fail ask 0 asked /\ tiers' = tiers /\
   match rev asked with [] => g = GotNothing | t :: _ => exists e, ask (List.length asked - 1)%nat t = inr e /\ g = GotErr e end).
Proof. intros T R E ask tiers. exact (get_spec ask tiers). Qed.
Print Assumptions C48_failover.
(** Any number of announces only reorders trackers within their tiers, and the tiers
    start as the announce list (or the single announce URL), each shuffled. *)
Theorem C48_membership :
  forall (T R E : Type) rnd (url : T) announce_list tiers, @after_calls T R E (new_tiers rnd url announce_list) tiers ->
  Forall2 (@Permutation T) (match announce_list with [] => [[url]] | _ => announce_list end) tiers.
Proof. intros T R E rnd url al tiers H. exact (MultitrackerProofs.perm_trans _ _ _ (new_tiers_perm rnd url al) (calls_perm _ _ H)). Qed.
Print Assumptions C48_membership.
Example C48_case :
  mt_get (fun n t => if Nat.eqb t 4 then inl n else inr tt) [[1; 2]; [3; 4; 5]; [6]]%nat = ([1; 2; 3; 4], GotRes 3, [[1; 2]; [4; 3; 5]; [6]])%nat /\
  new_tiers (fun _ i => i - 1)%nat 9%nat [[1; 2; 3]; []; [4]]%nat = [[3; 1; 2]; []; [4]]%nat.
Proof. split; reflexivity. Qed.

(** ** C61 *)
(** An announce that no tracker answers returns an error, if there is a tracker. *)
Theorem C61_error_when_unanswered_partial :
  forall (T R E : Type) (ask : nat -> T -> R + E) tiers, concat tiers <> [] -> (forall n t r, ask n t <> inl r) ->
  exists e, snd (fst (mt_get ask tiers)) = GotErr e.
Proof.
  intros T R E ask tiers N F. destruct (mt_get ask tiers) as [[a g] ts] eqn:H. cbn [fst snd].
  destruct (get_spec ask _ _ _ _ H) as [(b & x & r & _ & _ & _ & A & _)|(-> & _ & _ & G)]; [exfalso; eapply F; exact A|].
  destruct (rev (concat tiers)) as [|t l] eqn:Er; [|destruct G as (e & _ & G); eauto]. exfalso. apply N. rewrite <- (rev_involutive (concat tiers)), Er. reflexivity.
Qed.
Print Assumptions C61_error_when_unanswered_partial.
(** With an announce list whose tiers are all empty (the metainfo decoder accepts
    "announce-list" = [[]]) there is neither response nor error, and Start crashes. *)
Theorem C61_nothing_refuted :
  forall (T R E : Type) (ask : nat -> T -> R + E) rnd (url : T), snd (fst (mt_get ask (new_tiers rnd url [[]]))) = GotNothing /\ use_start GotNothing = Panic /\ use_announce GotNothing = Panic.
Proof. intros. repeat split. Qed.
Print Assumptions C61_nothing_refuted.
Example C61_case : snd (fst (mt_get (fun n t => @inr nat nat (n + t)%nat) [[1; 2]; []; [3]]%nat)) = GotErr 5%nat.
Proof. reflexivity. Qed.

(** ** C66 *)
(** A reply that states a (non-empty) failure reason is never taken for an answer, so
    the next tracker is asked (C48). *)
Theorem C66_failure_reason_is_error :
  forall m out rest s v, lax_typed (BDict m) out -> In (bs "failure reason", BStr s) m -> s <> [] -> tracker_get (Some (out ++ rest)) <> Ok v.
Proof. exact failure_reason_error. Qed.
Print Assumptions C66_failure_reason_is_error.
Example C66_case :
  lax_typed (BDict [(bs "failure reason", BStr (bs "no")); (bs "interval", BInt 30)]) (bs "d14:failure reason2:no8:intervali30ee") /\
  tracker_get (Some (bs "d14:failure reason2:no8:intervali30ee")) = Err tt /\
  (exists v, tracker_get (Some (bs "d14:failure reason0:8:intervali30e5:peers0:e")) = Ok v) /\
  (exists v, tracker_get (Some (bs "d8:intervali30e5:peers6:abcdefe")) = Ok v).
Proof.
  split; [|split; [vm_compute; reflexivity|split; eexists; vm_compute; reflexivity]].
  apply (gram_dict true ascending_nonempty [(bs "failure reason", BStr (bs "no")); (bs "interval", BInt 30)] [bs "14:failure reason"; bs "8:interval"] [bs "2:no"; bs "i30e"]).
  - repeat constructor.
  - repeat constructor; [apply (lax_str_enc (bs "failure reason"))|apply (lax_str_enc (bs "interval"))]; cbv; discriminate.
  - constructor; [|constructor; [|constructor]].
    + apply gram_string; [apply (lax_str_enc (bs "no")); cbv; discriminate|left; reflexivity].
    + apply (gram_int true ascending_nonempty 30 (bs "30")); [left; exists [], (bs "30"); repeat split; auto; discriminate|]. intros [(c & n & E)|(n & E)]; discriminate.
Qed.

(** ** C71 *)
(** After a start that was answered, announces are sent with the period (in nanoseconds)
    that the interval in the reply says, if that is at most 9223372036 seconds. *)
Theorem C71_announce_period_partial :
  forall b d, start_on_body (Some b) = Ok d ->
  exists ks kts ts rest z tx, document b ks kts ts rest /\ In (bs "interval", "i"%byte :: tx ++ ["e"%byte]) (combine ks ts) /\ go_int z tx /\
    0 < d /\ d = wrap_s 64 (z * 1000000000) /\ (- 9223372036 <= z <= 9223372036 -> d = z * 1000000000).
Proof. exact start_period. Qed.
Print Assumptions C71_announce_period_partial.
Example C71_case : start_on_body (Some (bs "d8:intervali1800e5:peers6:abcdefe")) = Ok 1800000000000.
Proof. vm_compute. reflexivity. Qed.
(** What is missing: with a longer interval the multiplication overflows; an interval of
    18446744074 seconds announces more than three times a second, and so does a negative
    one; other intervals are a panic (C31). *)
Theorem C71_long_interval_refuted :
  start_on_body (Some (bs "d8:intervali18446744074e5:peers6:abcdefe")) = Ok 290448384 /\
  start_on_body (Some (bs "d8:intervali-18446744073e5:peers6:abcdefe")) = Ok 709551616.
Proof. split; vm_compute; reflexivity. Qed.
Print Assumptions C71_long_interval_refuted.
