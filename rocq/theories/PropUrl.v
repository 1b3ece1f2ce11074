(** C127: a tracker is asked at the address its URL names, with the parameters in it. *)
From Verif Require Import GoBase Url UrlSpec Tracker TrackerSpec TrackerUrl TrackerUrlSpec TrackerUrlProofs PropTracker.

(** The part that holds: for every http or https URL the announce goes to its host, for its
    path, and what follows the '?' gives the tracker exactly the request. *)
Theorem C127_asked_at_its_url_partial :
  forall s h p q f r, s = bs "http" \/ s = bs "https" -> host_text h -> path_text p -> opt_ok query_text q -> opt_ok fragment_text f -> request_fits r ->
  exists query, tracker_ask (url_text s h p q f) r = AGet s h ((match p with [] => bs "/" | _ => p end) ++ "?"%byte :: query) /\
    request_decode new_request query = Some r.
Proof. exact asked_at_url. Qed.
Print Assumptions C127_asked_at_its_url_partial.
(** URLs with another scheme (udp trackers) are an error, and nothing is sent. *)
Theorem C127_other_schemes_are_refused :
  forall s h p q f r, scheme_text s -> Forall (fun c => ~ 65 <= b2z c <= 90) s -> s <> bs "http" -> s <> bs "https" ->
  host_text h -> path_text p -> opt_ok query_text q -> opt_ok fragment_text f -> tracker_ask (url_text s h p q f) r = AErr.
Proof. exact other_schemes. Qed.
Print Assumptions C127_other_schemes_are_refused.
(** What does not hold: the parameters in the URL (a passkey, say) are dropped.  Whatever
    they are, the same is sent. *)
Theorem C127_own_parameters_are_lost_refuted :
  forall s h p q q' f f' r, scheme_text s -> host_text h -> path_text p -> opt_ok query_text q -> opt_ok query_text q' -> opt_ok fragment_text f -> opt_ok fragment_text f' ->
  tracker_ask (url_text s h p q f) r = tracker_ask (url_text s h p q' f') r.
Proof. exact own_query_lost. Qed.
Print Assumptions C127_own_parameters_are_lost_refuted.

(** A private tracker with a passkey. *)
Example C127_case :
  bs "http://tracker.example.org:6969/a%20b/announce?passkey=alice#x" = url_text (bs "http") (bs "tracker.example.org:6969") (bs "/a%20b/announce") (Some (bs "passkey=alice")) (Some (bs "x")) /\
  host_text (bs "tracker.example.org:6969") /\ path_text (bs "/a%20b/announce") /\ query_text (bs "passkey=alice") /\ fragment_text (bs "x") /\ request_fits ex_request /\
  (exists rest, tracker_ask (bs "http://tracker.example.org:6969/a%20b/announce?passkey=alice#x") ex_request =
    AGet (bs "http") (bs "tracker.example.org:6969") (bs "/a%20b/announce?compact=1&downloaded=-1&event=started&info_hash=" ++ rest)) /\
  tracker_ask (bs "http://h?passkey=alice") ex_request = tracker_ask (bs "http://h?passkey=bob") ex_request /\
  tracker_ask (bs "udp://tracker.example.org:6969/announce") ex_request = AErr.
Proof.
  split; [reflexivity|]. split; [|split; [|split; [|split; [|split; [exact (proj1 C30_case)|]]]]].
  - exists (bs "tracker.example.org"). split; [discriminate|]. split.
    + repeat (apply Forall_cons || apply Forall_nil); first [right; right; vm_compute; tauto | left; unfold letter; vm_compute; intuition discriminate].
    + right. exists (bs "6969"). split; [discriminate|]. split; [|reflexivity]. repeat (apply Forall_cons || apply Forall_nil); vm_compute; split; discriminate.
  - right. exists (bs "a%20b/announce"). split; [reflexivity|]. cbn.
    apply pch_plain; [left; left; right; vm_compute; split; discriminate|]. apply (pch_hex _ _ 2 0); [left; vm_compute; intuition discriminate|left; vm_compute; intuition discriminate|].
    repeat first [apply pch_nil | apply pch_plain; [first [right; vm_compute; tauto | left; left; right; vm_compute; split; discriminate]|]].
  - repeat (apply Forall_cons || apply Forall_nil); vm_compute; repeat split; discriminate.
  - apply fr_plain; [discriminate|apply fr_nil].
  - split; [eexists; vm_compute; reflexivity|]. split; vm_compute; reflexivity.
Qed.
