(** Model of pex/http.go.  Times are nanoseconds on one clock; time.Since(t) is modelled
    as a later reading minus [t] (Go saturates beyond 292 years; not modelled).  Every
    iteration of a loop over peers reads the clock again: [clk a] is the reading made for
    the entry with key [a].  Each request and each sweep of a torrent holds torrent.mu
    for its whole effect, so they are single steps.  net.SplitHostPort(req.RemoteAddr)
    and the texts of decoding errors are inputs. *)
From Verif Require Import GoBase Strconv BencTypes BencFields BencEncode BencDecode NetIP Tracker.

(** type Peer (http.go:29-33). *)
Record px_peer := { px_tp : peer; px_updated : Z; px_event : bytes }.
(** torrent.Peers (http.go:26): a Go map, as an association list without duplicate keys. *)
Definition px_map := list (bytes * px_peer).
(** HTTP.Torrents (http.go:18-27), keyed by info hash. *)
Definition px_state := list (bytes * px_map).
(** NewHTTP (http.go:35-44). *)
Definition new_http (hashes : list bytes) : px_state := fold_left (fun s h => assoc_set h [] s) hashes [].

Definition minute : Z := 60000000000.
Definition stopped : bytes := bs "stopped".
(** p.LastEvent == "stopped" || time.Since(p.UpdatedAt) > time.Minute (http.go:54, 127). *)
Definition dead (now : Z) (x : px_peer) : bool := bytes_eqb (px_event x) stopped || (minute <? now - px_updated x).

(** One torrent's part of the sweep (http.go:51-58). *)
Definition sweep (clk : bytes -> Z) (m : px_map) : px_map :=
  filter (fun e => negb (dead (clk (fst e)) (snd e))) m.

(** fmt.Sprintf("%s:%d", ip, port) (http.go:109, 130). *)
Definition addr_text (ip : bytes) (port : Z) : bytes := ip ++ ":"%byte :: format_Z port.

(** An HTTP reply: status and body. *)
Record reply := { status : Z; body : bytes }.
(** The closure [fail] (http.go:67-79). *)
Definition failure (msg : bytes) : response := {|
  rs_failure := msg; rs_interval := 0; rs_peers := None; rs_warning := []; rs_min_interval := 0; rs_tracker_id := [];
  rs_complete := 0; rs_incomplete := 0 |}.
Definition fail (msg : bytes) : reply :=
  match marshal_response (failure msg) with
  | EOk data => {| status := 400; body := data |}
  | _ => {| status := 500; body := [] |}
  end.
(** The success response (http.go:135-138). *)
Definition answer (ps : peers) : response := {|
  rs_failure := []; rs_interval := 30; rs_peers := Some ps; rs_warning := []; rs_min_interval := 0; rs_tracker_id := [];
  rs_complete := 0; rs_incomplete := 0 |}.

(** Find or create the entry and update it (http.go:112-124). *)
Definition touch (addr : bytes) (r : request) (ip : bytes) (now : Z) (m : px_map) : px_map :=
  let tp := match assoc addr m with
            | Some x => px_tp x
            | None => {| p_id := r_peer_id r; p_ip := ip; p_port := r_port r |}
            end in
  assoc_set addr {| px_tp := tp; px_updated := now; px_event := r_event r |} m.
(** The loop over torrent.Peers (http.go:126-134); [order] is Go's map iteration order. *)
Definition listing (order : px_map -> px_map) (clk : bytes -> Z) (addr : bytes) (m : px_map) : list peer :=
  map (fun e => px_tp (snd e))
    (filter (fun e => negb (dead (clk (fst e)) (snd e)) && negb (bytes_eqb (addr_text (p_ip (px_tp (snd e))) (p_port (px_tp (snd e)))) addr))
      (order m)).

(** ServeHTTP (http.go:65-146).  [remote] is the host part of RemoteAddr ([None] if
    SplitHostPort fails), [err_text] the text of a decoding error, [now] the reading of
    time.Now() at line 123. *)
Definition serve (err_text : bytes -> bytes) (order : px_map -> px_map) (query : bytes) (remote : option bytes)
    (now : Z) (clk : bytes -> Z) (s : px_state) : px_state * reply :=
  match request_decode new_request query with
  | None => (s, fail (err_text query))
  | Some r =>
      match assoc (r_info_hash r) s with
      | None => (s, fail (bs "unknown info hash"))
      | Some m =>
          match (match r_ip r with [] => remote | ip => Some ip end) with
          | None => (s, {| status := 400; body := [] |})
          | Some ip =>
              match parse_ip ip with
              | None => (s, fail (bs "bad ip"))
              | Some net_ip =>
                  if r_port r =? 0 then (s, fail (bs "bad port"))
                  else
                    let addr := addr_text (show_ip net_ip) (r_port r) in
                    let m' := touch addr r ip now m in
                    let ps := {| ps_compact := r_compact r; ps_list := listing order clk addr m' |} in
                    (assoc_set (r_info_hash r) m' s,
                     match marshal_response (answer ps) with
                     | EOk data => {| status := 200; body := data |}
                     | _ => {| status := 500; body := [] |}
                     end)
              end
          end
      end
  end.

(** What can happen to the tracker: a request, or the sweep of one torrent. *)
Inductive px_event_t :=
| EvRequest (query : bytes) (remote : option bytes) (now : Z) (clk : bytes -> Z)
| EvSweep (hash : bytes) (clk : bytes -> Z).
Definition px_step (err_text : bytes -> bytes) (order : px_map -> px_map) (s : px_state) (e : px_event_t) : px_state :=
  match e with
  | EvRequest q remote now clk => fst (serve err_text order q remote now clk s)
  | EvSweep h clk => match assoc h s with Some m => assoc_set h (sweep clk m) s | None => s end
  end.
Definition px_run err_text order (s : px_state) (l : list px_event_t) : px_state := fold_left (px_step err_text order) l s.
