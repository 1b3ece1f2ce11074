(** Model of the HTTP request of Tracker.get (p2p/multitracker.go:116-124): which host is
    asked for what.  url.Parse, URL.String and http.Get are Go's standard library; the
    lines cited are their uses in /repo. *)
From Verif Require Import GoBase BencFields Url Tracker.

(** The fields of a url.URL with a scheme and a host.  Simplified: user info and the
    fragment are left out. *)
Record gurl := { u_scheme : bytes; u_host : bytes; u_path : bytes; u_rawpath : bytes; u_force : bool; u_query : bytes }.
(** Outcome of url.Parse: an error; a URL this model does not follow (user info, and hosts
    other than plain names and IPv4 addresses with an optional port); a URL.  Simplified:
    an URL without scheme or without "//" after it counts as an error, because http.Get
    refuses it. *)
Inductive parsed := PErr | POther | POk (u : gurl).

(** url.shouldEscape in mode encodePath, url.escape and url.validEncoded in that mode. *)
Definition escaped_in_path (c : byte) : bool := negb (is_alnum c || existsb (beqb c) (bs "-_.~$&+,/:;=@")).
Definition path_escape (s : bytes) : bytes :=
  flat_map (fun c => if escaped_in_path c then ["%"%byte; upper_hex (b2z c / 16); upper_hex (b2z c mod 16)] else [c]) s.
Definition valid_encoded (s : bytes) : bool :=
  forallb (fun c => existsb (beqb c) (bs "!$&'()*+,;=:@[]%") || negb (escaped_in_path c)) s.
(** URL.setPath: Path and RawPath. *)
Definition set_path (p : bytes) : option (bytes * bytes) :=
  match unescape false p with
  | None => None
  | Some path => Some (path, if bytes_eqb p (path_escape path) then [] else p)
  end.
(** URL.EscapedPath. *)
Definition escaped_path (u : gurl) : bytes :=
  match u_rawpath u with
  | [] => path_escape (u_path u)
  | raw => if valid_encoded raw && (match unescape false raw with Some p => bytes_eqb p (u_path u) | None => false end)
           then raw else path_escape (u_path u)
  end.

(** strings.ToLower on a scheme. *)
Definition lower_byte (c : byte) : byte := if in_range 65 90 c then z2b (b2z c + 32) else c.
(** The query of a URL: a single '?' at the end is remembered in ForceQuery. *)
Definition split_query (rest : bytes) : bytes * bytes * bool :=
  if ends_with_only_qmark rest then (firstn (List.length rest - 1) rest, [], true)
  else let (r, q) := cut "?"%byte rest in (r, q, false).
(** authority[:i], authority[i:] for the first '/'. *)
Fixpoint split_authority (s : bytes) : bytes * bytes :=
  match s with
  | [] => ([], [])
  | c :: s' => if beqb c "/"%byte then ([], s) else let (a, p) := split_authority s' in (c :: a, p)
  end.
(** The hosts this model follows: letters, digits and "-._~", and a port. *)
Definition host_byte (c : byte) : bool := is_alnum c || existsb (beqb c) (bs "-._~").
Definition plain_host (h : bytes) : bool :=
  let (name, port) := cut ":"%byte h in
  forallb host_byte name && (if existsb (beqb ":"%byte) h then negb (bytes_eqb port []) && forallb is_digit port else true).
(** url.Parse (multitracker.go:116, and in http.NewRequest). *)
Definition url_parse (raw : bytes) : parsed :=
  let (s, frag) := cut "#"%byte raw in
  if has_ctl s then PErr
  else match get_scheme s [] s, unescape false frag with
       | Some (c :: scheme, rest), Some _ =>
           match split_query rest with
           | ("/"%byte :: "/"%byte :: rest', query, force) =>
               let (host, path) := split_authority rest' in
               if plain_host host then
                 match set_path path with
                 | Some (p, raw_p) => POk {| u_scheme := map lower_byte (c :: scheme); u_host := host; u_path := p; u_rawpath := raw_p; u_force := force; u_query := query |}
                 | None => PErr
                 end
               else POther
           | _ => PErr
           end
       | _, _ => PErr
       end.
(** URL.String (multitracker.go:121). *)
Definition url_string (u : gurl) : bytes :=
  u_scheme u ++ ":"%byte ::
  (match u_host u, u_path u with [], [] => [] | _, _ => bs "//" end) ++ u_host u ++ escaped_path u ++
  (if u_force u || negb (bytes_eqb (u_query u) []) then "?"%byte :: u_query u else []).
(** url.RawQuery = q (multitracker.go:120). *)
Definition set_query (q : bytes) (u : gurl) : gurl :=
  {| u_scheme := u_scheme u; u_host := u_host u; u_path := u_path u; u_rawpath := u_rawpath u; u_force := u_force u; u_query := q |}.

(** What is sent: the scheme, the host connected to and named in the request, and the
    request target (URL.RequestURI). *)
Inductive asked := AErr | AOther | AGet (scheme host target : bytes).
Definition request_target (u : gurl) : bytes :=
  (match escaped_path u with [] => bs "/" | p => p end) ++ (if u_force u || negb (bytes_eqb (u_query u) []) then "?"%byte :: u_query u else []).
(** http.Get (multitracker.go:121): schemes other than http and https, and URLs without a
    host, are errors before anything is sent.  Redirects are not modelled. *)
Definition http_get (url : bytes) : asked :=
  match url_parse url with
  | PErr => AErr
  | POther => AOther
  | POk u => if (bytes_eqb (u_scheme u) (bs "http") || bytes_eqb (u_scheme u) (bs "https")) && negb (bytes_eqb (u_host u) [])
             then AGet (u_scheme u) (u_host u) (request_target u) else AErr
  end.
(** Tracker.get up to the exchange (multitracker.go:116-124), for a tracker with this URL. *)
Definition tracker_ask (url : bytes) (r : request) : asked :=
  match url_parse url with
  | PErr => AErr
  | POther => AOther
  | POk u => http_get (url_string (set_query (request_encode r) u))
  end.
