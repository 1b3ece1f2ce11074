(** Model of the parts of Go's net/url (standard library) used by drip: QueryEscape,
    QueryUnescape, Values, ParseQuery and the query part of Parse.  The lines cited are
    the uses in /repo. *)
From Verif Require Import GoBase BencFields.

Definition in_range (lo hi : Z) (c : byte) : bool := (lo <=? b2z c) && (b2z c <=? hi).
Definition is_letter (c : byte) : bool := in_range 65 90 c || in_range 97 122 c.
Definition is_alnum (c : byte) : bool := is_letter c || is_digit c.

(** url.shouldEscape in mode encodeQueryComponent. *)
Definition should_escape (c : byte) : bool :=
  negb (is_alnum c || existsb (beqb c) (bs "-_.~")).
Definition upper_hex (n : Z) : byte := z2b (if n <? 10 then 48 + n else 55 + n).
(** url.QueryEscape, used by Values.Encode (tracker.go:58). *)
Definition escape_byte (c : byte) : bytes :=
  if beqb c " "%byte then ["+"%byte]
  else if should_escape c then ["%"%byte; upper_hex (b2z c / 16); upper_hex (b2z c mod 16)]
  else [c].
Definition query_escape (s : bytes) : bytes := flat_map escape_byte s.

Definition unhex (c : byte) : option Z :=
  if is_digit c then Some (b2z c - 48)
  else if in_range 97 102 c then Some (b2z c - 87)
  else if in_range 65 70 c then Some (b2z c - 55)
  else None.
(** url.unescape; [plus] is true for query components ('+' is a space) and false for
    fragments.  [None] is an EscapeError. *)
Fixpoint unescape (plus : bool) (s : bytes) : option bytes :=
  match s with
  | [] => Some []
  | c :: s1 =>
      if beqb c "%"%byte then
        match s1 with
        | a :: s2 =>
            match s2 with
            | b :: s3 =>
                match unhex a, unhex b, unescape plus s3 with
                | Some x, Some y, Some r => Some (z2b (16 * x + y) :: r)
                | _, _, _ => None
                end
            | [] => None
            end
        | [] => None
        end
      else option_map (cons (if plus && beqb c "+"%byte then " "%byte else c)) (unescape plus s1)
  end.
Definition query_unescape : bytes -> option bytes := unescape true.

(** strings.Split; ParseQuery cuts the query at each '&' in the same way and skips
    empty pieces. *)
Fixpoint split_on (sep : byte) (s : bytes) : list bytes :=
  match s with
  | [] => [[]]
  | c :: s' =>
      if beqb c sep then [] :: split_on sep s'
      else match split_on sep s' with
           | seg :: segs => (c :: seg) :: segs
           | [] => [[c]]
           end
  end.

(** url.Values: a map from keys to the list of their values. *)
Definition values := list (bytes * list bytes).
(** m[key] *)
Definition values_all (k : bytes) (m : values) : list bytes :=
  match assoc k m with Some vs => vs | None => [] end.
(** Values.Get *)
Definition values_get (k : bytes) (m : values) : bytes :=
  match values_all k m with v :: _ => v | [] => [] end.
(** Values.Set *)
Definition values_set (k v : bytes) (m : values) : values := assoc_set k [v] m.
(** m[key] = append(m[key], value) *)
Definition values_add (k v : bytes) (m : values) : values := assoc_set k (values_all k m ++ [v]) m.

(** strings.Join *)
Fixpoint join (sep : byte) (l : list bytes) : bytes :=
  match l with
  | [] => []
  | [x] => x
  | x :: l' => x ++ sep :: join sep l'
  end.
Definition pair_text (k v : bytes) : bytes := query_escape k ++ "="%byte :: query_escape v.
(** Values.Encode: keys sorted, each value as key=value, joined by '&'. *)
Definition values_encode (m : values) : bytes :=
  join "&"%byte (flat_map (fun kv => map (pair_text (fst kv)) (snd kv)) (sort_by fst m)).

(** One piece of a query: [None] is an error (the piece is skipped). *)
Definition parse_piece (seg : bytes) : option (bytes * bytes) :=
  if existsb (beqb ";"%byte) seg then None
  else let '(k, v) := cut "="%byte seg in
       match query_unescape k, query_unescape v with
       | Some k', Some v' => Some (k', v')
       | _, _ => None
       end.
(** url.ParseQuery (tracker.go:62; url.Query at magnet.go:22 ignores the error): the
    values collected and whether an error occurred. *)
Definition parse_query (q : bytes) : values * bool :=
  fold_left (fun acc seg =>
               match seg with
               | [] => acc
               | _ => match parse_piece seg with
                      | Some (k, v) => (values_add k v (fst acc), snd acc)
                      | None => (fst acc, true)
                      end
               end) (split_on "&"%byte q) ([], false).

(** url.getScheme: [Some (scheme, rest)], or [None] for a missing scheme before ':'. *)
Fixpoint get_scheme (raw seen s : bytes) : option (bytes * bytes) :=
  match s with
  | [] => Some ([], raw)
  | c :: s' =>
      if is_letter c then get_scheme raw (seen ++ [c]) s'
      else if is_digit c || existsb (beqb c) (bs "+-.") then
        match seen with [] => Some ([], raw) | _ => get_scheme raw (seen ++ [c]) s' end
      else if beqb c ":"%byte then
        match seen with [] => None | _ => Some (seen, s') end
      else Some ([], raw)
  end.
Definition has_ctl (s : bytes) : bool := existsb (fun c => (b2z c <? 32) || (b2z c =? 127)) s.
Definition ends_with_only_qmark (s : bytes) : bool :=
  match rev s with
  | c :: r => beqb c "?"%byte && negb (existsb (beqb "?"%byte) r)
  | [] => false
  end.
Section Parse.
(** Whether a URL with a '/'-rooted or scheme-less remainder has an acceptable
    authority and path; not modelled (magnet links have neither). *)
Variable hier_ok : bytes -> bytes -> bool.
(** url.Parse (magnet.go:18), as far as the raw query goes; [None] is an error. *)
Definition url_parse_query (raw : bytes) : option bytes :=
  let '(u, frag) := cut "#"%byte raw in
  if has_ctl u then None
  else if bytes_eqb u (bs "*") then (match unescape false frag with Some _ => Some [] | None => None end)
  else match get_scheme u [] u with
       | None => None
       | Some (scheme, rest0) =>
           let '(rest, query) :=
             if ends_with_only_qmark rest0 then (firstn (List.length rest0 - 1) rest0, [])
             else cut "?"%byte rest0 in
           if (match rest with c :: _ => negb (beqb c "/"%byte) | [] => true end && negb (bytes_eqb scheme []))
              || hier_ok scheme rest
           then match unescape false frag with Some _ => Some query | None => None end
           else None
       end.
End Parse.
