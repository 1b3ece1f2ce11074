(** Model of api/tracker/tracker.go. *)
From Verif Require Import GoBase Strconv BencTypes BencFields BencEncode BencDecode Metainfo Url NetIP.

(** type Request (tracker.go:14-25); the two hashes are 20 bytes. *)
Record request := {
  r_info_hash : bytes; r_peer_id : bytes; r_ip : bytes; r_port : Z;
  r_uploaded : Z; r_downloaded : Z; r_left : Z; r_event : bytes; r_compact : bool }.
Definition new_request : request := {|
  r_info_hash := repeat x00 20; r_peer_id := repeat x00 20; r_ip := []; r_port := 0;
  r_uploaded := 0; r_downloaded := 0; r_left := 0; r_event := []; r_compact := false |}.

(** The map literal of Request.Encode (tracker.go:36-53); Go visits it in any order,
    which does not matter because Values.Encode sorts. *)
Definition request_params (r : request) : list (bytes * bytes) :=
  [(bs "info_hash", r_info_hash r); (bs "peer_id", r_peer_id r); (bs "ip", r_ip r);
   (bs "port", format_Z (r_port r)); (bs "uploaded", format_Z (r_uploaded r));
   (bs "downloaded", format_Z (r_downloaded r)); (bs "left", format_Z (r_left r));
   (bs "event", r_event r); (bs "compact", if r_compact r then bs "1" else bs "0");
   (bs "no_peer_id", []); (bs "numwant", []); (bs "key", []); (bs "trackerid", [])].
(** Request.Encode (tracker.go:34-59). *)
Definition request_encode (r : request) : bytes :=
  values_encode (fold_left (fun m kv => match snd kv with [] => m | v => values_set (fst kv) v m end) (request_params r) []).

(** copy(dest[:], v) on a 20-byte array (tracker.go:87). *)
Definition copy20 (dest v : bytes) : bytes := firstn 20 v ++ skipn (List.length v) dest.
(** One iteration of the loop of Request.Decode (tracker.go:80-103); [None] is the
    error of ParseInt, returned with the request as filled so far (not modelled). *)
Definition set_field (k v : bytes) (r : request) : option request :=
  let upd_int (f : Z -> request) := match parse_int v with Some i => Some (f i) | None => None end in
  match v with
  | [] => Some r
  | _ =>
    if bytes_eqb k (bs "info_hash") then Some {| r_info_hash := copy20 (r_info_hash r) v; r_peer_id := r_peer_id r; r_ip := r_ip r; r_port := r_port r; r_uploaded := r_uploaded r; r_downloaded := r_downloaded r; r_left := r_left r; r_event := r_event r; r_compact := r_compact r |}
    else if bytes_eqb k (bs "peer_id") then Some {| r_info_hash := r_info_hash r; r_peer_id := copy20 (r_peer_id r) v; r_ip := r_ip r; r_port := r_port r; r_uploaded := r_uploaded r; r_downloaded := r_downloaded r; r_left := r_left r; r_event := r_event r; r_compact := r_compact r |}
    else if bytes_eqb k (bs "ip") then Some {| r_info_hash := r_info_hash r; r_peer_id := r_peer_id r; r_ip := v; r_port := r_port r; r_uploaded := r_uploaded r; r_downloaded := r_downloaded r; r_left := r_left r; r_event := r_event r; r_compact := r_compact r |}
    else if bytes_eqb k (bs "port") then upd_int (fun i => {| r_info_hash := r_info_hash r; r_peer_id := r_peer_id r; r_ip := r_ip r; r_port := i; r_uploaded := r_uploaded r; r_downloaded := r_downloaded r; r_left := r_left r; r_event := r_event r; r_compact := r_compact r |})
    else if bytes_eqb k (bs "uploaded") then upd_int (fun i => {| r_info_hash := r_info_hash r; r_peer_id := r_peer_id r; r_ip := r_ip r; r_port := r_port r; r_uploaded := i; r_downloaded := r_downloaded r; r_left := r_left r; r_event := r_event r; r_compact := r_compact r |})
    else if bytes_eqb k (bs "downloaded") then upd_int (fun i => {| r_info_hash := r_info_hash r; r_peer_id := r_peer_id r; r_ip := r_ip r; r_port := r_port r; r_uploaded := r_uploaded r; r_downloaded := i; r_left := r_left r; r_event := r_event r; r_compact := r_compact r |})
    else if bytes_eqb k (bs "left") then upd_int (fun i => {| r_info_hash := r_info_hash r; r_peer_id := r_peer_id r; r_ip := r_ip r; r_port := r_port r; r_uploaded := r_uploaded r; r_downloaded := r_downloaded r; r_left := i; r_event := r_event r; r_compact := r_compact r |})
    else if bytes_eqb k (bs "event") then Some {| r_info_hash := r_info_hash r; r_peer_id := r_peer_id r; r_ip := r_ip r; r_port := r_port r; r_uploaded := r_uploaded r; r_downloaded := r_downloaded r; r_left := r_left r; r_event := v; r_compact := r_compact r |}
    else Some {| r_info_hash := r_info_hash r; r_peer_id := r_peer_id r; r_ip := r_ip r; r_port := r_port r; r_uploaded := r_uploaded r; r_downloaded := r_downloaded r; r_left := r_left r; r_event := r_event r; r_compact := bytes_eqb v (bs "1") |}
  end.
Definition request_keys : list bytes :=
  [bs "info_hash"; bs "peer_id"; bs "ip"; bs "port"; bs "uploaded"; bs "downloaded"; bs "left"; bs "event"; bs "compact"].
(** Request.Decode (tracker.go:61-105). *)
Definition request_decode (r : request) (raw : bytes) : option request :=
  let '(params, bad) := parse_query raw in
  if bad then None
  else fold_left (fun acc k => match acc with Some r' => set_field k (values_get k params) r' | None => None end)
         request_keys (Some r).

(** type Peer (tracker.go:203-207) and type Peers (120-123). *)
Record peer := { p_id : bytes; p_ip : bytes; p_port : Z }.
Record peers := { ps_compact : bool; ps_list : list peer }.
Definition peer_ty : gty := TStruct (bs "Peer")
  [(mf (bs "ID") (bs "peer id"), TStr); (mf (bs "IP") (bs "ip"), TStr); (mf (bs "Port") (bs "port"), TInt WInt)].
Definition peers_id : nat := 5.
Definition peers_ty : gty := TNamed peers_id {| m_marsh := Some RPtr; m_unmarsh := Some RPtr |}
  (TStruct (bs "Peers") [(mf (bs "Compact") [], TBool); (mf (bs "List") [], TSlice (TPtr peer_ty))]).
Definition peer_val (p : peer) : gval := VStruct [VStr (p_id p); VStr (p_ip p); VInt (p_port p)].
Definition peer_list_val (l : list peer) : gval := slice_val (map (fun p => VPtr (peer_val p)) l).
Definition peers_val (p : peers) : gval := VStruct [VBool (ps_compact p); peer_list_val (ps_list p)].

(** compactPeers (tracker.go:136-152); [None] is the not-an-IPv4 error. *)
Definition compact_peer (p : peer) : option bytes :=
  match parse_ip (p_ip p) with
  | Some ip => match to4 ip with
               | Some q => Some (q ++ put_u16 (p_port p))
               | None => None
               end
  | None => None
  end.
Fixpoint compact_peers (l : list peer) : option bytes :=
  match l with
  | [] => Some []
  | p :: l' => match compact_peer p, compact_peers l' with
               | Some a, Some b => Some (a ++ b)
               | _, _ => None
               end
  end.
(** The loop of parseCompactPeers (tracker.go:176-184). *)
Fixpoint six_by_six (s : bytes) : list peer :=
  match s with
  | a :: b :: c :: d :: e :: f :: s' =>
      {| p_id := []; p_ip := show_ip (ipv4 [a; b; c; d]); p_port := get_u16 e f |} :: six_by_six s'
  | _ => []
  end.
(** parseCompactPeers (tracker.go:172-187). *)
Definition parse_compact_peers (s : bytes) : option (list peer) :=
  if negb (zlen s mod 6 =? 0) then None else Some (six_by_six s).

(** m[key].(string) and m[key].(int) (tracker.go:194-196): [None] is a panic. *)
Definition map_get (k : bytes) (m : list (bytes * gval)) : gval :=
  match assoc k m with Some v => v | None => VNil end.
Definition as_string (v : gval) : option bytes :=
  match v with VIface TStr (VStr s) => Some s | _ => None end.
Definition as_int (v : gval) : option Z :=
  match v with VIface (TInt WInt) (VInt z) => Some z | _ => None end.
(** One iteration of parsePeers (tracker.go:191-199). *)
Definition parse_peer (v : gval) : option peer :=
  match v with
  | VIface (TMap TStr TAny) (VMap m) =>
      match as_string (map_get (bs "peer id") m), as_string (map_get (bs "ip") m), as_int (map_get (bs "port") m) with
      | Some i, Some a, Some p => Some {| p_id := i; p_ip := a; p_port := p |}
      | _, _, _ => None
      end
  | _ => None
  end.
(** parsePeers (tracker.go:189-201); [None] is a panic. *)
Fixpoint parse_peers (l : list gval) : option (list peer) :=
  match l with
  | [] => Some []
  | v :: l' => match parse_peer v with
               | Some p => option_map (cons p) (parse_peers l')
               | None => None
               end
  end.

(** Reading a Peers value back out of the embedding. *)
Definition peer_of_val (v : gval) : option peer :=
  match v with
  | VPtr (VStruct [VStr i; VStr a; VInt p]) => Some {| p_id := i; p_ip := a; p_port := p |}
  | _ => None
  end.
Fixpoint peers_of_vals (l : list gval) : option (list peer) :=
  match l with
  | [] => Some []
  | v :: l' => match peer_of_val v, peers_of_vals l' with Some p, Some r => Some (p :: r) | _, _ => None end
  end.
Definition peers_of_val (v : gval) : option peers :=
  match v with
  | VStruct [VBool c; VNil] => Some {| ps_compact := c; ps_list := [] |}
  | VStruct [VBool c; VSlice l] => option_map (fun ps => {| ps_compact := c; ps_list := ps |}) (peers_of_vals l)
  | _ => None
  end.
(** Peers.MarshalBencoding (tracker.go:125-134); a list with nil pointers (a panic)
    is not represented. *)
Definition peers_marshal (recv : option gval) : res unit bytes :=
  match recv with
  | Some v =>
      match peers_of_val v with
      | Some p =>
          if ps_compact p then
            match compact_peers (ps_list p) with
            | Some c => of_marshal (marshal plain_customs (Some (TSlice (TUint W8), VBytes c)))
            | None => Err tt
            end
          else of_marshal (marshal plain_customs (Some (TSlice (TPtr peer_ty), peer_list_val (ps_list p))))
      | None => Panic
      end
  | None => Panic
  end.
Definition set_list (old : gval) (c : bool) (l : list peer) : gval :=
  match old with
  | VStruct [VBool c0; _] => VStruct [VBool (c || c0); peer_list_val l]
  | _ => old
  end.
(** Peers.UnmarshalBencoding (tracker.go:154-170). *)
Definition peers_unmarshal (recv : option gval) (data : bytes) : ures :=
  match recv with
  | Some old =>
      match unmarshal plain_customs TAny VNil data with
      | DOk (VPtr v) _ _ =>
          match v with
          | VIface TStr (VStr s) =>
              match parse_compact_peers s with
              | Some l => UOk (set_list old true l)
              | None => UErr (set_list old true [])
              end
          | VIface (TSlice TAny) (VSlice l) =>
              match parse_peers l with
              | Some ps => UOk (set_list old false ps)
              | None => UPanic
              end
          | _ => UErr old
          end
      | DErr _ _ => UErr old
      | _ => UPanic
      end
  | None => UPanic
  end.
(** No type involved has other methods: the last cases are never consulted. *)
Definition tracker_customs : customs := {|
  c_marsh id r := if Nat.eqb id peers_id then peers_marshal r else Panic;
  c_unmarsh id r b := if Nat.eqb id peers_id then peers_unmarshal r b else UErr (match r with Some v => v | None => VNil end) |}.

(** type Response (tracker.go:107-118). *)
Definition response_ty : gty := TStruct (bs "Response")
  [(mf (bs "FailureReason") (bs "failure reason,omitempty"), TStr);
   (mf (bs "Interval") (bs "interval"), TInt WInt);
   (mf (bs "Peers") (bs "peers"), TPtr peers_ty);
   (mf (bs "WarningReason") (bs "warning reason,omitempty"), TStr);
   (mf (bs "MinInterval") (bs "min interval,omitempty"), TInt WInt);
   (mf (bs "TrackerID") (bs "tracker id,omitempty"), TStr);
   (mf (bs "Complete") (bs "complete,omitempty"), TInt WInt);
   (mf (bs "Incomplete") (bs "incomplete,omitempty"), TInt WInt)].
Record response := {
  rs_failure : bytes; rs_interval : Z; rs_peers : option peers; rs_warning : bytes;
  rs_min_interval : Z; rs_tracker_id : bytes; rs_complete : Z; rs_incomplete : Z }.
Definition response_val (r : response) : gval := VStruct
  [VStr (rs_failure r); VInt (rs_interval r);
   match rs_peers r with Some p => VPtr (peers_val p) | None => VNil end;
   VStr (rs_warning r); VInt (rs_min_interval r); VStr (rs_tracker_id r); VInt (rs_complete r); VInt (rs_incomplete r)].
(** bencode.Marshal(&response) and bencode.Unmarshal(data, &response). *)
Definition marshal_response (r : response) : eres :=
  marshal tracker_customs (Some (TPtr response_ty, VPtr (response_val r))).
Definition unmarshal_response (data : bytes) : dres :=
  unmarshal tracker_customs response_ty (zero response_ty) data.
