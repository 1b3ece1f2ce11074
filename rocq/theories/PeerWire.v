(** Model of api/peer/peer.go: the handshake and message codecs, over a connection
    that delivers its byte stream in arbitrary segments. *)
From Verif Require Import GoBase.

(** io.Reader: the segments a connection still delivers, in order; each Read returns
    at most one segment, or a prefix of it when the buffer is smaller; after the last
    segment Read returns io.EOF (simplification: no other read error; a Read that
    returns data together with an error does not occur). *)
Notation conn := (list bytes).

(** The errors the codecs return: io.EOF, io.ErrUnexpectedEOF, "unsupported handshake
    protocol" (peer.go:75,82). *)
Inductive rderr := EEof | EUnexpectedEof | EProtocol.

(** io.ReadFull(r, buf) with len(buf) = n: [Ok] the bytes and the rest of the
    connection.  Model of the standard library function used at peer.go:77,349,358.
    An empty buffer reads nothing. *)
Fixpoint read_full (n : Z) (r : conn) : res rderr (bytes * conn) :=
  if n <=? 0 then Ok ([], r)
  else match r with
       | [] => Err EEof
       | s :: r' =>
           if zlen s <=? n then
             match read_full (n - zlen s) r' with
             | Ok (b, r'') => Ok (s ++ b, r'')
             | Err e => Err (match s with [] => e | _ => EUnexpectedEof end)
             | Panic => Panic
             end
           else Ok (firstn (Z.to_nat n) s, skipn (Z.to_nat n) s :: r')
       end.

(** r.Read(data[:1]) (peer.go:70): one Read call into a one-byte buffer that is zero
    before.  Returns what the buffer holds afterwards. *)
Definition read_one (r : conn) : res rderr (byte * conn) :=
  match r with
  | [] => Err EEof
  | [] :: r' => Ok (x00, r')
  | [b] :: r' => Ok (b, r')
  | (b :: s) :: r' => Ok (b, s :: r')
  end.

(** type Handshake (43-46); the two fields are 20-byte arrays. *)
Record handshake := { hs_info : bytes; hs_peer : bytes }.

(** HandshakeProtocol, HandshakeLength (38-41). *)
Definition proto : bytes := bs "BitTorrent protocol".
Definition hs_length : Z := 1 + zlen proto + 8 + 20 + 20.

(** Handshake.Encode / MarshalBinary (48-66): the bytes written. *)
Definition hs_encode (h : handshake) : bytes :=
  z2b (zlen proto) :: proto ++ repeat x00 8 ++ hs_info h ++ hs_peer h.

(** Handshake.Decode (68-88) / ReadHandshake (14-20). *)
Definition hs_decode (r : conn) : res rderr (handshake * conn) :=
  match read_one r with
  | Err e => Err e
  | Panic => Panic
  | Ok (b, r1) =>
      if negb (b2z b =? zlen proto) then Err EProtocol
      else match read_full (hs_length - 1) r1 with
           | Err e => Err e
           | Panic => Panic
           | Ok (d, r2) =>
               (* d = data[1:]; data[1 : 1+protocolLen] *)
               let p := firstn 19 d in
               if negb (bytes_eqb p proto) then Err EProtocol
               else let d' := skipn (19 + 8) d in
                    Ok ({| hs_info := firstn 20 d'; hs_peer := firstn 20 (skipn 20 d') |}, r2)
           end
  end.

(** MessageType constants (96-108). *)
Definition KEEPALIVE : Z := -1.
Definition CHOKE : Z := 0.
Definition UNCHOKE : Z := 1.
Definition INTERESTED : Z := 2.
Definition NOT_INTERESTED : Z := 3.
Definition HAVE : Z := 4.
Definition BITFIELD : Z := 5.
Definition REQUEST : Z := 6.
Definition PIECE : Z := 7.
Definition CANCEL : Z := 8.

(** type Message (131-138). *)
Record message := { m_type : Z; m_bitfield : bytes; m_index : Z; m_begin : Z; m_length : Z; m_piece : bytes }.
Definition zero_message : message :=
  {| m_type := 0; m_bitfield := []; m_index := 0; m_begin := 0; m_length := 0; m_piece := [] |}.

(** The constructors (140-209). *)
Definition mk_plain (t : Z) : message :=
  {| m_type := t; m_bitfield := []; m_index := 0; m_begin := 0; m_length := 0; m_piece := [] |}.
Definition mk_have (i : Z) : message :=
  {| m_type := HAVE; m_bitfield := []; m_index := i; m_begin := 0; m_length := 0; m_piece := [] |}.
Definition mk_bitfield (b : bytes) : message :=
  {| m_type := BITFIELD; m_bitfield := b; m_index := 0; m_begin := 0; m_length := 0; m_piece := [] |}.
Definition mk_request (i b l : Z) : message :=
  {| m_type := REQUEST; m_bitfield := []; m_index := i; m_begin := b; m_length := l; m_piece := [] |}.
Definition mk_piece (i b : Z) (p : bytes) : message :=
  {| m_type := PIECE; m_bitfield := []; m_index := i; m_begin := b; m_length := 0; m_piece := p |}.
Definition mk_cancel (i b l : Z) : message :=
  {| m_type := CANCEL; m_bitfield := []; m_index := i; m_begin := b; m_length := l; m_piece := [] |}.

(** Message.Encode / MarshalBinary (287-345): fixedData ++ variableData, written to a
    writer that accepts everything (simplification: a failing Write only makes Encode
    return that error). *)
Definition encode_msg (m : message) : bytes :=
  let t := m_type m in
  if t =? KEEPALIVE then put_u32 0
  else if (t =? CHOKE) || (t =? UNCHOKE) || (t =? INTERESTED) || (t =? NOT_INTERESTED) then put_u32 1 ++ [z2b t]
  else if t =? BITFIELD then put_u32 (1 + zlen (m_bitfield m)) ++ [z2b t] ++ m_bitfield m
  else if t =? HAVE then put_u32 (1 + 4) ++ [z2b t] ++ put_u32 (m_index m)
  else if (t =? REQUEST) || (t =? CANCEL) then
    put_u32 (1 + 12) ++ [z2b t] ++ put_u32 (m_index m) ++ put_u32 (m_begin m) ++ put_u32 (m_length m)
  else if t =? PIECE then
    put_u32 (1 + 8 + zlen (m_piece m)) ++ [z2b t] ++ put_u32 (m_index m) ++ put_u32 (m_begin m) ++ m_piece m
  else [].

(** binary.BigEndian.Uint32(payload[k:k+4]): slicing past the end panics. *)
Definition u32_at (k : nat) (payload : bytes) : option Z :=
  match skipn k payload with
  | a :: b :: c :: d :: _ => Some (get_u32 a b c d)
  | _ => None
  end.

(** The type switch of Message.Decode (361-378); [payload] is what follows the type. *)
Definition parse_msg (m : message) (t : Z) (payload : bytes) : res rderr message :=
  if (t =? CHOKE) || (t =? UNCHOKE) || (t =? INTERESTED) || (t =? NOT_INTERESTED) then
    Ok {| m_type := t; m_bitfield := m_bitfield m; m_index := m_index m; m_begin := m_begin m; m_length := m_length m; m_piece := m_piece m |}
  else if t =? BITFIELD then
    Ok {| m_type := t; m_bitfield := payload; m_index := m_index m; m_begin := m_begin m; m_length := m_length m; m_piece := m_piece m |}
  else if t =? HAVE then
    match u32_at 0 payload with
    | Some i => Ok {| m_type := t; m_bitfield := m_bitfield m; m_index := i; m_begin := m_begin m; m_length := m_length m; m_piece := m_piece m |}
    | None => Panic
    end
  else if (t =? REQUEST) || (t =? CANCEL) then
    match u32_at 0 payload, u32_at 4 payload, u32_at 8 payload with
    | Some i, Some b, Some l => Ok {| m_type := t; m_bitfield := m_bitfield m; m_index := i; m_begin := b; m_length := l; m_piece := m_piece m |}
    | _, _, _ => Panic
    end
  else if t =? PIECE then
    match u32_at 0 payload, u32_at 4 payload with
    | Some i, Some b => Ok {| m_type := t; m_bitfield := m_bitfield m; m_index := i; m_begin := b; m_length := m_length m; m_piece := skipn 8 payload |}
    | _, _ => Panic
    end
  else Ok {| m_type := t; m_bitfield := m_bitfield m; m_index := m_index m; m_begin := m_begin m; m_length := m_length m; m_piece := m_piece m |}.

(** Message.Decode into [m] (347-379). *)
Definition decode_msg (m : message) (r : conn) : res rderr (message * conn) :=
  match read_full 4 r with
  | Err e => Err e
  | Panic => Panic
  | Ok ([a; b; c; d], r1) =>
      let length := get_u32 a b c d in
      if length =? 0 then
        Ok ({| m_type := KEEPALIVE; m_bitfield := m_bitfield m; m_index := m_index m; m_begin := m_begin m; m_length := m_length m; m_piece := m_piece m |}, r1)
      else match read_full length r1 with
           | Err e => Err e
           | Panic => Panic
           | Ok (t :: payload, r2) =>
               match parse_msg m (b2z t) payload with
               | Ok m' => Ok (m', r2)
               | Err e => Err e
               | Panic => Panic
               end
           | Ok ([], _) => Panic (* payload[0] of an empty slice; not reached *)
           end
  | Ok (_, _) => Panic (* not reached: four bytes were asked for *)
  end.

(** ReadMessage (22-28). *)
Definition read_message (r : conn) : res rderr (message * conn) := decode_msg zero_message r.

(** A loop of ReadMessage calls, as in p2p/server.go's peer loop, until the first call
    that does not return a message; [fuel] bounds the number of calls. *)
Fixpoint read_messages (fuel : nat) (r : conn) : list message * res rderr unit :=
  match fuel with
  | O => ([], Ok tt)
  | S n =>
      match read_message r with
      | Ok (m, r') => let (l, e) := read_messages n r' in (m :: l, e)
      | Err e => ([], Err e)
      | Panic => ([], Panic)
      end
  end.
