(** Model of p2p/server.go and of the part of p2p/peer.go that calls it: the registry of
    peers, the connection handlers, the download loop, Block, Disconnect and Stop, as a
    transition system over goroutines.

    A step is what one goroutine does between two points where another goroutine's
    action could make a difference.  Server.mu is modelled ([s_mu]: the goroutine that
    holds it); a critical section without blocking calls is one step, because everything
    it touches is only touched under Server.mu.  The exceptions are kept apart: the
    deletion from inflight (server.go:402), a peer's Bitfield and flags, and the bitfield of
    the storage.  Peer.mu, the block requests and what is written where on a connection
    are in P2PConn.v; here a send only succeeds or fails.  Storage is in Storage.v; here
    its bitfield grows as pieces are put.  Contexts: ctx of Start is [s_cancelled], that
    of a peer is [s_cancelled] or [q_closed].  Not modelled: logging, the counters, time
    (a timer may fire at any moment, a deadline is a failing read or write). *)
From Verif Require Import GoBase Bitfield GoMap PeerWire NetIP Tracker P2PPeer.

(** type Peer (peer.go:20-36) as far as the server uses it. *)
Record remote := {
  q_id : bytes;
  q_ip : bytes;
  q_port : Z;
  q_bits : bytes;
  q_rchoked : bool;
  q_rinterested : bool;
  q_closed : bool;
  q_choked : bool;
  q_interested : bool }.
Definition set_id (x : bytes) (q : remote) : remote :=
  {| q_id := x; q_ip := q_ip q; q_port := q_port q; q_bits := q_bits q; q_rchoked := q_rchoked q; q_rinterested := q_rinterested q; q_closed := q_closed q; q_choked := q_choked q; q_interested := q_interested q |}.
Definition set_bits (x : bytes) (q : remote) : remote :=
  {| q_id := q_id q; q_ip := q_ip q; q_port := q_port q; q_bits := x; q_rchoked := q_rchoked q; q_rinterested := q_rinterested q; q_closed := q_closed q; q_choked := q_choked q; q_interested := q_interested q |}.
Definition set_rchoked (x : bool) (q : remote) : remote :=
  {| q_id := q_id q; q_ip := q_ip q; q_port := q_port q; q_bits := q_bits q; q_rchoked := x; q_rinterested := q_rinterested q; q_closed := q_closed q; q_choked := q_choked q; q_interested := q_interested q |}.
Definition set_rinterested (x : bool) (q : remote) : remote :=
  {| q_id := q_id q; q_ip := q_ip q; q_port := q_port q; q_bits := q_bits q; q_rchoked := q_rchoked q; q_rinterested := x; q_closed := q_closed q; q_choked := q_choked q; q_interested := q_interested q |}.
Definition set_closed (x : bool) (q : remote) : remote :=
  {| q_id := q_id q; q_ip := q_ip q; q_port := q_port q; q_bits := q_bits q; q_rchoked := q_rchoked q; q_rinterested := q_rinterested q; q_closed := x; q_choked := q_choked q; q_interested := q_interested q |}.
Definition set_choked (x : bool) (q : remote) : remote :=
  {| q_id := q_id q; q_ip := q_ip q; q_port := q_port q; q_bits := q_bits q; q_rchoked := q_rchoked q; q_rinterested := q_rinterested q; q_closed := q_closed q; q_choked := x; q_interested := q_interested q |}.
Definition set_interested (x : bool) (q : remote) : remote :=
  {| q_id := q_id q; q_ip := q_ip q; q_port := q_port q; q_bits := q_bits q; q_rchoked := q_rchoked q; q_rinterested := q_rinterested q; q_closed := q_closed q; q_choked := q_choked q; q_interested := x |}.

(** The maps of type Server (server.go:41-48): knownPeers (its keys), knownAddrs,
    knownIDIPs, blockedPeers, activePeers, indexToPeers, queuedPeers, inflight.  A peer
    object is a number, its position in [s_peers]. *)
Record registry := {
  g_known : list bytes;
  g_addrs : list (bytes * list bytes);
  g_idips : list (bytes * bytes);
  g_blocked : list bytes;
  g_active : list (bytes * nat);
  g_holders : list (Z * list nat);
  g_queued : list nat;
  g_inflight : list (Z * nat) }.
Definition set_known (x : list bytes) (g : registry) : registry :=
  {| g_known := x; g_addrs := g_addrs g; g_idips := g_idips g; g_blocked := g_blocked g; g_active := g_active g; g_holders := g_holders g; g_queued := g_queued g; g_inflight := g_inflight g |}.
Definition set_addrs (x : list (bytes * list bytes)) (g : registry) : registry :=
  {| g_known := g_known g; g_addrs := x; g_idips := g_idips g; g_blocked := g_blocked g; g_active := g_active g; g_holders := g_holders g; g_queued := g_queued g; g_inflight := g_inflight g |}.
Definition set_idips (x : list (bytes * bytes)) (g : registry) : registry :=
  {| g_known := g_known g; g_addrs := g_addrs g; g_idips := x; g_blocked := g_blocked g; g_active := g_active g; g_holders := g_holders g; g_queued := g_queued g; g_inflight := g_inflight g |}.
Definition set_blocked (x : list bytes) (g : registry) : registry :=
  {| g_known := g_known g; g_addrs := g_addrs g; g_idips := g_idips g; g_blocked := x; g_active := g_active g; g_holders := g_holders g; g_queued := g_queued g; g_inflight := g_inflight g |}.
Definition set_active (x : list (bytes * nat)) (g : registry) : registry :=
  {| g_known := g_known g; g_addrs := g_addrs g; g_idips := g_idips g; g_blocked := g_blocked g; g_active := x; g_holders := g_holders g; g_queued := g_queued g; g_inflight := g_inflight g |}.
Definition set_holders (x : list (Z * list nat)) (g : registry) : registry :=
  {| g_known := g_known g; g_addrs := g_addrs g; g_idips := g_idips g; g_blocked := g_blocked g; g_active := g_active g; g_holders := x; g_queued := g_queued g; g_inflight := g_inflight g |}.
Definition set_queued (x : list nat) (g : registry) : registry :=
  {| g_known := g_known g; g_addrs := g_addrs g; g_idips := g_idips g; g_blocked := g_blocked g; g_active := g_active g; g_holders := g_holders g; g_queued := x; g_inflight := g_inflight g |}.
Definition set_inflight (x : list (Z * nat)) (g : registry) : registry :=
  {| g_known := g_known g; g_addrs := g_addrs g; g_idips := g_idips g; g_blocked := g_blocked g; g_active := g_active g; g_holders := g_holders g; g_queued := g_queued g; g_inflight := x |}.

(** Where a connection handler is: the goroutine of Serve (158-166) or of DialPeers
    (182-187) in peer.serve (peer.go:165-193). *)
Inductive hpc :=
| HConnect                      (* server.go:271 *)
| HHandshake                    (* 282 *)
| HRegister                     (* 285 *)
| HBitfield                     (* 302; holds mu *)
| HLoop                         (* peer.go:178 *)
| HReceive                      (* 183 *)
| HHave (i : Z) (rest : list Z)   (* 226 for i, then for each of rest (210-214) *)
| HRecord (i : Z) (rest : list Z) (* 227 *)
| HCheck (i : Z) (rest : list Z)  (* 228 *)
| HQueue (k : option (list Z))  (* 202 (None) or 229 (Some rest): QueuePeer, server.go:244 *)
| HToken (k : option (list Z))  (* server.go:453; holds mu *)
| HInterest (rest : list Z)     (* peer.go:230, 152 *)
| HInterested (rest : list Z)   (* 153 *)
| HRequest                      (* 216 *)
| HPiece (i : Z)                (* 220 *)
| HDisconnect                   (* 173, server.go:309 *)
| HRelease.                     (* server.go:159 or 183 *)
(** Where requestPieceFromPeer (376-424) is. *)
Inductive rpc :=
| RLock                         (* 377 *)
| RRead                         (* 383; holds mu *)
| RNotInterest                  (* 388, peer.go:159; holds mu *)
| RNotInterested                (* peer.go:160; holds mu *)
| RPick (l : list Z).           (* 396 with these pieces left; holds mu *)
(** Where the goroutine of 401-412 is. *)
Inductive ppc :=
| PRun                          (* 427 *)
| PShare                        (* 430 *)
| PHave (l : list nat)          (* 433, 434 with these peers left *)
| PSend (x : nat) (l : list nat)  (* 437 for x, then these *)
| PBlock                        (* 406, 316 *)
| PToken                        (* 411 *)
| PDelete.                      (* 402 *)
Inductive thread :=
| TDial (tp : Tracker.peer) (dialing : bool)  (* dialPeer: 360 (false) or 366 (true) *)
| TDialEnd                                    (* ... failed: 183 *)
| THandler (p : nat) (h : hpc)
| TRequester (p : nat) (r : rpc)
| TPiece (p : nat) (i : Z) (q : ppc)
| TWaiter (p : nat) (fired : bool)            (* 416 (false) or 420 (true) *)
| TUnchoke (p : nat) (swapped : bool)         (* peer.go:145 (false) or 146 (true) *)
| TStop (locked : bool)                       (* server.go:125 (false) or 132-137 (true, holds mu) *)
| TDone.

(** The state of the server.  [s_slots]: length of peerSemaphore; [s_queue]: newPeerQueue;
    [s_have]: Storage.Torrent.Bitfield; [s_serving], [s_dialing], [s_requesting]: Serve,
    DialPeers, RequestPieces have not returned; [s_taken]: what DialPeers took from the
    queue and waits to dial (176-180). *)
Record sys := {
  s_peers : list remote;
  s_threads : list thread;
  s_mu : option nat;
  s_slots : Z;
  s_queue : list Tracker.peer;
  s_reg : registry;
  s_have : bytes;
  s_serving : bool;
  s_dialing : bool;
  s_taken : option Tracker.peer;
  s_requesting : bool;
  s_cancelled : bool;
  s_crashed : bool }.
Definition set_peers (x : list remote) (s : sys) : sys :=
  {| s_peers := x; s_threads := s_threads s; s_mu := s_mu s; s_slots := s_slots s; s_queue := s_queue s; s_reg := s_reg s; s_have := s_have s; s_serving := s_serving s; s_dialing := s_dialing s; s_taken := s_taken s; s_requesting := s_requesting s; s_cancelled := s_cancelled s; s_crashed := s_crashed s |}.
Definition set_threads (x : list thread) (s : sys) : sys :=
  {| s_peers := s_peers s; s_threads := x; s_mu := s_mu s; s_slots := s_slots s; s_queue := s_queue s; s_reg := s_reg s; s_have := s_have s; s_serving := s_serving s; s_dialing := s_dialing s; s_taken := s_taken s; s_requesting := s_requesting s; s_cancelled := s_cancelled s; s_crashed := s_crashed s |}.
Definition set_mu (x : option nat) (s : sys) : sys :=
  {| s_peers := s_peers s; s_threads := s_threads s; s_mu := x; s_slots := s_slots s; s_queue := s_queue s; s_reg := s_reg s; s_have := s_have s; s_serving := s_serving s; s_dialing := s_dialing s; s_taken := s_taken s; s_requesting := s_requesting s; s_cancelled := s_cancelled s; s_crashed := s_crashed s |}.
Definition set_slots (x : Z) (s : sys) : sys :=
  {| s_peers := s_peers s; s_threads := s_threads s; s_mu := s_mu s; s_slots := x; s_queue := s_queue s; s_reg := s_reg s; s_have := s_have s; s_serving := s_serving s; s_dialing := s_dialing s; s_taken := s_taken s; s_requesting := s_requesting s; s_cancelled := s_cancelled s; s_crashed := s_crashed s |}.
Definition set_queue (x : list Tracker.peer) (s : sys) : sys :=
  {| s_peers := s_peers s; s_threads := s_threads s; s_mu := s_mu s; s_slots := s_slots s; s_queue := x; s_reg := s_reg s; s_have := s_have s; s_serving := s_serving s; s_dialing := s_dialing s; s_taken := s_taken s; s_requesting := s_requesting s; s_cancelled := s_cancelled s; s_crashed := s_crashed s |}.
Definition set_reg (x : registry) (s : sys) : sys :=
  {| s_peers := s_peers s; s_threads := s_threads s; s_mu := s_mu s; s_slots := s_slots s; s_queue := s_queue s; s_reg := x; s_have := s_have s; s_serving := s_serving s; s_dialing := s_dialing s; s_taken := s_taken s; s_requesting := s_requesting s; s_cancelled := s_cancelled s; s_crashed := s_crashed s |}.
Definition set_have (x : bytes) (s : sys) : sys :=
  {| s_peers := s_peers s; s_threads := s_threads s; s_mu := s_mu s; s_slots := s_slots s; s_queue := s_queue s; s_reg := s_reg s; s_have := x; s_serving := s_serving s; s_dialing := s_dialing s; s_taken := s_taken s; s_requesting := s_requesting s; s_cancelled := s_cancelled s; s_crashed := s_crashed s |}.
Definition set_serving (x : bool) (s : sys) : sys :=
  {| s_peers := s_peers s; s_threads := s_threads s; s_mu := s_mu s; s_slots := s_slots s; s_queue := s_queue s; s_reg := s_reg s; s_have := s_have s; s_serving := x; s_dialing := s_dialing s; s_taken := s_taken s; s_requesting := s_requesting s; s_cancelled := s_cancelled s; s_crashed := s_crashed s |}.
Definition set_dialing (x : bool) (s : sys) : sys :=
  {| s_peers := s_peers s; s_threads := s_threads s; s_mu := s_mu s; s_slots := s_slots s; s_queue := s_queue s; s_reg := s_reg s; s_have := s_have s; s_serving := s_serving s; s_dialing := x; s_taken := s_taken s; s_requesting := s_requesting s; s_cancelled := s_cancelled s; s_crashed := s_crashed s |}.
Definition set_taken (x : option Tracker.peer) (s : sys) : sys :=
  {| s_peers := s_peers s; s_threads := s_threads s; s_mu := s_mu s; s_slots := s_slots s; s_queue := s_queue s; s_reg := s_reg s; s_have := s_have s; s_serving := s_serving s; s_dialing := s_dialing s; s_taken := x; s_requesting := s_requesting s; s_cancelled := s_cancelled s; s_crashed := s_crashed s |}.
Definition set_requesting (x : bool) (s : sys) : sys :=
  {| s_peers := s_peers s; s_threads := s_threads s; s_mu := s_mu s; s_slots := s_slots s; s_queue := s_queue s; s_reg := s_reg s; s_have := s_have s; s_serving := s_serving s; s_dialing := s_dialing s; s_taken := s_taken s; s_requesting := x; s_cancelled := s_cancelled s; s_crashed := s_crashed s |}.
Definition set_cancelled (x : bool) (s : sys) : sys :=
  {| s_peers := s_peers s; s_threads := s_threads s; s_mu := s_mu s; s_slots := s_slots s; s_queue := s_queue s; s_reg := s_reg s; s_have := s_have s; s_serving := s_serving s; s_dialing := s_dialing s; s_taken := s_taken s; s_requesting := s_requesting s; s_cancelled := x; s_crashed := s_crashed s |}.
Definition set_crashed (x : bool) (s : sys) : sys :=
  {| s_peers := s_peers s; s_threads := s_threads s; s_mu := s_mu s; s_slots := s_slots s; s_queue := s_queue s; s_reg := s_reg s; s_have := s_have s; s_serving := s_serving s; s_dialing := s_dialing s; s_taken := s_taken s; s_requesting := s_requesting s; s_cancelled := s_cancelled s; s_crashed := x |}.

(** What the environment decides in a step. *)
Inductive choice :=
| COk | CErr                    (* a call out of the model succeeds, or fails *)
| CPanic                        (* ... or panics *)
| CBad                          (* ... or fails with a ChecksumError *)
| CStored (ok : bool)           (* PutBlock made the piece complete, and returned nil or not *)
| CHand (written : bool) (r : conn)
| CMsg (m : message)
| CSort (rnd : list bool) (l : list Z)
| COrder (l : list nat).
(** What can be seen from outside. *)
Inductive event :=
| EvHandler | EvHandlerEnd      (* a connection handler starts, ends *)
| EvQueued (a : bytes)          (* an address is queued for dialling *)
| EvDial (a : bytes)            (* ... is dialled *)
| EvConnected (p : nat) (id ip : bytes)   (* Connect returned nil *)
| EvRefused (p : nat)           (* Connect returned an error *)
| EvDisconnected (p : nat)      (* Disconnect returned *)
| EvBlocked (p : nat)           (* Block returned *)
| EvRequest (p : nat) (i : Z)   (* requestPiece(p, i) is called *)
| EvRequested (p : nat) (i : Z) (* ... has returned *)
| EvReceived (p : nat) (m : message)  (* a message was received *)
| EvMalformed (p : nat)         (* a frame too short for its type was received *)
| EvSent (p : nat) (m : message)      (* ... was sent *)
| EvLooked (p : nat)            (* the pieces to request from p are being looked up *)
| EvStored (i : Z).             (* the storage has a new piece *)

Definition name_of (q : remote) : bytes := idip_of (q_id q) (q_ip q).
Definition place_of (q : remote) : bytes := addr_of (q_ip q) (q_port q).
(** m[k][p] = struct{}{} making the inner map if needed, and its deletion (325-334, 459). *)
Definition holders_of (g : registry) (i : Z) : list nat := match mget Z.eqb i (g_holders g) with Some l => l | None => [] end.
Definition record_index (i : Z) (p : nat) (g : registry) : registry :=
  set_holders (mput Z.eqb i (sadd Nat.eqb p (holders_of g i)) (g_holders g)) g.
Definition forget_index (p : nat) (i : Z) (g : registry) : registry :=
  match mget Z.eqb i (g_holders g) with
  | Some l => set_holders (mput Z.eqb i (sdel Nat.eqb p l) (g_holders g)) g
  | None => g
  end.
Definition addrs_of (g : registry) (x : bytes) : list bytes := match mget bytes_eqb x (g_addrs g) with Some l => l | None => [] end.
(** disconnect (457-469) without the Close. *)
Definition disconnect (p : nat) (q : remote) (g : registry) : registry :=
  let g1 := fold_left (fun g i => forget_index p i g) (bf_items (q_bits q)) g in
  let x := name_of q in
  let gone := addrs_of g1 x in
  let g2 := set_idips (filter (fun e => negb (smem bytes_eqb (fst e) gone && bytes_eqb (snd e) x)) (g_idips g1)) g1 in
  set_active (mdel bytes_eqb x (g_active g2)) (set_addrs (mdel bytes_eqb x (g_addrs g2)) g2).
(** 319-321 *)
Definition block_addrs (q : remote) (g : registry) : registry :=
  set_blocked (fold_left (fun s a => sadd bytes_eqb a s) (addrs_of g (name_of q)) (g_blocked g)) g.
(** 290-296 *)
Definition remember (q : remote) (g : registry) : registry :=
  set_idips (mput bytes_eqb (place_of q) (name_of q) (g_idips g))
    (set_addrs (mput bytes_eqb (name_of q) (sadd bytes_eqb (place_of q) (addrs_of g (name_of q))) (g_addrs g)) g).

(** sort.Slice(pieces, less) (390-395) where less(i, j) gets two positions and looks up the
    number of holders of the pieces with those numbers: [cnt].  When they are equal the
    answer is random: the next of [rnd].  Up to 12 elements sort.Slice is an insertion
    sort; beyond that the model allows any order ([big]). *)
Definition less (cnt : Z -> Z) (rnd : list bool) (i j : nat) : bool * list bool :=
  let a := cnt (Z.of_nat i) in let b := cnt (Z.of_nat j) in
  if a =? b then (hd false rnd, tl rnd) else (a <? b, rnd).
Definition swap_at (j : nat) (l : list Z) : list Z :=  (* swap(j, j-1) *)
  list_set j (nth (j - 1) l 0) (list_set (j - 1) (nth j l 0) l).
Fixpoint sift (cnt : Z -> Z) (j : nat) (l : list Z) (rnd : list bool) : list Z * list bool :=
  match j with
  | O => (l, rnd)
  | S j' => let '(b, rnd') := less cnt rnd j j' in
            if b then sift cnt j' (swap_at j l) rnd' else (l, rnd')
  end.
Definition insertion_sort (cnt : Z -> Z) (l : list Z) (rnd : list bool) : list Z :=
  fst (fold_left (fun s i => sift cnt i (fst s) (snd s)) (seq 1 (List.length l - 1)) (l, rnd)).
Fixpoint remove_one (x : Z) (l : list Z) : option (list Z) :=
  match l with
  | [] => None
  | y :: l' => if x =? y then Some l' else option_map (cons y) (remove_one x l')
  end.
Fixpoint reorders (l l' : list Z) : bool :=
  match l with
  | [] => match l' with [] => true | _ => false end
  | x :: l1 => match remove_one x l' with Some l2 => reorders l1 l2 | None => false end
  end.
Definition sort_slice (cnt : Z -> Z) (l : list Z) (rnd : list bool) (big : list Z) : option (list Z) :=
  if (List.length l <=? 12)%nat then Some (insertion_sort cnt l rnd)
  else if reorders l big then Some big else None.
(** Another order of the same peers (the range over a map, 433). *)
Definition same_peers (l l' : list nat) : bool := reorders (map Z.of_nat l) (map Z.of_nat l').

Section Server.
Variable own_hash own_id : bytes.       (* Info.SHA1, PeerID *)
Variable blank : bytes.                 (* bitfield.New(len(Info.Pieces)) *)

(** newPeer (471-482) with an id (351). *)
Definition new_peer (id ip : bytes) (port : Z) : remote :=
  {| q_id := id; q_ip := ip; q_port := port; q_bits := blank; q_rchoked := true; q_rinterested := false;
     q_closed := false; q_choked := true; q_interested := false |}.

Definition goto (t : nat) (th : thread) (s : sys) : sys := set_threads (list_set t th (s_threads s)) s.
Definition spawn (th : thread) (s : sys) : sys := set_threads (s_threads s ++ [th]) s.
Definition peer_is (p : nat) (q : remote) (s : sys) : sys := set_peers (list_set p q (s_peers s)) s.
Definition crash (s : sys) : option (sys * list event) := Some (set_crashed true s, []).
(** disconnect with peer.Close (peer.go:48-57): Closed, the context and the connection. *)
Definition drop_peer (p : nat) (q : remote) (s : sys) : sys :=
  peer_is p (set_closed true q) (set_reg (disconnect p q (s_reg s)) s).
(** The send on downloadQueue (411, 420, 453) meets RequestPieces (191-204), which starts
    requestPieceFromPeer. *)
Definition hand_over (p : nat) (s : sys) : option sys :=
  if s_requesting s then Some (spawn (TRequester p RLock) s) else None.
(** After HandleHave for one index: the next one, or back to the loop. *)
Definition next_have (rest : list Z) : hpc := match rest with [] => HLoop | i :: r => HHave i r end.
Definition after_queue (k : option (list Z)) : hpc := match k with None => HLoop | Some rest => HInterest rest end.

(** HandleMessage (peer.go:195-223): the peer afterwards and where the handler goes on. *)
Definition handle (q : remote) (m : message) : remote * hpc :=
  if m_type m =? CHOKE then (set_rchoked true q, HLoop)
  else if m_type m =? UNCHOKE then (set_rchoked false q, HQueue None)
  else if m_type m =? INTERESTED then (set_rinterested true q, HLoop)
  else if m_type m =? NOT_INTERESTED then (set_rinterested false q, HLoop)
  else if m_type m =? HAVE then (q, HHave (m_index m) [])
  else if m_type m =? BITFIELD then (q, next_have (bf_items (m_bitfield m)))
  else if m_type m =? REQUEST then (q, HRequest)
  else if m_type m =? PIECE then (q, HPiece (m_index m))
  else (q, HLoop).

(** One step of a connection handler. *)
Definition step_handler (s : sys) (t p : nat) (h : hpc) (c : choice) : option (sys * list event) :=
  match nth_error (s_peers s) p with
  | None => None
  | Some q =>
      let g := s_reg s in
      let go h' := goto t (THandler p h') in
      match h, c with
      | HConnect, COk =>                        (* server.go:271-280; 273 and 277 keep mu *)
          match s_mu s with
          | Some _ => None
          | None =>
              let refused := Some (go HRelease (set_mu (Some t) s), [EvRefused p]) in
              if 50 <=? zlen (g_active g) then refused
              else match mget bytes_eqb (place_of q) (g_idips g) with
                   | Some x => match mget bytes_eqb x (g_active g) with
                               | Some _ => refused
                               | None => Some (go HHandshake s, [])
                               end
                   | None => Some (go HHandshake s, [])
                   end
          end
      | HHandshake, CHand written r =>          (* 282-284 *)
          let '(id, o) := peer_handshake own_hash own_id (q_id q) written r in
          let s' := peer_is p (set_id id q) s in
          match o with
          | Ok _ => Some (go HRegister s', [])
          | _ => Some (go HRelease s', [EvRefused p])
          end
      | HRegister, COk =>                       (* 285-300 *)
          match s_mu s with
          | Some _ => None
          | None =>
              if 50 <=? zlen (g_active g) then Some (go HRelease s, [EvRefused p])
              else
                let g' := remember q g in
                match mget bytes_eqb (name_of q) (g_active g') with
                | Some _ => Some (go HRelease (set_reg g' s), [EvRefused p])
                | None =>
                    let g'' := set_active (mput bytes_eqb (name_of q) p (g_active g')) g' in
                    Some (go HBitfield (set_mu (Some t) (set_reg g'' s)), [])
                end
          end
      | HBitfield, COk =>                       (* 301-305 *)
          Some (go HLoop (set_mu None s), [EvSent p (mk_bitfield (s_have s)); EvConnected p (q_id q) (q_ip q)])
      | HBitfield, CErr => Some (go HRelease (set_mu None s), [EvRefused p])  (* 303 *)
      | HLoop, COk =>                           (* peer.go:178-182 *)
          if s_cancelled s || q_closed q then Some (go HDisconnect s, []) else Some (go HReceive s, [])
      | HReceive, CErr => Some (go HDisconnect s, [])                         (* 183-187 *)
      | HReceive, CPanic => Some (set_crashed true s, [EvMalformed p])        (* 183: Decode panics (PeerWire.v) *)
      | HReceive, CMsg m =>                     (* 188, 195-223; Index is a uint32 *)
          if m_index m <? 0 then None
          else let '(q', h') := handle q m in Some (go h' (peer_is p q' s), [EvReceived p m])
      | HHave i rest, COk =>                    (* 226 *)
          match bf_add (q_bits q) i with
          | None => crash s
          | Some b => Some (go (HRecord i rest) (peer_is p (set_bits b q) s), [])
          end
      | HRecord i rest, COk =>                  (* 227 *)
          match s_mu s with
          | Some _ => None
          | None => Some (go (HCheck i rest) (set_reg (record_index i p g) s), [])
          end
      | HCheck i rest, COk =>                   (* 228 *)
          match bf_has (s_have s) i with
          | None => crash s
          | Some true => Some (go (next_have rest) s, [])
          | Some false => Some (go (HQueue (Some rest)) s, [])
          end
      | HQueue k, COk =>                        (* server.go:244, 446-452 *)
          match s_mu s with
          | Some _ => None
          | None =>
              if q_closed q || q_rchoked q || smem Nat.eqb p (g_queued g) then Some (go (after_queue k) s, [])
              else Some (go (HToken k) (set_mu (Some t) (set_reg (set_queued (sadd Nat.eqb p (g_queued g)) g) s)), [])
          end
      | HToken k, COk =>                        (* 453-454 *)
          match hand_over p s with
          | Some s' => Some (go (after_queue k) (set_mu None s'), [])
          | None => None
          end
      | HInterest rest, COk =>                  (* peer.go:230, 152 *)
          if q_interested q then Some (go (next_have rest) s, [])
          else Some (go (HInterested rest) (peer_is p (set_interested true q) s), [])
      | HInterested rest, COk => Some (go (next_have rest) s, [EvSent p (mk_plain INTERESTED)])  (* 153 *)
      | HInterested rest, CErr => Some (go HDisconnect s, [])
      | HRequest, COk => Some (go HLoop s, [])  (* 235-258, see P2PConn.v *)
      | HRequest, CErr => Some (go HDisconnect s, [])
      | HRequest, CPanic => crash s
      | HPiece i, COk => Some (go HLoop s, [])  (* 267-277 *)
      | HPiece i, CErr => Some (go HDisconnect s, [])
      | HPiece i, CPanic => crash s
      | HPiece i, CStored ok =>
          match bf_add (s_have s) i with
          | None => None
          | Some b => Some (go (if ok then HLoop else HDisconnect) (set_have b s), [EvStored i])
          end
      | HDisconnect, COk =>                     (* 173, server.go:309-312 *)
          match s_mu s with
          | Some _ => None
          | None => Some (go HRelease (drop_peer p q s), [EvDisconnected p])
          end
      | HRelease, COk =>                        (* server.go:159, 183 *)
          Some (goto t TDone (set_slots (s_slots s - 1) s), [EvHandlerEnd])
      | _, _ => None
      end
  end.

(** One step of requestPieceFromPeer (376-424).  The deletions from queuedPeers (380, 387)
    are made together with the reads that lead to them; nobody can look in between, since
    mu is held. *)
Definition step_requester (s : sys) (t p : nat) (r : rpc) (c : choice) : option (sys * list event) :=
  match nth_error (s_peers s) p with
  | None => None
  | Some q =>
      let g := s_reg s in
      let unqueued := set_reg (set_queued (sdel Nat.eqb p (g_queued g)) g) s in
      match r, c with
      | RLock, COk =>                           (* 377-382 *)
          match s_mu s with
          | Some _ => None
          | None => if q_closed q || q_rchoked q then Some (goto t TDone unqueued, [])
                    else Some (goto t (TRequester p RRead) (set_mu (Some t) s), [])
          end
      | RRead, CSort rnd big =>                 (* 383-395 *)
          match bf_items (bf_difference (q_bits q) (s_have s)) with
          | [] => Some (goto t (TRequester p RNotInterest) unqueued, [EvLooked p])
          | l => match sort_slice (fun i => zlen (holders_of g i)) l rnd big with
                 | Some l' => Some (goto t (TRequester p (RPick l')) s, [EvLooked p])
                 | None => None
                 end
          end
      | RNotInterest, COk =>                    (* 388, peer.go:159 *)
          if q_interested q then Some (goto t (TRequester p RNotInterested) (peer_is p (set_interested false q) s), [])
          else Some (goto t TDone (set_mu None s), [])
      | RNotInterested, COk => Some (goto t TDone (set_mu None s), [EvSent p (mk_plain NOT_INTERESTED)])  (* peer.go:160 *)
      | RNotInterested, CErr => Some (goto t TDone (set_mu None s), [])
      | RPick (i :: l), COk =>                  (* 396-414 *)
          match mget Z.eqb i (g_inflight g) with
          | Some _ => Some (goto t (TRequester p (RPick l)) s, [])
          | None =>
              let g' := set_inflight (mput Z.eqb i p (g_inflight g)) g in
              Some (spawn (TPiece p i PRun) (goto t TDone (set_mu None (set_reg g' s))), [EvRequest p i])
          end
      | RPick [], COk =>                        (* 415-423 *)
          Some (spawn (TWaiter p false) (goto t TDone (set_mu None s)), [])
      | _, _ => None
      end
  end.

(** One step of the goroutine that requests a piece (401-412) and announces it (426-443).
    Peer.requestPiece returns nil only after the piece is complete (peer.go:299-301). *)
Definition step_piece (s : sys) (t p : nat) (i : Z) (r : ppc) (c : choice) : option (sys * list event) :=
  match nth_error (s_peers s) p with
  | None => None
  | Some q =>
      let g := s_reg s in
      let go r' := goto t (TPiece p i r') in
      match r, c with
      | PRun, COk => match bf_has (s_have s) i with
                     | Some true => Some (go PShare s, [EvRequested p i])
                     | _ => None
                     end
      | PRun, CErr => Some (go PToken s, [EvRequested p i])
      | PRun, CBad => Some (go PBlock s, [EvRequested p i])
      | PRun, CPanic => crash s
      | PShare, COrder l =>                     (* 430-432 *)
          match s_mu s with
          | Some _ => None
          | None => if same_peers (map snd (g_active g)) l then Some (go (PHave l) s, []) else None
          end
      | PHave (x :: l), COk =>                  (* 433-436 *)
          match nth_error (s_peers s) x with
          | Some qx => if q_closed qx then Some (go (PHave l) s, []) else Some (go (PSend x l) s, [])
          | None => None
          end
      | PSend x l, COk =>                       (* 437; nothing can be written to a closed connection *)
          match nth_error (s_peers s) x with
          | Some qx => if q_closed qx then None else Some (go (PHave l) s, [EvSent x (mk_have i)])
          | None => None
          end
      | PSend x l, CErr => Some (go PToken s, [])  (* 438-440 *)
      | PHave [], COk => Some (go PToken s, [])
      | PBlock, COk =>                          (* 316-322 *)
          match s_mu s with
          | Some _ => None
          | None => Some (go PToken (drop_peer p q (set_reg (block_addrs q g) s)), [EvBlocked p])
          end
      | PToken, COk =>                          (* 411 *)
          match hand_over p s with
          | Some s' => Some (go PDelete s', [])
          | None => None
          end
      | PDelete, COk =>                         (* 402 *)
          Some (goto t TDone (set_reg (set_inflight (mdel Z.eqb i (g_inflight g)) g) s), [])
      | _, _ => None
      end
  end.

(** One step of goroutine t. *)
Definition step_thread (s : sys) (t : nat) (c : choice) : option (sys * list event) :=
  match nth_error (s_threads s) t with
  | Some (THandler p h) => step_handler s t p h c
  | Some (TRequester p r) => step_requester s t p r c
  | Some (TPiece p i r) => step_piece s t p i r c
  | Some (TDial tp false) =>                    (* 356-365 *)
      match c, s_mu s, remote_addr tp with
      | COk, None, Some a =>
          if smem bytes_eqb a (g_blocked (s_reg s)) then Some (goto t TDialEnd s, []) else Some (goto t (TDial tp true) s, [])
      | _, _, _ => None
      end
  | Some (TDial tp true) =>                     (* 366-372, 344-353 *)
      match remote_addr tp, parse_ip (p_ip tp) with
      | Some a, Some ip =>
          match c with
          | CErr => Some (goto t TDialEnd s, [EvDial a])
          | COk => if dialable tp then
                     let q := new_peer (copied_id (p_id tp)) ip (p_port tp) in
                     Some (goto t (THandler (List.length (s_peers s)) HConnect) (set_peers (s_peers s ++ [q]) s), [EvDial a])
                   else None
          | _ => None
          end
      | _, _ => None
      end
  | Some TDialEnd =>                            (* 183 *)
      match c with COk => Some (goto t TDone (set_slots (s_slots s - 1) s), [EvHandlerEnd]) | _ => None end
  | Some (TWaiter p false) =>                   (* 416-419 *)
      match c with
      | CErr => if s_cancelled s then Some (goto t TDone s, []) else None
      | COk => Some (goto t (TWaiter p true) s, [])
      | _ => None
      end
  | Some (TWaiter p true) =>                    (* 420 *)
      match c, hand_over p s with COk, Some s' => Some (goto t TDone s', []) | _, _ => None end
  | Some (TUnchoke p false) =>                  (* peer.go:145 *)
      match c, nth_error (s_peers s) p with
      | COk, Some q => if q_choked q then Some (goto t (TUnchoke p true) (peer_is p (set_choked false q) s), [])
                       else Some (goto t TDone s, [])
      | _, _ => None
      end
  | Some (TUnchoke p true) =>                   (* 146 *)
      match c with
      | COk => Some (goto t TDone s, [EvSent p (mk_plain UNCHOKE)])
      | CErr => Some (goto t TDone s, [])
      | _ => None
      end
  | Some (TStop false) =>                       (* server.go:125-131 *)
      match c, s_mu s with
      | COk, None => Some (goto t (TStop true) (set_mu (Some t) (set_cancelled true s)), [])
      | _, _ => None
      end
  | Some (TStop true) =>                        (* 132-138 *)
      match c with
      | COk => Some (goto t TDone (set_mu None
                 (fold_left (fun s p => match nth_error (s_peers s) p with Some q => drop_peer p q s | None => s end)
                    (map snd (g_active (s_reg s))) s)), [])
      | _ => None
      end
  | Some TDone | None => None
  end.

Inductive action :=
| AGo (t : nat) (c : choice)              (* a goroutine takes a step *)
| AAccept (ip : bytes) (port : Z)         (* Accept returns a connection *)
| AServeEnd                               (* Accept fails, or ctx is done *)
| ADialTake | ADialSpawn | ADialEnd       (* DialPeers *)
| ARequestsEnd                            (* RequestPieces returns *)
| AAdd (tp : Tracker.peer)                (* AddPeer, from Start or Announce *)
| AUnchoke                                (* UnchokePeers *)
| AFail                                   (* Announce or Start fails *)
| AStop.                                  (* Stop is called *)

(** AddPeer (249-268); newPeerQueue holds 50. *)
Definition add_peer (tp : Tracker.peer) (s : sys) : option (sys * list event) :=
  match s_mu s with
  | Some _ => None
  | None =>
      let g := s_reg s in
      match remote_addr tp with
      | None => Some (s, [])
      | Some a =>
          if smem bytes_eqb a (g_known g) || smem bytes_eqb a (g_blocked g) then Some (s, [])
          else if zlen (s_queue s) <? 50
          then Some (set_reg (set_known (sadd bytes_eqb a (g_known g)) g) (set_queue (s_queue s ++ [tp]) s), [EvQueued a])
          else Some (s, [])
      end
  end.
(** One action; [None]: it is not possible.  After a panic nothing is. *)
Definition exec (s : sys) (a : action) : option (sys * list event) :=
  if s_crashed s then None
  else match a with
  | AGo t c => step_thread s t c
  | AAccept ip port =>                          (* 148-166; 50 slots (67) *)
      if negb (s_serving s) then None
      else if s_slots s <? 50
      then Some (spawn (THandler (List.length (s_peers s)) HConnect)
                   (set_slots (s_slots s + 1) (set_peers (s_peers s ++ [new_peer zero_id ip port]) s)), [EvHandler])
      else Some (s, [])
  | AServeEnd =>                                (* 143-151; errgroup cancels ctx, which calls Stop (99-102) *)
      if s_serving s then Some (spawn (TStop false) (set_cancelled true (set_serving false s)), []) else None
  | ADialTake =>                                (* 175 *)
      match s_dialing s, s_taken s, s_queue s with
      | true, None, tp :: l => Some (set_taken (Some tp) (set_queue l s), [])
      | _, _, _ => None
      end
  | ADialSpawn =>                               (* 179-187 *)
      match s_dialing s, s_taken s with
      | true, Some tp =>
          if s_slots s <? 50
          then Some (spawn (TDial tp false) (set_slots (s_slots s + 1) (set_taken None s)), [EvHandler])
          else None
      | _, _ => None
      end
  | ADialEnd => if s_dialing s && s_cancelled s then Some (set_dialing false s, []) else None  (* 173-178 *)
  | ARequestsEnd => if s_requesting s && s_cancelled s then Some (set_requesting false s, []) else None  (* 194-195 *)
  | AAdd tp => add_peer tp s
  | AUnchoke =>                                 (* 206-226 *)
      match s_mu s with
      | Some _ => None
      | None => Some (set_threads (s_threads s ++
                  flat_map (fun p => match nth_error (s_peers s) p with
                                     | Some q => if q_closed q || negb (q_choked q) then [] else [TUnchoke p false]
                                     | None => []
                                     end) (map snd (g_active (s_reg s)))) s, [])
      end
  | AFail => Some (spawn (TStop false) (set_cancelled true s), [])  (* 96-102, 107-119 *)
  | AStop => Some (spawn (TStop false) s, [])   (* 124 *)
  end.

Fixpoint runs (s : sys) (l : list action) : option (sys * list event) :=
  match l with
  | [] => Some (s, [])
  | a :: l' => match exec s a with
               | Some (s1, e1) => match runs s1 l' with Some (s2, e2) => Some (s2, e1 ++ e2) | None => None end
               | None => None
               end
  end.
(** New (61-83) and Start (85-106) after Load and Listen: [have] is what Load found. *)
Definition started (have : bytes) : sys :=
  {| s_peers := []; s_threads := []; s_mu := None; s_slots := 0; s_queue := [];
     s_reg := {| g_known := []; g_addrs := []; g_idips := []; g_blocked := []; g_active := []; g_holders := []; g_queued := []; g_inflight := [] |};
     s_have := have; s_serving := true; s_dialing := true; s_taken := None; s_requesting := true; s_cancelled := false; s_crashed := false |}.
End Server.
