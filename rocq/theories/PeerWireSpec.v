(** Vocabulary for the statements about the peer wire protocol (BEP 3). *)
From Verif Require Import GoBase PeerWire.

(** Messages as the protocol defines them. *)
Inductive msg :=
| MKeepalive | MChoke | MUnchoke | MInterested | MNotInterested
| MHave (i : Z) | MBitfield (b : bytes) | MRequest (i b l : Z) | MPiece (i b : Z) (data : bytes) | MCancel (i b l : Z).

Definition u32 (z : Z) : Prop := 0 <= z < 2 ^ 32.

(** Big-endian 32-bit number. *)
Definition be32 (z : Z) (w : bytes) : Prop := exists a b c d, w = [a; b; c; d] /\ b2z a * 2 ^ 24 + b2z b * 2 ^ 16 + b2z c * 2 ^ 8 + b2z d = z.

(** The body of a frame, after the length prefix. *)
Inductive body : msg -> bytes -> Prop :=
| b_keepalive : body MKeepalive []
| b_choke : body MChoke ["000"%byte]
| b_unchoke : body MUnchoke ["001"%byte]
| b_interested : body MInterested ["002"%byte]
| b_not_interested : body MNotInterested ["003"%byte]
| b_have i w : be32 i w -> body (MHave i) ("004"%byte :: w)
| b_bitfield b : body (MBitfield b) ("005"%byte :: b)
| b_request i b l wi wb wl : be32 i wi -> be32 b wb -> be32 l wl -> body (MRequest i b l) ("006"%byte :: wi ++ wb ++ wl)
| b_piece i b d wi wb : be32 i wi -> be32 b wb -> body (MPiece i b d) ("007"%byte :: wi ++ wb ++ d)
| b_cancel i b l wi wb wl : be32 i wi -> be32 b wb -> be32 l wl -> body (MCancel i b l) ("008"%byte :: wi ++ wb ++ wl).

(** A whole frame: length prefix and body. *)
Definition frame (m : msg) (w : bytes) : Prop := exists pre bd, w = pre ++ bd /\ body m bd /\ be32 (zlen bd) pre.

(** The Go value for a message: what the package's constructors return. *)
Definition go_msg (m : msg) : message :=
  match m with
  | MKeepalive => mk_plain KEEPALIVE
  | MChoke => mk_plain CHOKE
  | MUnchoke => mk_plain UNCHOKE
  | MInterested => mk_plain INTERESTED
  | MNotInterested => mk_plain NOT_INTERESTED
  | MHave i => mk_have i
  | MBitfield b => mk_bitfield b
  | MRequest i b l => mk_request i b l
  | MPiece i b d => mk_piece i b d
  | MCancel i b l => mk_cancel i b l
  end.

(** All numbers fit in 32 bits, the frame too. *)
Definition fits (m : msg) : Prop :=
  match m with
  | MHave i => u32 i
  | MBitfield b => 1 + zlen b < 2 ^ 32
  | MRequest i b l | MCancel i b l => u32 i /\ u32 b /\ u32 l
  | MPiece i b d => u32 i /\ u32 b /\ 9 + zlen d < 2 ^ 32
  | _ => True
  end.

(** No zero-byte reads: every segment of the connection carries data. *)
Definition proper (r : conn) : Prop := Forall (fun s => s <> []) r.

(** A frame whose type and length do not match: too short for its fields. *)
Definition truncated (t : byte) (payload : bytes) : Prop :=
  (b2z t = 4 /\ zlen payload < 4) \/ ((b2z t = 6 \/ b2z t = 8) /\ zlen payload < 12) \/ (b2z t = 7 /\ zlen payload < 8).

(** Both fields are 20-byte arrays. *)
Definition hs_ok (h : handshake) : Prop := List.length (hs_info h) = 20%nat /\ List.length (hs_peer h) = 20%nat.

(** Same outcome, and the same bytes left on the connection. *)
Definition same_out {A} (x y : res rderr (A * conn)) : Prop :=
  match x, y with
  | Ok (a, r), Ok (b, r') => a = b /\ concat r = concat r'
  | Err e, Err e' => e = e'
  | Panic, Panic => True
  | _, _ => False
  end.
