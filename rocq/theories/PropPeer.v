(** C19-C23: the peer wire protocol codec. *)
From Verif Require Import GoBase GoBaseProofs PeerWire PeerWireSpec PeerWireProofs.

Definition ex_hs : handshake := {| hs_info := bs "aaaaaaaaaaaaaaaaaaaa"; hs_peer := bs "-XX0000-bbbbbbbbbbbb" |}.

(** ** C19 *)
Theorem C19_handshake_round_trip :
  forall h r rest, hs_ok h -> proper r -> concat r = hs_encode h ++ rest ->
  zlen (hs_encode h) = 68 /\ exists r', hs_decode r = Ok (h, r') /\ concat r' = rest.
Proof. intros h r rest O P E. split; [apply hs_encode_length; exact O|apply hs_round_trip; assumption]. Qed.
Print Assumptions C19_handshake_round_trip.
Theorem C19_handshake_accepts_exactly :
  forall r h rest, proper r ->
  (exists r', hs_decode r = Ok (h, r') /\ concat r' = rest) <->
  (hs_ok h /\ exists reserved, List.length reserved = 8%nat /\
     concat r = "019"%byte :: bs "BitTorrent protocol" ++ reserved ++ hs_info h ++ hs_peer h ++ rest).
Proof. exact hs_decode_iff. Qed.
Print Assumptions C19_handshake_accepts_exactly.
Example C19_case : hs_ok ex_hs /\ proper [firstn 7 (hs_encode ex_hs); skipn 7 (hs_encode ex_hs) ++ bs "more"; bs "!"] /\
  hs_decode [firstn 7 (hs_encode ex_hs); skipn 7 (hs_encode ex_hs) ++ bs "more"; bs "!"] = Ok (ex_hs, [bs "more"; bs "!"]).
Proof. split; [split; reflexivity|]. split; [repeat constructor; discriminate|]. vm_compute. reflexivity. Qed.

(** ** C20 *)
Theorem C20_message_round_trip :
  forall m r rest, fits m -> concat r = encode_msg (go_msg m) ++ rest ->
  exists r', read_message r = Ok (go_msg m, r') /\ concat r' = rest.
Proof. exact message_round_trip. Qed.
Print Assumptions C20_message_round_trip.
(** The encoding is the one the protocol defines, and any such frame is understood. *)
Theorem C20_encoding_is_the_protocol : forall m, fits m -> frame m (encode_msg (go_msg m)).
Proof. exact encode_frame. Qed.
Print Assumptions C20_encoding_is_the_protocol.
Theorem C20_frames_are_understood :
  forall m w r rest, frame m w -> concat r = w ++ rest -> exists r', read_message r = Ok (go_msg m, r') /\ concat r' = rest.
Proof. exact read_frame. Qed.
Print Assumptions C20_frames_are_understood.
Example C20_case : fits (MPiece 3 16384 (bs "data")) /\
  read_message [bs ""; firstn 3 (encode_msg (mk_piece 3 16384 (bs "data"))); skipn 3 (encode_msg (mk_piece 3 16384 (bs "data"))) ++ bs "x"]
    = Ok (mk_piece 3 16384 (bs "data"), [bs "x"]).
Proof. split; [repeat split; cbv; intuition discriminate|vm_compute; reflexivity]. Qed.

(** ** C21 *)
Theorem C21_segmentation_irrelevant :
  forall r r', concat r = concat r' ->
  same_out (read_message r) (read_message r') /\ forall n, read_messages n r = read_messages n r'.
Proof. intros r r' E. split; [apply decode_seg; exact E|intros n; apply messages_seg; exact E]. Qed.
Print Assumptions C21_segmentation_irrelevant.
Theorem C21_handshake_segmentation_irrelevant :
  forall r r', proper r -> proper r' -> concat r = concat r' -> same_out (hs_decode r) (hs_decode r').
Proof. exact hs_seg. Qed.
Print Assumptions C21_handshake_segmentation_irrelevant.
(** A whole conversation arrives, in order, whatever the segmentation. *)
Theorem C21_conversation :
  forall ms r n, Forall fits ms -> concat r = concat (map (fun m => encode_msg (go_msg m)) ms) -> (List.length ms < n)%nat ->
  read_messages n r = (map go_msg ms, Err EEof).
Proof. intros ms r n F. exact (messages_round_trip ms F r n). Qed.
Print Assumptions C21_conversation.
Example C21_case : Forall fits [MKeepalive; MHave 7; MRequest 1 2 3] /\
  read_messages 9 [bs ""; ["000"; "000"; "000"; "000"; "000"]%byte; ["000"; "000"; "005"; "004"; "000"; "000"; "000"]%byte; "007"%byte :: encode_msg (mk_request 1 2 3)]
   = ([mk_plain KEEPALIVE; mk_have 7; mk_request 1 2 3], Err EEof).
Proof. split; [repeat constructor; cbv; intuition discriminate|vm_compute; reflexivity]. Qed.
(** With zero-byte reads, which io.Reader permits, the handshake does depend on the
    segmentation: its first byte is read with a bare Read. *)
Theorem C21_empty_read_refuted : exists r r', concat r = concat r' /\
  hs_decode r = Err EProtocol /\ hs_decode r' = Ok (ex_hs, []).
Proof. exists [[]; hs_encode ex_hs], [hs_encode ex_hs]. split; [reflexivity|]. split; vm_compute; reflexivity. Qed.
Print Assumptions C21_empty_read_refuted.

(** ** C22 *)
(** The reader panics exactly on complete frames that are too short for their type. *)
Theorem C22_panics_exactly_partial :
  forall r, read_message r = Panic <->
  exists pre t p rest, concat r = pre ++ (t :: p) ++ rest /\ be32 (zlen (t :: p)) pre /\ truncated t p.
Proof. exact read_panic_iff. Qed.
Print Assumptions C22_panics_exactly_partial.
Theorem C22_refuted : read_message [["000"; "000"; "000"; "001"; "004"]%byte] = Panic.
Proof. vm_compute. reflexivity. Qed.
Print Assumptions C22_refuted.
Theorem C22_handshake_never_panics : forall r, hs_decode r <> Panic.
Proof.
  intros r H. unfold hs_decode in H. destruct (read_one r) as [[b r1]| |] eqn:E; try discriminate.
  - destruct (negb (b2z b =? zlen proto)); [discriminate|]. destruct (read_full (hs_length - 1) r1) as [[d r2]| |] eqn:R; try discriminate.
    + destruct (negb (bytes_eqb (firstn 19 d) proto)); discriminate.
    + exact (read_full_no_panic _ _ R).
  - destruct r as [|[|? [|]] ?]; discriminate.
Qed.
Print Assumptions C22_handshake_never_panics.

(** ** C23 *)
Theorem C23_length_prefix :
  forall m, fits m -> exists pre bd, encode_msg (go_msg m) = pre ++ bd /\ List.length pre = 4%nat /\ be32 (zlen bd) pre.
Proof.
  intros m F. destruct (encode_frame m F) as (pre & bd & -> & _ & B). exists pre, bd. split; [reflexivity|]. split; [eapply be32_len; exact B|exact B].
Qed.
Print Assumptions C23_length_prefix.
Example C23_case : fits (MBitfield (bs "xyz")) /\ firstn 4 (encode_msg (mk_bitfield (bs "xyz"))) = ["000"; "000"; "000"; "004"]%byte.
Proof. split; [cbv; reflexivity|vm_compute; reflexivity]. Qed.
